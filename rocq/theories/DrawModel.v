(** * Model of the index labels ([plotting.text], [plotting.draw_indices]) and of [VoronoiTree.draw]

    A picture is the list of the texts, points, lines and surfaces that are handed to matplotlib, with their coordinates.
    Not modelled: the axes, colours, sizes and line widths.  [ragged_ok] tells whether numpy makes an array of objects
    of rows of different lengths (before 1.24) or raises. *)
From Coq Require Import String List ZArith QArith Bool Arith.
From Verif Require Import Np LinAlg BasisModel SpatialModel StructureModel DataModel LatticeModel IdentityModel VoronoiModel PlotModel.
Import ListNotations.
Open Scope nat_scope.
Open Scope list_scope.

(** ** Labels *)

(** The argument [offset]: missing, a float, or a vector.  lattpy/plotting.py:463-466. *)
Inductive label_offset := NoOffset | OffsetBy (x : Q) | OffsetVector (v : vec).

(** The offset as a vector; [dim] is the length of the first position.  lattpy/plotting.py:463-466. *)
Definition offset_vector (dim : nat) (o : label_offset) : vec :=
  match o with
  | NoOffset => repeat 0%Q (Nat.max 2 dim)
  | OffsetBy x => repeat x (Nat.max 2 dim)
  | OffsetVector v => v
  end.

(** A text and its place.  lattpy/plotting.py:472. *)
Record label := mkLabel { lb_text : string; lb_place : vec }.

(** The place of one text.  lattpy/plotting.py:469-471.  In one dimension [[pos, 0]] is a list of an array and a number:
    numpy raises, or makes an array of objects whose first entry is an array of one number (here: that number).
    [None]: ValueError (also of shapes that do not fit), or TypeError of [ax.text] without two coordinates. *)
Definition label_place (ragged_ok : bool) (pos offset : vec) : option vec :=
  let pos2 := match pos with [x] => if ragged_ok then Some [x; 0%Q] else None | _ => Some pos end in
  match pos2 with
  | None => None
  | Some p =>
    if length p <? 2 then None
    else match offset with
    | [x] => Some (map (fun c => (c + x)%Q) p)
    | _ => if length p =? length offset then Some (vadd p offset) else None
    end
  end.

(** [text]: one text per pair of [zip].  lattpy/plotting.py:461-474.  [np.atleast_2d([])] is one row without entries.
    [None]: ValueError or TypeError. *)
Definition text (ragged_ok : bool) (strings : list string) (positions : list vec) (o : label_offset) : option (list label) :=
  let positions := match positions with [] => [[]] | _ => positions end in
  let offset := offset_vector (length (hd [] positions)) o in
  all_some (map (fun sp => option_map (mkLabel (fst sp)) (label_place ragged_ok (snd sp) offset)) (combine strings positions)).

(** [draw_indices].  lattpy/plotting.py:649-652. *)
Definition draw_indices (ragged_ok : bool) (positions : list vec) (o : label_offset) : option (list label) :=
  text ragged_ok (map show_nat (seq 0 (length positions))) positions o.

(** The labels of [Lattice.plot(show_indices=True)].  lattpy/lattice.py:1254-1256, 211.  [None]: ValueError. *)
Definition plot_labels (ragged_ok : bool) (d : data) (o : label_offset) : option (list label) :=
  match all_some (map (fun i => nth_error (d_positions d) i) (seq 0 (num_sites d))) with
  | None => None
  | Some positions => draw_indices ragged_ok positions o
  end.

(** ** Voronoi diagrams *)

(** The exceptions: [segments[0]] or [vertices[0]] of nothing (IndexError), an array of rows of different lengths
    (ValueError), and too many coordinates for [ax.scatter] (TypeError).  lattpy/plotting.py:239, 384, 420,
    spatial.py:427-436. *)
Inductive sketch_error := NoSegments | RaggedRows | TooManyAxes.

(** Outcome of a drawing function.  lattpy/plotting.py:239, 384, 420. *)
Inductive sketch (A : Type) := Sketched (a : A) | Broken (e : sketch_error).
Arguments Sketched {A} a. Arguments Broken {A} e.

(** A following statement is executed if there was no exception.  lattpy/spatial.py:418-437. *)
Definition then_draw {A B} (x : sketch A) (f : A -> sketch B) : sketch B := match x with Sketched a => f a | Broken e => Broken e end.

(** [draw_points] of rows with [dim] columns.  lattpy/plotting.py:379-384.  More than three columns do not fit the
    arguments of [scatter]. *)
Definition draw_points (dim : nat) (points : list vec) : sketch (list vec) :=
  if 3 <? dim then Broken TooManyAxes else Sketched (map planar points).

(** [draw_vectors] of all vectors from the origin.  lattpy/plotting.py:278-289.  Called for two or three coordinates. *)
Definition draw_rays (dim : nat) (vectors : list vec) : sketch (list (list vec)) :=
  match vectors with
  | [] => Broken NoSegments
  | _ => Sketched (map (fun v => [repeat 0%Q dim; vadd (repeat 0%Q dim) v]) vectors)
  end.

(** [np.array] of rows of points.  lattpy/spatial.py:427, 431-433, 436. *)
Definition array_of (ragged_ok : bool) (rows : list (list vec)) : sketch (list (list vec)) :=
  match rows with
  | [] => Sketched []
  | r :: _ => if ragged_ok || forallb (fun s => length s =? length r) rows then Sketched rows else Broken RaggedRows
  end.

(** [draw_lines] and [draw_surfaces]: the first row is indexed.  lattpy/plotting.py:239-247, 420-424. *)
Definition draw_rows (rows : list (list vec)) : sketch (list (list vec)) :=
  match rows with [] => Broken NoSegments | _ => Sketched rows end.

(** [self.vertices[i]] for the indices of one ridge.  lattpy/spatial.py:427, 432, 436. *)
Definition ridge_points_of (ws : ws_cell) (e : list nat) : list vec := map (fun i => nth i (ws_vertices ws) []) e.

(** [np.append(i, i[0])].  lattpy/spatial.py:432. *)
Definition closed (e : list nat) : list nat := match e with [] => [] | i :: _ => e ++ [i] end.

(** The picture: points of the data, rays to them, vertices, lines and surfaces.  lattpy/spatial.py:418-437. *)
Record picture := mkPicture {
  pc_data : list vec; pc_rays : list (list vec); pc_vertices : list vec; pc_lines : list (list vec); pc_faces : list (list vec) }.

(** [VoronoiTree.draw] without axes given.  lattpy/spatial.py:414-444.  The parameters are those of the method. *)
Definition voronoi_draw (ragged_ok : bool) (ws : ws_cell) (draw_data points draw fill : bool) : sketch picture :=
  let dim := ws_dim ws in
  then_draw (if draw_data then draw_points dim (ws_points ws) else Sketched []) (fun data =>
  then_draw (if draw_data && (1 <? dim) then draw_rays dim (ws_points ws) else Sketched []) (fun rays =>
  then_draw (if points then draw_points dim (ws_vertices ws) else Sketched []) (fun verts =>
  then_draw (if (dim =? 2) && draw then then_draw (array_of ragged_ok (map (ridge_points_of ws) (ws_edges ws))) draw_rows
             else if (dim =? 3) && draw then
               then_draw (array_of ragged_ok (map (fun e => ridge_points_of ws (closed e)) (ws_edges ws))) draw_rows
             else Sketched []) (fun lines =>
  then_draw (if (dim =? 3) && fill then then_draw (array_of ragged_ok (map (ridge_points_of ws) (ws_edges ws))) draw_rows
             else Sketched []) (fun faces =>
  Sketched (mkPicture data rays verts lines faces)))))).
