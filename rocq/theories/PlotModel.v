(** * Model of what lattpy draws (lattpy/plotting.py, [Lattice.plot], [LatticeStructure.plot_cell])

    A plot is the list of the lines and discs that are handed to matplotlib, with their coordinates and colours.  Not
    modelled: the axes, line widths, legends, grids, margins; the text labels of [show_indices] are in DrawModel.v. *)
From Coq Require Import String List ZArith QArith Bool Arith.
From Verif Require Import Np LinAlg AtomModel BasisModel SpatialModel StructureModel DataModel LatticeModel IdentityModel PathModel.
Import ListNotations.
Open Scope nat_scope.
Open Scope list_scope.

(** Points and vectors on the line get a second coordinate.  lattpy/plotting.py:283-285, 332-335, 547-548. *)
Definition planar (p : vec) : vec := match p with [x] => [x; 0%Q] | _ => p end.

(** A line from [ln_start] to [ln_end].  lattpy/plotting.py:287-289. *)
Record line := mkLine { ln_start : vec; ln_end : vec; ln_color : pyval }.

(** [draw_vectors] with one vector and its starting point.  lattpy/plotting.py:280-290. *)
Definition draw_vector (v pos : vec) (color : pyval) : line := mkLine (planar pos) (vadd (planar pos) (planar v)) color.

(** The discs of [draw_sites]; the radius is that of the atom times [dt_scale].  lattpy/plotting.py:545-581. *)
Record dots := mkDots { dt_points : list vec; dt_radius : pyval; dt_scale : Q; dt_color : pyval; dt_label : option pyval }.

(** [draw_sites].  lattpy/plotting.py:545-553. *)
Definition draw_sites (points : list vec) (radius : pyval) (scale : Q) (color : pyval) (label : option pyval) : dots :=
  mkDots (map planar points) radius scale color label.

(** [atom.color or f"C{alpha}"].  lattpy/lattice.py:1224, structure.py:1496. *)
Definition disc_color (alpha : nat) (color : pyval) : pyval :=
  if truthy color then color else VStr (String.append "C" (show_nat alpha)).

(** [self.alpha(i)] as an index of the colour table.  lattpy/lattice.py:1236, 1240, 1249. *)
Definition site_alpha (d : data) (i : nat) : option nat :=
  match nth_error (d_indices d) i with None => None | Some ind => Some (site_atom ind) end.

(** [colors[at1][at2]].  lattpy/lattice.py:1241, 1251, structure.py:1514. *)
Definition color_at (t : list (list pyval)) (a1 a2 : nat) : option pyval :=
  match nth_error t a1 with None => None | Some row => nth_error row a2 end.

(** The line to a regular neighbour.  lattpy/lattice.py:1239-1242.  [None]: IndexError. *)
Definition bond_line (d : data) (colors : list (list pyval)) (at1 : nat) (p1 : vec) (j : nat) : option line :=
  match nth_error (d_positions d) j, site_alpha d j with
  | Some p2, Some at2 => option_map (draw_vector (vsub p2 p1) p1) (color_at colors at1 at2)
  | _, _ => None
  end.

(** The line to a periodic neighbour.  lattpy/lattice.py:1247-1253. *)
Definition stub_line (b : basis) (d : data) (colors : list (list pyval)) (pscale : Q) (at1 : nat) (p1 : vec) (e : nat * list Z)
  : option line :=
  match nth_error (d_positions d) (fst e), site_alpha d (fst e) with
  | Some x, Some at2 =>
    let x := translate b (map Z.opp (snd e)) x in
    option_map (draw_vector (vscale pscale (vsub x p1)) p1) (color_at colors at1 at2)
  | _, _ => None
  end.

(** The periodic neighbours of a site and their translations.  lattpy/lattice.py:1244-1246. *)
Definition periodic_row (d : data) (i : nat) : option (list (nat * list Z)) :=
  match neighbor_mask d i None (Some true) false, nth_error (d_neighbors d) i, nth_error (d_pnvecs d) i with
  | Some mask, Some nbrs, Some pn => Some (combine (select mask nbrs) (select mask pn))
  | _, _, _ => None
  end.

(** The lines that start at site [i].  lattpy/lattice.py:1235-1253. *)
Definition site_lines (b : basis) (d : data) (hop per : list (list pyval)) (show_periodic : bool) (pscale : Q) (i : nat)
  : option (list line) :=
  match site_alpha d i, nth_error (d_positions d) i, DataModel.get_neighbors d i None (Some false) true with
  | Some at1, Some p1, Some js =>
    match all_some (map (bond_line d hop at1 p1) js),
          (if show_periodic then
             match periodic_row d i with
             | None => None
             | Some es => all_some (map (stub_line b d per pscale at1 p1) es)
             end
           else Some []) with
    | Some l1, Some l2 => Some (l1 ++ l2)
    | _, _ => None
    end
  | _, _, _ => None
  end.

(** The discs of the sites with atom [alpha].  lattpy/lattice.py:1222-1227.  [None]: AttributeError. *)
Definition atom_dots (l : lattice) (d : data) (alpha : nat) : option dots :=
  match nth_error (st_atoms (lt_structure l)) alpha with
  | None => None
  | Some at_ =>
    match atom_getattr at_ "color", atom_getattr at_ "name", atom_getattr at_ "radius" with
    | Some col, Some name, Some radius =>
      Some (draw_sites (DataModel.get_positions d (Z.of_nat alpha)) radius 1 (disc_color alpha col) (Some name))
    | _, _, _ => None
    end
  end.

(** [Lattice.plot]: the discs and the lines.  lattpy/lattice.py:1214-1253.  [OtherError]: IndexError or AttributeError.
    The data of an unbuilt lattice cannot be indexed (line 1225). *)
Definition plot (l : lattice) (show_periodic : bool) (pscale : Q) (con_colors : list (Z * Z * pyval))
  : result (list dots * list line) :=
  let b := lt_basis l in
  let n := length (st_atoms (lt_structure l)) in
  if 3 <? b_dim b then Raise ValueError
  else
    match lt_data l with
    | None => if n =? 0 then Ok ([], []) else Raise IndexError
    | Some d =>
      match all_some (map (atom_dots l d) (seq 0 n)),
            connection_color_array n (VStr "k") con_colors, connection_color_array n (VStr "0.5") [] with
      | Some discs, Some hop, Some per =>
        match all_some (map (site_lines b d hop per show_periodic pscale) (seq 0 (num_sites d))) with
        | None => Raise OtherError
        | Some rows => Ok (discs, concat rows)
        end
      | _, _, _ => Raise OtherError
      end
    end.

(** ** The unit cell *)

(** [itertools.permutations(l, r)]: ordered choices of [r] entries.  lattpy/plotting.py:690, 695. *)
Fixpoint permutations {A} (r : nat) (l : list A) : list (list A) :=
  match r with
  | O => [[]]
  | S r' => flat_map (fun k => match nth_error l k with
                               | None => []
                               | Some x => map (cons x) (permutations r' (firstn k l ++ skipn (S k) l))
                               end) (seq 0 (length l))
  end.

(** The lines of the outline: [ax.plot] between two points.  lattpy/plotting.py:689-699. *)
Definition outline (dim : nat) (vectors : list vec) (color : pyval) : list line :=
  if 1 <? dim then
    flat_map (fun vp => match vp with [v; pos] => [mkLine pos (vadd pos v) color] | _ => [] end) (permutations 2 vectors) ++
    (if dim =? 3 then
       flat_map (fun vs => match vs with
                           | v :: rest => let pos := fold_right vadd (vzero dim) rest in [mkLine pos (vadd pos v) color]
                           | [] => []
                           end) (permutations 3 vectors)
     else [])
  else [].

(** [draw_unit_cell]: the arrows from the origin and the outline.  lattpy/plotting.py:684-700, 323-346. *)
Definition draw_unit_cell (vectors : list vec) (outlines : bool) (color : pyval) : list line * list line :=
  let dim := length vectors in
  (map (fun v => draw_vector v (vzero dim) color) vectors, if outlines then outline dim vectors color else []).

(** The neighbours of atom [i] at one distance: lines, and the atoms and positions outside the cell.
    lattpy/structure.py:1509-1521.  An IndexError is caught. *)
Definition cell_neighbors (s : structure) (hop : list (list pyval)) (i : nat) (p1 : vec) (distidx : nat)
  : result (list line * list (nat * vec)) :=
  match StructureModel.get_neighbors s (repeat 0%Z (b_dim (st_basis s))) i distidx with
  | Raise IndexError => Ok ([], [])
  | Raise e => Raise e
  | Ok indices =>
    let positions := StructureModel.get_positions (st_basis s) (st_positions s) indices in
    Ok (map2 (fun idx p2 => draw_vector (vsub p2 p1) p1 (nth (site_atom idx) (nth i hop []) VNone)) indices positions,
        flat_map (fun ip => if existsb (fun z => negb (z =? 0)%Z) (site_cell (fst ip)) then [(site_atom (fst ip), snd ip)] else [])
          (combine indices positions))
  end.

(** All results or the first exception.  lattpy/structure.py:1506-1521. *)
Fixpoint all_ok {A} (l : list (result A)) : result (list A) :=
  match l with
  | [] => Ok []
  | Raise e :: _ => Raise e
  | Ok x :: r => match all_ok r with Ok xs => Ok (x :: xs) | Raise e => Raise e end
  end.

(** Lexicographic order of points.  lattpy/structure.py:1526 ([np.unique] with [axis=0]). *)
Fixpoint vec_leb (u v : vec) : bool :=
  match u, v with
  | [], _ => true
  | _ :: _, [] => false
  | x :: xs, y :: ys => if Qeq_bool x y then vec_leb xs ys else Qle_bool x y
  end.

(** A plot of the unit cell: arrows and outline, lines to the neighbours, discs of the atoms and of the neighbours outside
    the cell.  lattpy/structure.py:1478-1529. *)
Record cell_plot := mkCellPlot { cp_arrows : list line; cp_outline : list line; cp_lines : list line; cp_atoms : list dots; cp_ghosts : list dots }.

(** The disc of atom [i].  lattpy/structure.py:1494-1500.  [None]: AttributeError. *)
Definition cell_dots (s : structure) (i : nat) : option dots :=
  match nth_error (st_atoms s) i, nth_error (st_positions s) i with
  | Some at_, Some p =>
    match atom_getattr at_ "color", atom_getattr at_ "name", atom_getattr at_ "radius" with
    | Some col, Some name, Some radius => Some (draw_sites [p] radius 1 (disc_color i col) (Some name))
    | _, _, _ => None
    end
  | _, _ => None
  end.

(** The discs of the neighbours of kind [i] outside the cell.  lattpy/structure.py:1522-1529. *)
Definition ghost_dots (atoms : list dots) (outside : list (nat * vec)) (i : nat) : list dots :=
  match map snd (filter (fun jp => fst jp =? i) outside), nth_error atoms i with
  | (_ :: _) as positions, Some a => [draw_sites (unique vec_leb positions) (dt_radius a) (6#10) (dt_color a) None]
  | _, _ => []
  end.

(** [LatticeStructure.plot_cell].  lattpy/structure.py:1478-1529.  [OtherError]: AttributeError or IndexError. *)
Definition plot_cell (s : structure) (show_neighbors show_vecs show_cell : bool) (con_colors : list (Z * Z * pyval)) : result cell_plot :=
  let b := st_basis s in
  let n := length (st_atoms s) in
  if 3 <? b_dim b then Raise ValueError
  else
    let (arrows, outl) := if show_vecs then draw_unit_cell (b_vectors b) show_cell (VStr "k") else ([], []) in
    match all_some (map (cell_dots s) (seq 0 n)), connection_color_array n (VStr "k") con_colors with
    | Some atoms, Some hop =>
      if negb show_neighbors || (n =? 0) then Ok (mkCellPlot arrows outl [] atoms [])
      else
        match st_connections s with
        | None => Raise TypeError                      (* int(np.max(None)) *)
        | Some conns =>
          match all_ok (flat_map (fun i => map (cell_neighbors s hop i (nth i (st_positions s) [])) (seq 0 (max_connections conns))) (seq 0 n)) with
          | Raise e => Raise e
          | Ok parts =>
            let outside := concat (map snd parts) in
            Ok (mkCellPlot arrows outl (concat (map fst parts)) atoms (flat_map (ghost_dots atoms outside) (seq 0 n)))
          end
        end
    | _, _ => Raise OtherError
    end.
