(** * Model of lattpy/spatial.py: vrange, VoronoiTree and WignerSeitzCell

    [None] is an exception.  External code: [voronoi] is [scipy.spatial.Voronoi] ([None]: it raises), [near P x] is the
    index returned by [scipy.spatial.KDTree(P).query(x)] for one point.  Drawing is in DrawModel.v. *)
From Coq Require Import List ZArith QArith Qround Qminmax Bool Arith.
From Verif Require Import Np LinAlg UtilsModel SpatialModel BasisModel.
Import ListNotations.
Open Scope nat_scope.
Open Scope list_scope.

(** An argument that is a number, used for all axes, or a sequence.  lattpy/spatial.py:206-212, 474, 479. *)
Inductive per_axis (A : Type) := Same (x : A) | Each (l : list A).
Arguments Same {A} x. Arguments Each {A} l.

(** The values for all axes.  lattpy/spatial.py:206-212, 474, 479. *)
Definition spread {A} (dim : nat) (x : per_axis A) : list A :=
  match x with Same x => repeat x dim | Each l => l end.

(** ** vrange *)

(** Number of values of [np.mgrid[start:stop:step]] and of [np.arange]: the ceiling of the quotient.
    lattpy/spatial.py:216, 475. *)
Definition num_steps (start stop step : Q) : Z := Qceiling ((stop - start) / step).

(** The [n] values of such a range.  lattpy/spatial.py:216, 475. *)
Definition steps_from (start step : Q) (n : Z) : vec :=
  map (fun k => (start + inject_Z k * step)%Q) (zrange 0 n).

(** The rows of a table of numbers ordered by one column.  lattpy/spatial.py:219. *)
Definition qaxis_leb (axis : nat) (u v : vec) : bool := Qle_bool (nth axis u 0%Q) (nth axis v 0%Q).

(** [vrange] after the parsing of the arguments; [step = None] stands for a missing or [None] step (spacing one).
    lattpy/spatial.py:198-222 without [dtype].  A step of zero and negative lengths are exceptions of numpy, as is an
    axis that does not exist; no axis at all is one, too. *)
Definition vrange (start stop : vec) (step : option (per_axis Q)) (sort_axis : option nat) : option (list vec) :=
  let step := match step with None => repeat 1%Q (length start) | Some s => spread (length start) s end in
  let slices := combine (combine start stop) step in
  if existsb (fun s => Qeq_bool (snd s) 0) slices then None
  else if existsb (fun s => (num_steps (fst (fst s)) (snd (fst s)) (snd s) <? 0)%Z) slices then None
  else if length slices =? 0 then None
  else
    let array := product (map (fun s => steps_from (fst (fst s)) (snd s) (num_steps (fst (fst s)) (snd (fst s)) (snd s))) slices) in
    match sort_axis with
    | None => Some array
    | Some a => if a <? length slices then Some (sort_stable (qaxis_leb a) array) else None
    end.

(** [np.atleast_1d].  lattpy/spatial.py:208-209. *)
Definition at_least_1d {A} (x : per_axis A) : list A := match x with Same x => [x] | Each l => l end.

(** [vrange] as it is called: one positional argument is the stop, two are start and stop, three start, stop and step;
    [kw] is the keyword [step].  lattpy/spatial.py:198-222. *)
Definition vrange_call (first : per_axis Q) (args : list (option (per_axis Q))) (kw : option (option (per_axis Q)))
  (sort_axis : option nat) : option (list vec) :=
  let step := match kw with None => Some (Same 1%Q) | Some s => s end in
  match args with
  | [] => vrange (map (fun _ => 0%Q) (at_least_1d first)) (at_least_1d first) step sort_axis
  | [Some stop] => vrange (at_least_1d first) (at_least_1d stop) step sort_axis
  | [Some stop; s] => vrange (at_least_1d first) (at_least_1d stop) s sort_axis
  | _ => None                                            (* wrong number of values, or no stop *)
  end.

(** ** VoronoiTree *)

(** The attributes of [scipy.spatial.Voronoi] that are read: vertices, and for each ridge its two points and its
    vertices (-1 for the one at infinity).  lattpy/spatial.py:383-388. *)
Record diagram := mkDiagram { dg_vertices : list vec; dg_ridge_points : list (nat * nat); dg_ridge_vertices : list (list Z) }.

(** The object; [ws_root] is [_root].  lattpy/spatial.py:390-395, 456. *)
Record ws_cell := mkWS {
  ws_dim : nat; ws_points : list vec; ws_edges : list (list nat); ws_vertices : list vec; ws_root : nat }.

(** The constructors of [VoronoiTree] and [WignerSeitzCell].  lattpy/spatial.py:373-395, 455-456.  In one dimension
    the vertices are half the points, without zeros.  [None]: no points, or the diagram raises. *)
Definition new_cell (voronoi : list vec -> option diagram) (near : list vec -> vec -> nat) (points : list vec) : option ws_cell :=
  match points with
  | [] => None
  | p0 :: _ =>
    let dim := length p0 in
    let root := near points (repeat 0%Q dim) in
    if dim =? 1 then
      let vertices := map (map (fun x => (x / 2)%Q)) points in
      let vertices := filter (fun v => negb (forallb (fun x => Qeq_bool x 0) v)) vertices in
      Some (mkWS dim points [] vertices root)
    else
      match voronoi points with
      | None => None
      | Some dg =>
        let simplices := map snd (combine (dg_ridge_points dg) (dg_ridge_vertices dg)) in
        let edges := filter (forallb (fun i => (0 <=? i)%Z)) simplices in
        Some (mkWS dim points (map (map Z.to_nat) edges) (dg_vertices dg) root)
      end
  end.

(** ** WignerSeitzCell *)

(** [limits]: one row (minimum, maximum) per axis.  lattpy/spatial.py:459-462.  [None]: no vertices. *)
Definition ws_limits (ws : ws_cell) : option (list vec) :=
  match ws_vertices ws with
  | [] => None
  | v0 :: rest =>
    Some (map (fun j => let col := map (fun v => nth j v 0%Q) rest in [qmin_list (nth j v0 0%Q) col; qmax_list (nth j v0 0%Q) col])
      (seq 0 (length v0)))
  end.

(** [size]: the second row of the limits minus the first.  lattpy/spatial.py:464-466.  [None]: IndexError. *)
Definition ws_size (ws : ws_cell) : option vec :=
  match ws_limits ws with
  | Some (l0 :: l1 :: _) => Some (vsub l1 l0)
  | _ => None
  end.

(** [check], for one point.  lattpy/spatial.py:468-470. *)
Definition ws_check (near : list vec -> vec -> nat) (ws : ws_cell) (x : vec) : bool := near (ws_points ws) x =? ws_root ws.

(** The limits scaled by [1 + offset].  lattpy/spatial.py:473, 478. *)
Definition ws_scaled_limits (ws : ws_cell) (offset : Q) : option (list vec) :=
  option_map (map (vscale (1 + offset))) (ws_limits ws).

(** [arange].  lattpy/spatial.py:472-475.  [None]: no vertices, or a step of zero. *)
Definition ws_arange (ws : ws_cell) (steps : per_axis Q) (offset : Q) : option (list vec) :=
  match ws_scaled_limits ws offset with
  | None => None
  | Some limits =>
    let axes := combine limits (spread (ws_dim ws) steps) in
    if existsb (fun a => Qeq_bool (snd a) 0) axes then None
    else Some (map (fun a => steps_from (nth 0 (fst a) 0%Q) (snd a) (num_steps (nth 0 (fst a) 0%Q) (nth 1 (fst a) 0%Q) (snd a))) axes)
  end.

(** [np.linspace(lo, hi, num=num, endpoint=endpoint)].  lattpy/spatial.py:482. *)
Definition linspace (lo hi : Q) (num : nat) (endpoint : bool) : vec :=
  let div := if endpoint then num - 1 else num in
  map (fun k => (lo + inject_Z (Z.of_nat k) * ((hi - lo) / inject_Z (Z.of_nat div)))%Q) (seq 0 num).

(** [linspace].  lattpy/spatial.py:477-483. *)
Definition ws_linspace (ws : ws_cell) (nums : per_axis nat) (offset : Q) (endpoint : bool) : option (list vec) :=
  match ws_scaled_limits ws offset with
  | None => None
  | Some limits =>
    Some (map (fun a => linspace (nth 0 (fst a) 0%Q) (nth 1 (fst a) 0%Q) (snd a) endpoint) (combine limits (spread (ws_dim ws) nums)))
  end.

(** [np.meshgrid] with its points in the order of the array: the first two axes are exchanged.
    lattpy/spatial.py:487, 489, 498-499. *)
Definition mesh_points (axes : list vec) : list vec :=
  match axes with
  | x :: y :: rest => map (fun p => match p with b :: a :: r => a :: b :: r | _ => p end) (product (y :: x :: rest))
  | _ => product axes
  end.

(** [meshgrid]; a point outside the cell has NaN in all its coordinates ([None]).  lattpy/spatial.py:485-503. *)
Definition ws_meshgrid (near : list vec -> vec -> nat) (ws : ws_cell) (nums : option (per_axis nat)) (steps : option (per_axis Q))
  (offset : Q) (check endpoint : bool) : option (list (option vec)) :=
  let axes := match nums, steps with
              | Some n, _ => ws_linspace ws n offset endpoint
              | None, Some s => ws_arange ws s offset
              | None, None => None                      (* ValueError *)
              end in
  option_map (fun axes => map (fun p => if check && negb (ws_check near ws p) then None else Some p) (mesh_points axes)) axes.

(** [p1 + (p2 - p1) / 2].  lattpy/spatial.py:516, 525. *)
Definition center (p1 p2 : vec) : vec := vadd p1 (map (fun x => (x / 2)%Q) (vsub p2 p1)).

(** [np.mean(edges, axis=0)] of points with [dim] coordinates.  lattpy/spatial.py:522. *)
Definition mean (dim : nat) (points : list vec) : vec :=
  map (fun j => (fold_left Qplus (map (fun p => nth j p 0%Q) points) 0 / inject_Z (Z.of_nat (length points)))%Q) (seq 0 dim).

(** All results of the loop over the edges, or the first exception.  lattpy/spatial.py:513-516, 519-525. *)
Fixpoint all_some {A} (l : list (option A)) : option (list A) :=
  match l with
  | [] => Some []
  | None :: _ => None
  | Some x :: r => option_map (cons x) (all_some r)
  end.

(** [symmetry_points]: corners, edge centres and face centres (the origin is the zero vector).
    lattpy/spatial.py:505-530.  [None]: NotImplementedError above three dimensions, or a simplex of the wrong size. *)
Definition ws_symmetry_points (ws : ws_cell) : option (vec * list vec * option (list vec) * option (list vec)) :=
  let origin := repeat 0%Q (ws_dim ws) in
  let corners := ws_vertices ws in
  let simplex s := take [] (ws_vertices ws) s in
  match ws_dim ws with
  | 1 => Some (origin, corners, None, None)
  | 2 =>
    match all_some (map (fun s => match simplex s with [p1; p2] => Some (center p1 p2) | _ => None end) (ws_edges ws)) with
    | None => None
    | Some edge_centers => Some (origin, corners, Some edge_centers, None)
    end
  | 3 =>
    match all_some (map (fun s => chain (simplex s) true) (ws_edges ws)) with
    | None => None
    | Some edges =>
      Some (origin, corners, Some (concat (map (map (fun e => center (fst e) (snd e))) edges)),
            Some (map (fun s => mean 3 (simplex s)) (ws_edges ws)))
    end
  | _ => None
  end.

(** ** The cells of a basis *)

(** sqrt(x) <= c * sqrt(y) + e for c, e, x, y >= 0, decided without square roots.  lattpy/basis.py:491 ([np.isclose]). *)
Definition sqrt_le (c e x y : Q) : bool :=
  let r := (x - c * c * y - e * e)%Q in
  Qle_bool r 0 || Qle_bool (r * r) (4 * c * c * e * e * y).

(** [np.isclose] of two lengths given by their squares: |x - y| <= 1e-8 + 1e-5 * y.  lattpy/basis.py:491, 533. *)
Definition isclose2 (x y : Q) : bool :=
  sqrt_le (100001 # 100000) (1 # 100000000) x y &&
  sqrt_le 1 (1 # 100000000) ((99999 # 100000) * (99999 # 100000) * y) x.

(** [wigner_seitz_cell].  lattpy/basis.py:552-554. *)
Definition wigner_seitz_cell (voronoi : list vec -> option diagram) (near : list vec -> vec -> nat) (b : basis) : option ws_cell :=
  match get_neighbor_cells b 0 true isclose2 with
  | None => None
  | Some nvecs => new_cell voronoi near (map (fun n => matvec (b_mat b) (of_Z n)) nvecs)
  end.

(** [brillouin_zone]; [min_negative] is passed on as the tolerance.  lattpy/basis.py:572-574. *)
Definition brillouin_zone (inv : mat -> mat) (two_pi : Q) (voronoi : list vec -> option diagram) (near : list vec -> vec -> nat)
  (min_negative : bool) (b : basis) : option ws_cell :=
  match reciprocal_lattice inv two_pi min_negative b with
  | None => None
  | Some r => wigner_seitz_cell voronoi near r
  end.
