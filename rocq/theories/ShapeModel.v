(** * Model of lattpy/shape.py *)
From Coq Require Import List ZArith QArith Qminmax Bool Arith.
From Verif Require Import Np LinAlg SpatialModel.
Import ListNotations.
Open Scope Q_scope.

(** [sqrt(q) <= t] and [t <= sqrt(q)] for q >= 0, decided without the square root.
    lattpy/shape.py:193-194, 238-241. *)
Definition sqrt_leb (q t : Q) : bool := Qle_bool 0 t && Qle_bool q (t * t).
(** The other direction.  lattpy/shape.py:238-241. *)
Definition leb_sqrt (t q : Q) : bool := Qle_bool t 0 || Qle_bool (t * t) q.

(** Elementwise comparison of two vectors, [np.all(u <= v)].  lattpy/shape.py:141-144. *)
Fixpoint vleb (u v : vec) : bool :=
  match u, v with
  | x :: xs, y :: ys => Qle_bool x y && vleb xs ys
  | _, _ => true
  end.

(** The shapes.  lattpy/shape.py:23-25, 85-90, 183-185, 228-230, 284-287.
    A box may have its own basis: [sb_mat] is [basis.T] and [sb_inv] the result of
    [np.linalg.inv(basis.T)] (line 140).  A hull has the attributes [points] and [equations] (normal, offset) of
    [scipy.spatial.ConvexHull]. *)
Inductive shape :=
| SBox (size pos : vec)
| SBoxBasis (size pos : vec) (sb_mat sb_inv : mat)
| SCircle (pos : vec) (radius : Q)
| SDonut (pos : vec) (radius_outer radius_inner : Q)
| SHull (points : list vec) (equations : list (vec * Q)).

(** [dim].  lattpy/shape.py:23-25, 88, 184, 229, 285-286. *)
Definition shape_dim (s : shape) : nat :=
  match s with
  | SBox size _ => length size
  | SBoxBasis size _ _ _ => length size
  | SCircle pos _ => length pos
  | SDonut pos _ _ => length pos
  | SHull points _ => length (nth 0 points [])
  end.

(** Corners of the box in its own coordinates: [pos + product(zip(zeros, size))].
    lattpy/shape.py:93-94. *)
Definition box_corners (size pos : vec) : list vec :=
  map (vadd pos) (product (map (fun s => [0; s]) size)).

(** Column-wise minimum and maximum of a non-empty list of points: [(min, max)] per axis.
    lattpy/shape.py:135-136; lattice.py:251-252. *)
Definition point_limits (points : list vec) : list (Q * Q) :=
  match points with
  | [] => []
  | p0 :: rest =>
    map (fun j =>
      let col := map (fun p => nth j p 0) rest in
      (qmin_list (nth j p0 0) col, qmax_list (nth j p0 0) col)) (seq 0 (length p0))
  end.

(** [limits()].  lattpy/shape.py:129-130, 133-136, 187-190, 232-235, 289-291. *)
Definition shape_limits (s : shape) : list (Q * Q) :=
  match s with
  | SBox size pos => point_limits (box_corners size pos)
  | SBoxBasis size pos m _ => point_limits (map (matvec m) (box_corners size pos))
  | SCircle pos r => map (fun x => (x + - r, x + r)) pos
  | SDonut pos ro _ => map (fun x => (x + - ro, x + ro)) pos
  | SHull points _ => point_limits points
  end.

(** Box test in own coordinates.  lattpy/shape.py:141-144. *)
Definition box_contains (size pos p : vec) (tol : Q) : bool :=
  vleb (map (fun x => x - tol) pos) p && vleb p (map (fun x => x + tol) (vadd pos size)).

(** [contains(points, tol)] for one point.  lattpy/shape.py:138-144, 192-194, 237-241, 293-301. *)
Definition shape_contains (s : shape) (p : vec) (tol : Q) : bool :=
  match s with
  | SBox size pos => box_contains size pos p tol
  | SBoxBasis size pos _ inv => box_contains size pos (matvec inv p) tol
  | SCircle pos r => sqrt_leb (dist2 p pos) (r + tol)
  | SDonut pos ro ri =>
    leb_sqrt (ri - tol) (dist2 p pos) && sqrt_leb (dist2 p pos) (ro + tol)
  | SHull _ equations => forallb (fun e => Qle_bool (dot p (fst e) + snd e) tol) equations
  end.

(** Edges and surfaces of a box as numbers of corners, [None] unless in two or three dimensions.
    lattpy/shape.py:95, 97-98, 100-117. *)
Definition box_edges (dim : nat) : option (list (nat * nat)) :=
  match dim with
  | 2%nat => Some [(0, 1); (0, 2); (2, 3); (3, 1)]%nat
  | 3%nat => Some [(0, 2); (2, 3); (3, 1); (1, 0); (4, 6); (6, 7); (7, 5); (5, 4); (0, 4); (2, 6); (3, 7); (1, 5)]%nat
  | _ => None
  end.
(** lattpy/shape.py:96, 99, 118-128. *)
Definition box_surfaces (dim : nat) : option (list (list nat)) :=
  match dim with
  | 2%nat => Some [[0; 1; 3; 2; 0]]%nat
  | 3%nat => Some [[0; 2; 3; 1]; [4; 6; 7; 5]; [0; 4; 6; 2]; [2; 6; 7; 3]; [3; 7; 5; 1]; [1; 5; 4; 0]]%nat
  | _ => None
  end.
