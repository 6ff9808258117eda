(** * Vectors and matrices over the rationals

    Vectors are lists of [Q], matrices lists of rows.  Each definition names the numpy calls it stands
    for; floating point rounding is not modelled. *)
From Coq Require Import List ZArith QArith Qround Qabs Bool Arith.
From Verif Require Import Np.
Import ListNotations.
Open Scope Q_scope.

(** One- and two-dimensional arrays of numbers, as lists of rows of rationals (for the numpy arrays of floats of
    lattpy/basis.py:91-99, 167). *)
Definition vec := list Q.
(** Rows of a matrix.  lattpy/basis.py:91-99. *)
Definition mat := list vec.

(** Inner product: one entry of [np.inner]/[np.dot].
    lattpy/basis.py:229, 267, 325, 387, 442; spatial.py:275. *)
Definition dot (u v : vec) : Q := fold_right Qplus 0 (map2 Qmult u v).

(** [np.inner(x, M)] for a one-dimensional [x]: entry [i] is the inner product with row [i].
    lattpy/basis.py:229, 267, 325; shape.py:130, 140. *)
Definition matvec (M : mat) (x : vec) : vec := map (fun row => dot row x) M.

(** Elementwise sum and difference.  lattpy/basis.py:325, 357; structure.py:651. *)
Definition vadd (u v : vec) : vec := map2 Qplus u v.
(** Elementwise difference.  lattpy/basis.py:357. *)
Definition vsub (u v : vec) : vec := map2 Qminus u v.

(** Scaling.  lattpy/basis.py:435, 445. *)
Definition vscale (c : Q) (v : vec) : vec := map (Qmult c) v.

(** Transposition of a matrix with [n] columns.  lattpy/basis.py:95, 169, 176. *)
Definition transpose (n : nat) (M : mat) : mat :=
  map (fun j => map (fun row => nth j row 0) M) (seq 0 n).

(** Sum of squares: the square of [np.linalg.norm] / of [distance].
    lattpy/spatial.py:60, 85; basis.py:525, 529.  Norms themselves are irrational; they are only compared or
    rounded, see [sqrt_micro]. *)
Definition norm2 (v : vec) : Q := dot v v.
(** The square of [distance].  lattpy/spatial.py:60, 85. *)
Definition dist2 (u v : vec) : Q := norm2 (vsub u v).

(** Integer vectors used as coordinates.  lattpy/basis.py:324-325. *)
Definition of_Z (n : list Z) : vec := map inject_Z n.

(** [np.floor(x).astype(np.int64)].  lattpy/basis.py:356.  Overflow of int64 is not modelled. *)
Definition vfloor (x : vec) : list Z := map Qfloor x.

(** Equality of vectors up to equality of rationals (an entry may have many fractions); used in statements only, no
    code of /repo. *)
Definition veq (u v : vec) : Prop := Forall2 Qeq u v.

(** [np.all(u == v)].  lattpy/structure.py:251; lattice.py:306. *)
Fixpoint veqb (u v : vec) : bool :=
  match u, v with
  | [], [] => true
  | x :: xs, y :: ys => Qeq_bool x y && veqb xs ys
  | _, _ => false
  end.

(** [round(sqrt(q), 6)] in units of 1e-6, half to even, for the squared distance [q >= 0].
    lattpy/spatial.py:60-62, 85-87, 365-366 (DIST_DECIMALS = 6, structure.py:101). *)
Definition sqrt_micro (q : Q) : Z :=
  let s := q * (1000000000000 # 1) in
  let n := Z.sqrt (Qfloor s) in
  let half := (inject_Z (2 * n + 1) * inject_Z (2 * n + 1)) * (1 # 4) in
  if Qle_bool half s then
    (if Qle_bool s half then (if Z.even n then n else n + 1) else n + 1)%Z
  else n.

(** [itertools.product] of the given lists.  lattpy/basis.py:521, shape.py:93, structure.py:1051. *)
Fixpoint product {A} (ls : list (list A)) : list (list A) :=
  match ls with
  | [] => [[]]
  | l :: rest => flat_map (fun x => map (cons x) (product rest)) l
  end.

(** [range(lo, hi)] as integers.  lattpy/basis.py:520, spatial.py:157. *)
Definition zrange (lo hi : Z) : list Z :=
  map (fun i => (lo + Z.of_nat i)%Z) (seq 0 (Z.to_nat (hi - lo))).
