(** * Model of lattpy/basis.py *)
From Coq Require Import List ZArith QArith Qround Qabs Qcanon Bool Arith.
From Verif Require Import Np LinAlg.
Import ListNotations.
Open Scope Q_scope.

(** A basis object: [b_mat] is [_vectors] (the lattice vectors are its columns) and [b_inv] is
    [_vectors_inv], the result of [np.linalg.inv].  lattpy/basis.py:91-99.
    [np.linalg.inv] is external; what is assumed of it is [inverse_of] in SpecBasis.v. *)
Record basis := mkBasis { b_mat : mat; b_inv : mat }.

(** [dim].  lattpy/basis.py:97, 162-164. *)
Definition b_dim (b : basis) : nat := length (b_mat b).

(** [vectors]: the lattice vectors as rows.  lattpy/basis.py:166-169. *)
Definition b_vectors (b : basis) : mat := transpose (b_dim b) (b_mat b).

(** [transform], for one point.  lattpy/basis.py:266-267. *)
Definition transform (b : basis) (x : vec) : vec := matvec (b_mat b) x.

(** [itransform], for one point.  lattpy/basis.py:228-229. *)
Definition itransform (b : basis) (x : vec) : vec := matvec (b_inv b) x.

(** [translate], for one index vector.  lattpy/basis.py:323-325. *)
Definition translate (b : basis) (n : list Z) (r : vec) : vec :=
  vadd r (matvec (b_mat b) (of_Z n)).

(** The default [r = 0.0] of [translate], broadcast.  lattpy/basis.py:272. *)
Definition vzero (d : nat) : vec := repeat 0 d.

(** [itranslate].  lattpy/basis.py:354-358. *)
Definition itranslate (b : basis) (x : vec) : list Z * vec :=
  let nvec := vfloor (itransform b x) in
  (nvec, vsub x (translate b nvec (vzero (b_dim b)))).

(** [np.cross] of two three-dimensional vectors.  lattpy/basis.py:432-434, spatial.py:274. *)
Definition cross (a b : vec) : vec :=
  match a, b with
  | [a1; a2; a3], [b1; b2; b3] =>
    [a2 * b3 - a3 * b2; a3 * b1 - a1 * b3; a1 * b2 - a2 * b1]
  | _, _ => []
  end.

(** [cell_volume] of spatial.py:243-278 for dimension 1 to 3 ([None] above: the Gram determinant of line 277
    is not modelled). *)
Definition cell_volume (vectors : mat) : option Q :=
  match vectors with
  | [[v]] => Some (Qabs v)
  | [[a1; a2]; [b1; b2]] => Some (Qabs (a1 * b2 - a2 * b1))
  | [v1; v2; v3] => Some (Qabs (dot v1 (cross v2 v3)))
  | _ => None
  end.

(** [vectors3d].  lattpy/basis.py:171-176: [vectors[:dim,:dim] = _vectors] on the identity, then the
    transpose, so rows are lattice vectors.  More than three dimensions raise (broadcast error). *)
Definition vectors3d (b : basis) : option mat :=
  match b_mat b with
  | [[a]] => Some [[a; 0; 0]; [0; 1; 0]; [0; 0; 1]]
  | [[a; c]; [e; f]] => Some [[a; e; 0]; [c; f; 0]; [0; 0; 1]]
  | [[m11; m12; m13]; [m21; m22; m23]; [m31; m32; m33]] =>
    Some [[m11; m21; m31]; [m12; m22; m32]; [m13; m23; m33]]
  | _ => None
  end.

(** [is_reciprocal].  lattpy/basis.py:384-389.  [two_pi] is the double [2 * np.pi]. *)
Fixpoint is_reciprocal_loop (two_pi tol : Q) (pairs : list (vec * vec)) : bool :=
  match pairs with
  | [] => true
  | (a, b) :: rest =>
    if negb (Qle_bool (Qabs (dot a b - two_pi)) tol) then false
    else is_reciprocal_loop two_pi tol rest
  end.

(** [is_reciprocal].  lattpy/basis.py:385-389. *)
Definition is_reciprocal (two_pi tol : Q) (b : basis) (vecs : mat) : bool :=
  is_reciprocal_loop two_pi tol (combine (b_vectors b) vecs).

(** The sign loop of [reciprocal_vectors].  lattpy/basis.py:441-449; [None] is ValueError. *)
Fixpoint fix_signs (two_pi tol : Q) (check : bool) (pairs : list (vec * vec)) : option mat :=
  match pairs with
  | [] => Some []
  | (v, r) :: rest =>
    let d := dot v r in
    if Qle_bool (Qabs (d + two_pi)) tol then
      option_map (cons (vscale (-(1)) r)) (fix_signs two_pi tol check rest)
    else if check && negb (Qle_bool (Qabs (d - two_pi)) tol) then None
    else option_map (cons r) (fix_signs two_pi tol check rest)
  end.

(** [reciprocal_vectors].  lattpy/basis.py:424-451; [None] when an exception is raised. *)
Definition reciprocal_vectors (two_pi tol : Q) (check : bool) (b : basis) : option mat :=
  match b_vectors b with
  | [[a]] => Some [[two_pi / a]]
  | vecs =>
    match vectors3d b, cell_volume vecs with
    | Some [a1; a2; a3], Some vol =>
      let factor := two_pi / vol in
      let b1 := cross a2 a3 in
      let b2 := cross a3 a1 in
      let b3 := cross a1 a2 in
      let rvecs := map (vscale factor) [b1; b2; b3] in
      let rvecs := map (firstn (b_dim b)) (firstn (b_dim b) rvecs) in
      fix_signs two_pi tol check (combine vecs rvecs)
    | _, _ => None
    end
  end.

(** The basis with the given lattice vectors (rows); [inv] is [np.linalg.inv].  lattpy/basis.py:91-99: [_vectors] is the
    transpose. *)
Definition new_basis (inv : mat -> mat) (vectors : mat) : basis :=
  let m := transpose (length vectors) vectors in mkBasis m (inv m).

(** [reciprocal_lattice]: [min_negative] is passed as the tolerance.  lattpy/basis.py:483-485.  [None]: an exception. *)
Definition reciprocal_lattice (inv : mat -> mat) (two_pi : Q) (min_negative : bool) (b : basis) : option basis :=
  option_map (new_basis inv) (reciprocal_vectors two_pi (if min_negative then 1 else 0) false b).

(** Comparison of canonical rationals (used so that [np.unique] identifies equal numbers).
    lattpy/basis.py:529, 532. *)
Definition qc_leb (x y : Qc) : bool := Qle_bool x y.

(** [get_neighbor_cells].  lattpy/basis.py:518-542.
    Norms are represented by their squares (same order, same equalities in exact arithmetic);
    [comparison] compares squared distances; [None] is the IndexError of line 532. *)
Definition get_neighbor_cells (b : basis) (distidx : nat) (include_origin : bool)
  (comparison : Q -> Q -> bool) : option (list (list Z)) :=
  let max_factor := Z.of_nat (distidx + 1) in
  let axis_factors := zrange (- max_factor) (max_factor + 1) in
  let factors := product (repeat axis_factors (b_dim b)) in
  let distances := map (fun f => Q2Qc (norm2 (matvec (b_mat b) (of_Z f)))) factors in
  let lengths := unique qc_leb (map (fun v => Q2Qc (norm2 v)) (b_vectors b)) in
  let max_distidx := (distidx + length lengths)%nat in
  match nth_error (unique qc_leb distances) max_distidx with
  | None => None
  | Some maxdist =>
    let factors := select (map (fun d : Qc => comparison d maxdist) distances) factors in
    let origin := repeat 0%Z (b_dim b) in
    let is_origin f := forallb (fun p => Z.eqb (fst p) (snd p)) (combine f origin) in
    let idx := where_ (map is_origin factors) in
    if include_origin && (length idx =? 0)%nat then Some (origin :: factors)
    else if negb include_origin && negb (length idx =? 0)%nat
    then Some (delete idx factors)
    else Some factors
  end.

(** [np.prod(shape)].  lattpy/basis.py:600, 630. *)
Definition zprod (l : list Z) : Z := fold_right Z.mul 1%Z l.

(** [get_cell_superindex] for one index: [sum(ind[d] * prod(shape[d+1:]) for d in range(dim))].
    lattpy/basis.py:595-603.  int64 overflow is not modelled. *)
Definition get_cell_superindex (dim : nat) (index shape : list Z) : Z :=
  fold_left (fun acc d => (acc + nth d index 0 * zprod (skipn (d + 1) shape))%Z) (seq 0 dim) 0%Z.

(** The loop of [get_cell_index] over the axes.  lattpy/basis.py:628-632; [val, rest = divmod(rest, ...)]. *)
Fixpoint cell_index_loop (ds : list nat) (rest : Z) (shape : list Z) : list Z :=
  match ds with
  | [] => [rest]
  | d :: ds' =>
    let p := zprod (skipn (d + 1) shape) in
    (rest / p)%Z :: cell_index_loop ds' (rest mod p)%Z shape
  end.

(** [get_cell_index] for one super-index.  lattpy/basis.py:623-634. *)
Definition get_cell_index (dim : nat) (super_index : Z) (shape : list Z) : list Z :=
  cell_index_loop (seq 0 (dim - 1)) super_index shape.
