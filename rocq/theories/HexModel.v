(** * Model of the lattices with irrational lattice vectors (over the real numbers)

    lattpy/basis.py:116-134, 324-325 and __init__.py:281-283, 311-313.  Floating point numbers are real numbers here. *)
From Coq Require Import List ZArith Reals.
From Verif Require Import RealModel.
Import ListNotations.
Open Scope R_scope.

(** [c * np.array(m)].  lattpy/basis.py:125, 131. *)
Definition rmscale (c : R) (m : rmat) : rmat := map (map (Rmult c)) m.

(** Lattice vectors (rows) of [oblique]; the angle is in radian.  lattpy/basis.py:116-120. *)
Definition oblique_vectors (alpha a1 a2 : R) : rmat := [[a1; 0]; [a2 * cos alpha; a2 * sin alpha]].

(** Lattice vectors of [hexagonal].  lattpy/basis.py:122-126. *)
Definition hexagonal_vectors (a : R) : rmat := rmscale (a / 2) [[3; sqrt 3]; [3; - sqrt 3]].

(** Lattice vectors of [hexagonal3d].  lattpy/basis.py:128-134. *)
Definition hexagonal3d_vectors (a az : R) : rmat := rmscale (a / 2) [[3; sqrt 3; 0]; [3; - sqrt 3; 0]; [0; 0; az]].

(** [translate] for the lattice vectors [vectors]: [r + np.inner(nvec, self._vectors)], where [_vectors] has the
    lattice vectors as columns.  lattpy/basis.py:95, 324-325. *)
Definition rtranslate (vectors : rmat) (nvec : list Z) (r : rvec) : rvec :=
  map (fun i => nth i r 0 + rdot (map IZR nvec) (rcol vectors i)) (seq 0 (length r)).

(** Positions of the two atoms of [honeycomb] and [graphene].  lattpy/__init__.py:282-283, 312-313. *)
Definition honeycomb_positions (a : R) : list rvec := [[0; 0]; [a; 0]].
