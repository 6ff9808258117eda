(** * Model of the trigonometric functions of lattpy (over the real numbers)

    lattpy/spatial.py:281-312 (compute_vectors), 533-578 (rotations) and structure.py:875-878 (fourier_weights).
    Floating point numbers are real numbers here; [None] stands for a result that is not a number. *)
From Coq Require Import List ZArith Reals.
Import ListNotations.
Open Scope R_scope.

(** Arrays of real numbers with one and two axes (numpy arrays of floats).  lattpy/spatial.py:533-579. *)
Definition rvec := list R.
(** Rows of a matrix.  lattpy/spatial.py:533-548. *)
Definition rmat := list (list R).

(** [np.dot] of two vectors.  lattpy/spatial.py:569, 578; structure.py:877. *)
Fixpoint rdot (u v : rvec) : R :=
  match u, v with
  | x :: xs, y :: ys => x * y + rdot xs ys
  | _, _ => 0
  end.

(** Column [j] of a matrix, in [np.dot].  lattpy/spatial.py:569, 578. *)
Definition rcol (m : rmat) (j : nat) : rvec := map (fun r => nth j r 0) m.

(** [np.dot(a, m)] of a vector and a matrix with [cols] columns.  lattpy/spatial.py:569, 578. *)
Definition vecmat (cols : nat) (a : rvec) (m : rmat) : rvec :=
  map (fun j => rdot a (rcol m j)) (seq 0 cols).

(** [np.dot(a, b)] of two matrices.  lattpy/spatial.py:557-561. *)
Definition rmatmul (cols : nat) (a b : rmat) : rmat := map (fun r => vecmat cols r b) a.

(** [np.deg2rad].  lattpy/spatial.py:294, 300-302, 568, 575-577. *)
Definition deg2rad (x : R) : R := x * PI / 180.

(** [rx].  lattpy/spatial.py:533-536. *)
Definition rx (theta : R) : rmat :=
  [[1; 0; 0]; [0; cos theta; - sin theta]; [0; sin theta; cos theta]].

(** [ry].  lattpy/spatial.py:539-542. *)
Definition ry (theta : R) : rmat :=
  [[cos theta; 0; sin theta]; [0; 1; 0]; [- sin theta; 0; cos theta]].

(** [rz].  lattpy/spatial.py:545-548. *)
Definition rz (theta : R) : rmat :=
  [[cos theta; - sin theta; 0]; [sin theta; cos theta; 0]; [0; 0; 1]].

(** [np.eye(3)].  lattpy/spatial.py:555. *)
Definition eye3 : rmat := [[1; 0; 0]; [0; 1; 0]; [0; 0; 1]].

(** [rot].  lattpy/spatial.py:555-562.  Line 561 uses [rz] for [thetax]. *)
Definition rot (thetax thetay thetaz : R) : rmat :=
  let r := eye3 in
  let r := if Req_EM_T thetaz 0 then r else rmatmul 3 r (rz thetaz) in
  let r := if Req_EM_T thetay 0 then r else rmatmul 3 r (ry thetay) in
  let r := if Req_EM_T thetax 0 then r else rmatmul 3 r (rz thetax) in
  r.

(** [rz(theta)[:2, :2]].  lattpy/spatial.py:569. *)
Definition top_left (m : rmat) : rmat := map (firstn 2) (firstn 2 m).

(** [rotate2d].  lattpy/spatial.py:567-569. *)
Definition rotate2d (a : rvec) (theta : R) (degree : bool) : rvec :=
  let theta := if degree then deg2rad theta else theta in
  vecmat 2 a (top_left (rz theta)).

(** [rotate3d].  lattpy/spatial.py:574-578. *)
Definition rotate3d (a : rvec) (thetax thetay thetaz : R) (degree : bool) : rvec :=
  let f := if degree then deg2rad else (fun x => x) in
  vecmat 3 a (rot (f thetax) (f thetay) (f thetaz)).

(** [np.sqrt]: not a number for negative arguments.  lattpy/spatial.py:308. *)
Definition np_sqrt (x : R) : option R := if Rle_dec 0 x then Some (sqrt x) else None.

(** Division: not a finite number if the divisor is zero.  lattpy/spatial.py:307. *)
Definition np_div (x y : R) : option R := if Req_EM_T y 0 then None else Some (x / y).

(** [compute_vectors] with the default [decimals = 0] (no rounding).  lattpy/spatial.py:291-312.
    The three cases of lines 291, 293 and 298. *)
Definition compute_vectors1 (a : R) : rvec := [a].

(** Two lengths.  lattpy/spatial.py:293-297. *)
Definition compute_vectors2 (a b alpha : R) : rmat :=
  let alpha := deg2rad alpha in
  let ax := a in
  let bx := b * cos alpha in
  let by_ := b * sin alpha in
  [[ax; 0]; [bx; by_]].

(** Three lengths.  lattpy/spatial.py:298-312. *)
Definition compute_vectors3 (a b c alpha beta gamma : R) : option rmat :=
  let alpha := deg2rad alpha in
  let beta := deg2rad beta in
  let gamma := deg2rad gamma in
  let ax := a in
  let bx := b * cos gamma in
  let by_ := b * sin gamma in
  let cx := c * cos beta in
  match np_div (Rabs c * Rabs b * cos alpha - bx * cx) by_ with
  | None => None
  | Some cy =>
    match np_sqrt (c ^ 2 - cx ^ 2 - cy ^ 2) with
    | None => None
    | Some cz => Some [[ax; 0; 0]; [bx; by_; 0]; [cx; cy; cz]]
    end
  end.

(** Complex numbers as (real part, imaginary part).  lattpy/structure.py:877. *)
Definition cplx := (R * R)%type.
(** Addition of complex numbers, in [np.sum].  lattpy/structure.py:877. *)
Definition cadd (x y : cplx) : cplx := (fst x + fst y, snd x + snd y).

(** [np.exp(1j * x)].  lattpy/structure.py:877. *)
Definition cexp_i (x : R) : cplx := (cos x, sin x).

(** [fourier_weights] for the neighbour vectors [vecs].  lattpy/structure.py:875-878. *)
Definition fourier_weights (k : rvec) (vecs : list rvec) : cplx :=
  fold_right (fun v acc => cadd (cexp_i (rdot k v)) acc) (0, 0) vecs.
