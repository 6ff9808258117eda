(** * Model of the lengths of the edges of a dispersion path (over the real numbers)

    lattpy/disptools.py:433-443 and lattpy/spatial.py:43-63.  The coordinates of the path are the rationals of
    [PathModel]; lengths are real numbers because of the square root. *)
From Coq Require Import String List ZArith QArith Reals Qreals Bool Arith.
From Verif Require Import Np LinAlg UtilsModel PathModel RealModel.
Import ListNotations.
Open Scope list_scope.

(** [np.sum(np.square(r1 - r2))] for vectors of the same length.  lattpy/spatial.py:60. *)
Definition sum_square (r1 r2 : vec) : R :=
  fold_left Rplus (map (fun x => x * x)%R (map2 Rminus (map Q2R r1) (map Q2R r2))) 0%R.

(** [distance] without rounding.  lattpy/spatial.py:60-63.  [None]: ValueError of operands that cannot be broadcast. *)
Definition distance (r1 r2 : vec) : option R :=
  match broadcast r1 r2 with
  | Some (a, b) => Some (sqrt (sum_square a b))
  | None => None
  end.

(** The loop of [distances].  lattpy/disptools.py:436-437. *)
Fixpoint distances_loop (pairs : list (vec * vec)) : option (list R) :=
  match pairs with
  | [] => Some []
  | (p0, p1) :: rest =>
    match distance p0 p1, distances_loop rest with
    | Some d, Some l => Some (d :: l)
    | _, _ => None
    end
  end.

(** [DispersionPath.distances].  lattpy/disptools.py:433-438. *)
Definition path_distances (p : path) : option (list R) :=
  match edges p with Some pairs => distances_loop pairs | None => None end.

(** [DispersionPath.scales].  lattpy/disptools.py:440-443.  The entries are [None] where the quotient is not a finite
    number; the whole result is [None] for the IndexError of [dists[0]], or an error of [distances]. *)
Definition path_scales (p : path) : option (list (option R)) :=
  match path_distances p with
  | Some (d0 :: l) => Some (map (fun d => np_div d d0) (d0 :: l))
  | _ => None
  end.
