(** * Specification vocabulary for lattpy/spatial.py and lattpy/shape.py *)
From Coq Require Import List ZArith QArith Qabs Bool Arith.
From Verif Require Import SpecUtils SpecBasis.
Import ListNotations.

(** [w] is the smallest machine width in which every bound and its negative fit. *)
Definition width_of (bounds : list Z) (w : Z) : Prop :=
  let fits w := forall x, In x bounds -> fits_signed w x /\ fits_signed w (- x) in
  machine_width w /\ fits w /\ forall w', machine_width w' -> fits w' -> (w <= w')%Z.

(** [v] lies in the half-open integer box. *)
Definition in_limits (limits : list (Z * Z)) (v : list Z) : Prop :=
  Forall2 (fun l x => fst l <= x < snd l)%Z limits v.

(** Squared Euclidean distance. *)
Definition sqdist (u v : list Q) : Q :=
  sum_upto (length u) (fun i => (nth i u 0 - nth i v 0) * (nth i u 0 - nth i v 0))%Q.

(** [m] is the largest / smallest of [x] over the non-empty [l]. *)
Definition is_max (l : list Q) (m : Q) : Prop :=
  (exists x, In x l /\ x == m)%Q /\ forall x, In x l -> (x <= m)%Q.
Definition is_min (l : list Q) (m : Q) : Prop :=
  (exists x, In x l /\ x == m)%Q /\ forall x, In x l -> (m <= x)%Q.

(** Sum of the absolute values: the extent along an axis of the parallelepiped spanned by vectors with these
    components. *)
Fixpoint abs_sum (l : list Q) : Q :=
  match l with [] => 0%Q | x :: xs => (Qabs x + abs_sum xs)%Q end.

(** ** The nearest-neighbour search of scipy

    A row of an answer: pairs of an index and a squared distance ([None] is an infinite distance). *)
Notation answer := (list (nat * option Q)) (only parsing).

(** [row] has [len] entries and lists the nearest points to [x] in order of distance, padded by the number of
    points and an infinite distance.  Only the points [j] with [keep j] are considered, and at most [k] of them are
    listed.  Points at exactly the distance bound may or may not be listed.  [r2] is the squared bound
    ([None]: unbounded).

    [nearest_row (fun _ => True) P x k k r2 row] is what is assumed of
    [cKDTree.query(x, k, distance_upper_bound=r)] for one point [x]. *)
Definition nearest_row (keep : nat -> Prop) (P : list (list Q)) (x : list Q) (len k : nat)
  (r2 : option Q) (row : answer) : Prop :=
  length row = len%nat /\
  exists m, (m <= len)%nat /\
    (* the first m entries are points, with their distances, within the bound *)
    (forall c j d, (c < m)%nat -> nth_error row c = Some (j, d) ->
       keep j /\
       exists p q, nth_error P j = Some p /\ d = Some q /\ (q == sqdist x p)%Q /\
                   match r2 with Some r => (q <= r)%Q | None => True end) /\
    (* the others are padding *)
    (forall c, (m <= c < len)%nat -> nth_error row c = Some (length P, None)) /\
    (* no point twice *)
    (forall c c' j d d', (c < m)%nat -> (c' < m)%nat ->
       nth_error row c = Some (j, d) -> nth_error row c' = Some (j, d') -> c = c') /\
    (* in order of distance *)
    (forall c c' j j' d d', (c < c' < m)%nat ->
       nth_error row c = Some (j, Some d) -> nth_error row c' = Some (j', Some d') -> (d <= d')%Q) /\
    (* nothing nearer is left out *)
    (forall j p, keep j -> nth_error P j = Some p ->
       match r2 with Some r => (sqdist x p < r)%Q | None => True end ->
       (exists c d, (c < m)%nat /\ nth_error row c = Some (j, d)) \/
       (m = k%nat /\ forall c j' d, nth_error row c = Some (j', Some d) -> (d <= sqdist x p)%Q)).

(** Answer of a query of all points [xs] at once. *)
Definition nearest_rows (P xs : list (list Q)) (k : nat) (r2 : option Q) (rows : list answer) : Prop :=
  Forall2 (fun x row => nearest_row (fun _ => True) P x k k r2 row) xs rows.

(** The points have [d] coordinates and are pairwise different. *)
Definition distinct_points (d : nat) (P : list (list Q)) : Prop :=
  (forall p, In p P -> length p = d) /\
  forall i j p q, nth_error P i = Some p -> nth_error P j = Some q ->
    (forall c, nth c p 0 == nth c q 0)%Q -> i = j.
