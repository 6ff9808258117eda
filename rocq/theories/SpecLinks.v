(** * Specification vocabulary: nearest neighbours and connections between two lattices *)
From Coq Require Import List ZArith QArith Bool Arith.
From Verif Require Import Np SpecUtils SpecSpatial SpecStructure DataModel SpecData.
Import ListNotations.
Open Scope nat_scope.

(** Every distance the data knows is the distance of a stored neighbour. *)
Definition all_used (d : data) : Prop :=
  forall x, In x (d_distvals d) -> x <> Inf -> exists i j, i < nsites d /\ In (j, x) (links d i).

(** [x] is the smallest distance of neighbours anywhere in the data. *)
Definition smallest_distance (d : data) (x : dist) : Prop :=
  (exists i j, i < nsites d /\ In (j, x) (links d i)) /\
  forall i j y, i < nsites d -> In (j, y) (links d i) -> dleb x y = true.

(** [ns] are the neighbours of [i] with the distance [x], in the order in which they are stored, with [u] only those
    with a larger number. *)
Definition neighbors_at (d : data) (i : nat) (u : bool) (x : dist) : list nat :=
  filter (fun j => if u then i <? j else true) (map fst (filter (fun l => deqb (snd l) x) (links d i))).

(** The points [i] of [P] and [j] of [R] are at most [r] apart. *)
Definition close_points (P R : list (list Q)) (r : Q) (i j : nat) : Prop :=
  exists p q, nth_error P i = Some p /\ nth_error R j = Some q /\ (sqdist p q <= r * r)%Q.

(** Two sites of the data are neighbours at the distance [x]. *)
Definition occurring (d : data) (x : dist) : Prop := exists i j, i < nsites d /\ In (j, x) (links d i).

(** [x] is smaller than [y]. *)
Definition shorter (x y : dist) : Prop := dleb x y = true /\ x <> y.
