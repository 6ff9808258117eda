(** * Specification vocabulary: the neighbours of built sites *)
From Coq Require Import List ZArith QArith Bool Arith Sorting.Sorted.
From Verif Require Import Np SpecUtils SpecSpatial SpecStructure.
Import ListNotations.
Open Scope nat_scope.
Open Scope list_scope.

(** At most [k] numbers satisfy [A]. *)
Definition at_most (k : nat) (A : nat -> Prop) : Prop :=
  forall L, NoDup L -> (forall j, In j L -> A j) -> length L <= k.

(** Point [j] has a squared distance of at most [r2] from [p]. *)
Definition within (P : list (list Q)) (p : list Q) (r2 : Q) (j : nat) : Prop :=
  exists q, nth_error P j = Some q /\ (sqdist p q <= r2)%Q.

(** The rounded distance of the sites [i] and [j]. *)
Definition site_distance (P : list (list Q)) (i j : nat) (x : dist) : Prop :=
  exists p q z, nth_error P i = Some p /\ nth_error P j = Some q /\ x = Fin z /\ rounds_to_micro (sqdist p q) z.

(** Atom of site [i]: the last component of its index. *)
Definition atom_of (I : list (list Z)) (i : nat) : nat := Z.to_nat (last (nth i I []) 0%Z).

(** The sites [i] and [j] are connected: different sites at a distance allowed for their atoms. *)
Definition connected_sites (allowed : nat -> nat -> dist -> Prop) (I : list (list Z)) (P : list (list Q))
  (i j : nat) (x : dist) : Prop :=
  i <> j /\ site_distance P i j x /\ allowed (atom_of I i) (atom_of I j) x.

(** [T] is a rectangular table whose row [i] lists every [j] with [nb i j x] once, with its distance, in order of
    distance, padded with [N] and infinite distances. *)
Definition neighbor_table (N : nat) (nb : nat -> nat -> dist -> Prop) (T : list (list (nat * dist))) : Prop :=
  length T = N /\
  exists W, forall i row, nth_error T i = Some row ->
    length row = W /\
    (forall j x, x <> Inf -> In (j, x) row <-> nb i j x) /\
    (forall j, In (j, Inf) row -> j = N) /\
    (forall c c' j x x', nth_error row c = Some (j, x) -> nth_error row c' = Some (j, x') -> x <> Inf -> x' <> Inf -> c = c') /\
    StronglySorted (fun e f => dleb (snd e) (snd f) = true) row.
