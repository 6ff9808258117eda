(** * Specification vocabulary: the graph of a built lattice *)
From Coq Require Import List ZArith QArith Bool Arith.
From Verif Require Import Np SpecUtils SpecBasis SpecSpatial SpecStructure SpecNeighbors.
Import ListNotations.
Open Scope nat_scope.
Open Scope list_scope.

(** No two atoms of the unit cell differ by a lattice vector. *)
Definition incongruent (d : nat) (V R : list (list Q)) : Prop :=
  forall a c n, a < length R -> c < length R -> length n = d ->
    same (nth a R []) (lattice_point d V (nth c R []) n) -> a = c.

(** Site [i] has fewer partners than site [i']. *)
Definition fewer (rel : nat -> nat -> dist -> Prop) (i i' : nat) : Prop :=
  exists L', NoDup L' /\ (forall j, In j L' -> exists x, rel i' j x) /\
    forall L, NoDup L -> (forall j, In j L -> exists x, rel i j x) -> length L < length L'.

(** The cells differ by one in exactly one component. *)
Definition unit_step (d : nat) (n m : list Z) : Prop :=
  exists a, a < d /\ (Z.abs (nth a n 0 - nth a m 0) = 1)%Z /\ forall b, b < d -> b <> a -> nth b n 0%Z = nth b m 0%Z.

(** Lattice vectors of length [a] along the coordinate axes. *)
Definition cubic_lattice (d : nat) (V : list (list Q)) (a : Q) : Prop :=
  (0 < a)%Q /\ forall i j, i < d -> j < d -> (entry V i j == a * delta i j)%Q.
