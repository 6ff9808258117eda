(** * Specification vocabulary for lattpy/structure.py: what lattice sites, distances and neighbours are. *)
From Coq Require Import String List ZArith QArith Bool Arith Sorting.Sorted.
From Verif Require Import Np LinAlg SpecUtils SpecBasis SpecSpatial.
Import ListNotations.
Open Scope nat_scope.
Open Scope list_scope.

(** [z] is the square root of [q] in units of 1e-6, rounded to the nearest integer, ties to even. *)
Definition rounds_to_micro (q : Q) (z : Z) : Prop :=
  let s := (q * (1000000000000 # 1))%Q in
  (0 <= z)%Z /\
  (s <= (inject_Z z + (1#2)) * (inject_Z z + (1#2)))%Q /\
  ((1 <= z)%Z -> ((inject_Z z - (1#2)) * (inject_Z z - (1#2)) <= s)%Q) /\
  ((s == (inject_Z z + (1#2)) * (inject_Z z + (1#2)))%Q -> Z.even z = true) /\
  ((1 <= z)%Z -> (s == (inject_Z z - (1#2)) * (inject_Z z - (1#2)))%Q -> Z.even z = true).

(** Position of the site in cell [n] whose atom sits at [r] in the unit cell; the columns of [V] are the lattice
    vectors. *)
Definition lattice_point (d : nat) (V : list (list Q)) (r : list Q) (n : list Z) : list Q :=
  map (fun i => (nth i r 0 + sum_upto d (fun k => entry V i k * inject_Z (nth k n 0%Z)))%Q) (seq 0 d).

(** What is assumed of the nearest-neighbour search of scipy. *)
Definition correct_tree (query : list (list Q) -> list Q -> nat -> option Q -> list (nat * option Q)) : Prop :=
  forall P x k r2, nearest_row (fun _ => True) P x k k r2 (query P x k r2).

(** [d] is one of the first [k] values satisfying [P], in increasing order. *)
Definition among_first (k : nat) (P : dist -> Prop) (d : dist) : Prop :=
  exists L, increasing dleb L /\ (forall x, In x L <-> P x) /\ exists i, i < k /\ nth_error L i = Some d.

Section Pairs.
  (** Dimension, matrix of the lattice vectors, positions of the atoms, searched cells, numbers of distances. *)
  Variables (d : nat) (V : list (list Q)) (R : list (list Q)) (cells : list (list Z)) (conns : list (list nat)).

  (** [x] is the rounded distance of atom [a] in cell 0 and atom [b] in cell [n]. *)
  Definition pair_distance (a b : nat) (n : list Z) (x : dist) : Prop :=
    exists z, x = Fin z /\ rounds_to_micro (sqdist (nth a R []) (lattice_point d V (nth b R []) n)) z.

  (** The non-zero distances occurring between the sublattices [a] and [b]. *)
  Definition occurs (a b : nat) (x : dist) : Prop :=
    x <> Fin 0 /\ exists n, In n cells /\ pair_distance a b n x.

  (** [b] in cell [n] is a neighbour of [a] at distance [x]. *)
  Definition linked (a b : nat) (n : list Z) (x : dist) : Prop :=
    In n cells /\ pair_distance a b n x /\ among_first (nth b (nth a conns []) 0) (occurs a b) x.
End Pairs.
