(** * Specification vocabulary: the neighbours of a site in the infinite lattice. *)
From Coq Require Import List ZArith QArith Bool Arith.
From Verif Require Import SpecBasis SpecSpatial SpecStructure.
Import ListNotations.
Open Scope nat_scope.
Open Scope list_scope.

(** [z] satisfies [A], and exactly [i] numbers below it do. *)
Definition ranked (A : Z -> Prop) (i : nat) (z : Z) : Prop :=
  A z /\ exists L, NoDup L /\ (forall y, In y L <-> A y /\ (y < z)%Z) /\ length L = i.

Section Shells.
  (** Dimension, matrix of the lattice vectors, positions of the atoms, numbers of distances. *)
  Variables (d : nat) (V : list (list Q)) (R : list (list Q)) (conns : list (list nat)).

  (** The atom [c] of the cell [n] is [z] (in units of 1e-6) away from the atom [a] of the cell 0. *)
  Definition away (a c : nat) (n : list Z) (z : Z) : Prop :=
    length n = d /\ rounds_to_micro (sqdist (nth a R []) (lattice_point d V (nth c R []) n)) z.

  (** The distances between the atom [a] of a cell and the atoms [c] of all cells. *)
  Definition distance_between (a c : nat) (z : Z) : Prop := z <> 0%Z /\ exists n, away a c n z.

  (** The atom [c] of the cell [n] belongs to the configured neighbours of the atom [a] of the cell 0: its distance is one
      of the smallest ones between atoms [a] and [c] anywhere. *)
  Definition true_neighbor (a c : nat) (n : list Z) (z : Z) : Prop :=
    away a c n z /\ exists i, i < nth c (nth a conns []) 0 /\ ranked (distance_between a c) i z.

  (** The cell [n] lies in the searched block, and at most [2 m + l] different lengths of lattice vectors of this block
      are smaller than that of [n], where [l] is the number of different lengths of the basis vectors. *)
  Definition in_reach (m : nat) (n : list Z) : Prop :=
    int_box d (2 * Z.of_nat m + 1) n /\
    exists lengths,
      lists_values (fun q => exists k, k < d /\ (column_sq d V k == q)%Q) lengths /\
      forall l, (forall i j x y, i < j -> nth_error l i = Some x -> nth_error l j = Some y -> (x < y)%Q) ->
        (forall x, In x l -> exists n', int_box d (2 * Z.of_nat m + 1) n' /\ (cell_sq d V n' == x)%Q /\ (x < cell_sq d V n)%Q) ->
        length l <= 2 * m + length lengths.
End Shells.

(** The nonzero values of an integer function of the cells. *)
Definition values (d : nat) (f : list Z -> Z) (v : Z) : Prop := v <> 0%Z /\ exists n, length n = d /\ f n = v.

(** Squared lengths of lattice vectors: [squares] for simple cubic lattices of any dimension, in units of [a^2];
    [fcc_length] and [bcc_length] for the face and body centred lattices in the vectors of the code, in units of [a^2 / 4]. *)
Definition squares (n : list Z) : Z := fold_right (fun x s => (x * x + s)%Z) 0%Z n.
Definition fcc_length (n : list Z) : Z :=
  match n with [x; y; z] => ((x + y) * (x + y) + (x + z) * (x + z) + (y + z) * (y + z))%Z | _ => 0%Z end.
Definition bcc_length (n : list Z) : Z :=
  match n with
  | [x; y; z] => ((x + y - z) * (x + y - z) + (x - y + z) * (x - y + z) + (x + y + z) * (x + y + z))%Z
  | _ => 0%Z
  end.
