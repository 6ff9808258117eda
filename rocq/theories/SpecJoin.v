(** * Specification vocabulary: the data of a finite piece of a hypercubic lattice *)
From Coq Require Import List ZArith QArith Bool Arith.
From Verif Require Import Np SpecUtils SpecBasis SpecSpatial SpecStructure SpecNeighbors DataModel SpecData SpecGrid.
Import ListNotations.
Open Scope nat_scope.
Open Scope list_scope.

(** The cell [n] has at most [k] neighbours among the cells [C]. *)
Definition degree_at_most (d : nat) (C : list Z -> Prop) (n : list Z) (k : nat) : Prop :=
  forall L, NoDup L -> (forall m, In m L -> length m = d /\ C m /\ unit_step d n m) -> length L <= k.

(** The cells [C] moved by [t]. *)
Definition moved_cells (d : nat) (t : list Z) (C : list Z -> Prop) (n : list Z) : Prop :=
  exists m, length m = d /\ C m /\ forall k, k < d -> nth k n 0%Z = (nth k m 0 + nth k t 0)%Z.

(** Cells of one part or of the other, which is moved by [t]. *)
Definition joined_cells (d : nat) (t : list Z) (C D : list Z -> Prop) (n : list Z) : Prop := C n \/ moved_cells d t D n.

(** [dt] describes the cells [C] of a hypercubic lattice with the lattice constant [a] and one atom at [r0]: every cell
    occurs once, at its position, and is linked exactly to those of its 2[d] neighbours that belong to [C]; the distance
    of the links is [za] (in units of 1e-6).  The rows have [m] columns, in each
    row the links come first, and at least one place is not used. *)
Record grid_data (d : nat) (a : Q) (za : Z) (r0 : list Q) (C : list Z -> Prop) (m : nat) (dt : data) : Prop := {
  gd_wf : wf dt;
  gd_dim : d_dim dt = d;
  gd_cols : d_cols dt = m;
  gd_free : exists i c, i < nsites dt /\ c < d_cols dt /\ valid dt i c = false;
  gd_values : forall x, In x (d_distvals dt) -> x = Inf \/ x = Fin za;
  gd_regular : forall i, i < nsites dt -> forall s, In s (slots dt i) -> s_per s = false;
  gd_once : NoDup (d_indices dt);
  gd_cells : forall s, In s (d_indices dt) <-> exists n, s = n ++ [0%Z] /\ length n = d /\ C n;
  gd_positions : forall i, i < nsites dt -> length (nth i (d_positions dt) []) = d /\
    forall k, k < d -> (nth k (nth i (d_positions dt) []) 0 == nth k r0 0 + a * inject_Z (nth k (nth i (d_indices dt) []) 0%Z))%Q;
  gd_links : forall i, i < nsites dt -> NoDup (map fst (links dt i)) /\
    forall j x, In (j, x) (links dt i) <-> j < nsites dt /\ unit_step d (nth i (d_indices dt) []) (nth j (d_indices dt) []) /\ x = Fin za;
  gd_packed : packed dt }.

(** The cells of the box with the first cell [o] and [L] cells along the axes. *)
Definition box (d : nat) (o L : list Z) (n : list Z) : Prop :=
  forall k, k < d -> (nth k o 0 <= nth k n 0 < nth k o 0 + nth k L 0)%Z.

(** The largest number of neighbours of a cell of the box: two along every axis with three or more cells. *)
Definition box_degree (d : nat) (L : list Z) : nat := list_sum (map (fun k => Nat.min 2 (Z.to_nat (nth k L 0%Z) - 1)) (seq 0 d)).

(** The sizes [L] with [z] cells along axis [ax]. *)
Definition resized (d ax : nat) (z : Z) (L L' : list Z) : Prop :=
  forall k, k < d -> nth k L' 0%Z = if k =? ax then z else nth k L 0%Z.
