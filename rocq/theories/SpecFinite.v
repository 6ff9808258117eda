(** * Specification vocabulary: finite lattices cut out of the infinite one *)
From Coq Require Import List ZArith QArith Bool Arith.
From Verif Require Import Np LinAlg SpecUtils SpecBasis SpecSpatial SpecStructure SpecNeighbors DataModel SpecData.
Import ListNotations.
Open Scope nat_scope.
Open Scope list_scope.

(** [dt] describes different sites of the lattice; the neighbours of a site are the connected ones. *)
Record finite_lattice (d : nat) (V R : list (list Q)) (allowed : nat -> nat -> dist -> Prop) (dt : data) : Prop := {
  fl_wf : wf_core dt;
  fl_once : NoDup (d_indices dt);
  fl_sites : forall i, i < nsites dt -> exists n a, nth i (d_indices dt) [] = n ++ [Z.of_nat a] /\ length n = d /\ a < length R /\
    same (nth i (d_positions dt) []) (lattice_point d V (nth a R []) n);
  fl_links : forall i, i < nsites dt -> NoDup (map fst (links dt i)) /\
    forall j x, In (j, x) (links dt i) <-> connected_sites allowed (d_indices dt) (d_positions dt) i j x }.

(** [n] is the difference of the cells of the sites [s] and [t]. *)
Definition cells_apart (d : nat) (s t n : list Z) : Prop :=
  length n = d /\ forall k, k < d -> nth k t 0%Z = (nth k s 0 + nth k n 0)%Z.
