(** * Specification vocabulary: periodic blocks of cells of any lattice *)
From Coq Require Import List ZArith QArith Bool Arith.
From Verif Require Import Np LinAlg SpecUtils SpecBasis SpecSpatial SpecStructure SpecNeighbors DataModel SpecData SpecJoin.
Import ListNotations.
Open Scope nat_scope.
Open Scope list_scope.

Section Blocks.
  (** Dimension, lattice vectors, atoms of the unit cell, distances at which two atoms are neighbours, lower corner and
      numbers of cells of the block, periodic axes. *)
  Variables (d : nat) (V : list (list Q)) (R : list (list Q)) (allowed : nat -> nat -> dist -> Prop) (o L : list Z)
    (axes : list nat).

  (** In the infinite lattice, atom [b] of the cell [m] is a neighbour of atom [a] of the cell 0, at the distance [x]. *)
  Definition bond (a b : nat) (m : list Z) (x : dist) : Prop :=
    a < length R /\ b < length R /\ length m = d /\ pair_distance d V R a b m x /\ allowed a b x.

  (** [dt] describes the block: all atoms of its cells, at the points of the lattice; the regular neighbours of a site
      are the connected sites of the block. *)
  Record block (dt : data) : Prop := {
    bl_wf : wf dt;
    bl_layered : layered dt;
    bl_dim : d_dim dt = d;
    bl_once : NoDup (d_indices dt);
    bl_sites : forall s, In s (d_indices dt) <->
      exists n a, s = n ++ [Z.of_nat a] /\ length n = d /\ box d o L n /\ a < length R;
    bl_positions : forall i, i < nsites dt ->
      same (nth i (d_positions dt) []) (lattice_point d V (nth (atom_of (d_indices dt) i) R []) (nth i (d_indices dt) []));
    bl_links : forall i, i < nsites dt -> NoDup (map fst (regular_links dt i)) /\
      forall j x, In (j, x) (regular_links dt i) <-> connected_sites allowed (d_indices dt) (d_positions dt) i j x }.

  (** The bond [m] leads from the site [s] to the site [t]; along a periodic axis the components count modulo the number
      of cells. *)
  Definition torus_bond (s t : list Z) (m : list Z) (x : dist) : Prop :=
    bond (Z.to_nat (last s 0%Z)) (Z.to_nat (last t 0%Z)) m x /\
    forall k, k < d -> nth k t 0%Z = (nth k s 0 + nth k m 0)%Z \/
      (In k axes /\ (nth k L 0 | nth k t 0 - (nth k s 0 + nth k m 0))%Z).

  (** [dt] describes the block with the given axes periodic: every site lists each neighbour once, at the distance of the
      bond.  The regular neighbours are those that the bond reaches inside of the block; the vector of a periodic one is
      the number of cells along some of the axes, up or down, and takes the site to the start of the bond. *)
  Record torus_block (dt : data) : Prop := {
    tb_wf : wf dt;
    tb_once : forall i, i < nsites dt -> NoDup (map s_nbr (slots dt i));
    tb_neighbors : forall i j, i < nsites dt -> In j (map s_nbr (slots dt i)) <->
      j < nsites dt /\ exists m x, torus_bond (nth i (d_indices dt) []) (nth j (d_indices dt) []) m x;
    tb_slot : forall i s, i < nsites dt -> In s (slots dt i) ->
      exists m, torus_bond (nth i (d_indices dt) []) (nth (s_nbr s) (d_indices dt) []) m (s_dist s) /\
        (s_per s = false <-> forall k, k < d ->
           nth k (nth (s_nbr s) (d_indices dt) []) 0%Z = (nth k (nth i (d_indices dt) []) 0 + nth k m 0)%Z) /\
        (s_per s = true -> length (s_nvec s) = d /\ forall k, k < d ->
           nth k (nth (s_nbr s) (d_indices dt) []) 0%Z = (nth k (nth i (d_indices dt) []) 0 + nth k (s_nvec s) 0 + nth k m 0)%Z /\
           (nth k (s_nvec s) 0%Z = 0%Z \/ (In k axes /\ In k (s_axes s) /\ Z.abs (nth k (s_nvec s) 0%Z) = nth k L 0%Z))) }.

  (** Along the periodic axes the bond is shorter than half of the block. *)
  Definition short (m : list Z) : Prop := forall k, In k axes -> (2 * Z.abs (nth k m 0) < nth k L 0)%Z.

  (** A bond along at most two periodic axes; if it goes along two of them, one is the first axis of space or it goes
      the same way along both. *)
  Definition along_two (m : list Z) : Prop :=
    forall k k', In k axes -> In k' axes -> k < k' -> nth k m 0%Z <> 0%Z -> nth k' m 0%Z <> 0%Z ->
      (k = 0 \/ (0 < nth k m 0 * nth k' m 0)%Z) /\
      forall k'', In k'' axes -> k'' <> k -> k'' <> k' -> nth k'' m 0%Z = 0%Z.

  (** At most [count] atoms of the infinite lattice lie within the distance [r] of an atom. *)
  Definition crowd (count : nat) (r : Q) : Prop :=
    forall a B, a < length R -> NoDup B ->
      (forall b m, In (b, m) B -> b < length R /\ length m = d /\ (sqdist (nth a R []) (lattice_point d V (nth b R []) m) <= r * r)%Q) ->
      length B <= count.
End Blocks.
