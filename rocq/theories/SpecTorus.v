(** * Specification vocabulary: periodic boxes of cells *)
From Coq Require Import List ZArith Bool Arith.
From Verif Require Import Np SpecUtils DataModel SpecData SpecGrid SpecJoin.
Import ListNotations.
Open Scope nat_scope.
Open Scope list_scope.

(** The cell [m] is one step away from [n] along one axis; along a periodic axis the components count modulo the
    number [L] of cells. *)
Definition torus_step (d : nat) (L : list Z) (axes : list nat) (n m : list Z) : Prop :=
  exists k s, k < d /\ (s = 1 \/ s = -1)%Z /\
    (nth k m 0%Z = (nth k n 0 + s)%Z \/ (In k axes /\ (nth k L 0 | nth k m 0 - (nth k n 0 + s))%Z)) /\
    forall b, b < d -> b <> k -> nth b n 0%Z = nth b m 0%Z.

(** [dt] describes a box of [L] cells whose given axes are periodic: every site lists each of its neighbours once, at
    the distance [za].  A neighbour across the boundary is marked; its vector is the number of cells along one periodic
    axis, up or down, and takes the site next to the neighbour. *)
Record torus_data (d : nat) (za : Z) (L : list Z) (axes : list nat) (dt : data) : Prop := {
  td_wf : wf dt;
  td_once : forall i, i < nsites dt -> NoDup (map s_nbr (slots dt i));
  td_neighbors : forall i j, i < nsites dt ->
    In j (map s_nbr (slots dt i)) <-> j < nsites dt /\ torus_step d L axes (nth i (d_indices dt) []) (nth j (d_indices dt) []);
  td_distance : forall i s, i < nsites dt -> In s (slots dt i) -> s_dist s = Fin za;
  td_regular : forall i s, i < nsites dt -> In s (slots dt i) ->
    s_per s = false <-> unit_step d (nth i (d_indices dt) []) (nth (s_nbr s) (d_indices dt) []);
  td_periodic : forall i s, i < nsites dt -> In s (slots dt i) -> s_per s = true ->
    exists k, k < d /\ In k axes /\ length (s_nvec s) = d /\ Z.abs (nth k (s_nvec s) 0%Z) = nth k L 0%Z /\
      (forall b, b < d -> b <> k -> nth b (s_nvec s) 0%Z = 0%Z) /\
      (forall b, In b (s_axes s) -> b = k \/ b = d) /\ In k (s_axes s) /\
      exists c, (forall b, b < d -> nth b c 0%Z = (nth b (nth i (d_indices dt) []) 0 + nth b (s_nvec s) 0)%Z) /\
        unit_step d c (nth (s_nbr s) (d_indices dt) []) }.
