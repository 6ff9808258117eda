(** * Specification vocabulary: links across the seam of two joined lattices *)
From Coq Require Import List ZArith QArith Bool Arith.
From Verif Require Import Np SpecUtils SpecBasis SpecSpatial SpecStructure SpecNeighbors DataModel SpecData.
Import ListNotations.
Open Scope nat_scope.
Open Scope list_scope.

(** [ball P R r2]: for every point of [P] the points of [R] with a squared distance of at most [r2], each once.  What
    [query_ball_tree] guarantees. *)
Definition correct_ball (ball : list (list Q) -> list (list Q) -> Q -> list (list nat)) : Prop :=
  forall d P R r2, (forall p, In p P -> length p = d) -> (forall p, In p R -> length p = d) ->
    length (ball P R r2) = length P /\
    forall i p, nth_error P i = Some p -> NoDup (nth i (ball P R r2) []) /\
      forall j, In j (nth i (ball P R r2) []) <-> within R p r2 j.

(** [x] is the distance of some neighbours in [d] or in [e]. *)
Definition distance_of_links (d e : data) (x : dist) : Prop :=
  (exists i j, i < nsites d /\ In (j, x) (links d i)) \/ (exists i j, i < nsites e /\ In (j, x) (links e i)).

(** The square root of [q] is at most [x] (in units of 1e-6). *)
Definition root_below (q : Q) (x : dist) : Prop :=
  match x with Inf => True | Fin z => (0 <= z)%Z /\ (q * 1000000000000 <= inject_Z (z * z))%Q end.

(** [x] is the smallest of the distances [known] that is at least the square root of [q]. *)
Definition rounded_up (known : dist -> Prop) (q : Q) (x : dist) : Prop :=
  known x /\ root_below q x /\ forall y, known y -> root_below q y -> dleb x y = true.
