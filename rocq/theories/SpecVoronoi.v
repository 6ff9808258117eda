(** * Specification vocabulary for Wigner-Seitz cells: nearest points, Voronoi vertices and ridges *)
From Coq Require Import List ZArith QArith Bool Arith.
From Verif Require Import SpecUtils SpecBasis SpecSpatial.
Import ListNotations.
Open Scope Q_scope.

(** Scalar product, and the zero vector. *)
Definition inner (u v : list Q) : Q := sum_upto (length u) (fun i => nth i u 0 * nth i v 0).
Definition zero (d : nat) : list Q := repeat 0 d.

(** What is assumed of [scipy.spatial.KDTree(P).query(x)]: the index of one of the nearest points. *)
Definition finds_nearest (near : list (list Q) -> list Q -> nat) : Prop :=
  forall P x, P <> [] ->
    (near P x < length P)%nat /\ forall q, In q P -> sqdist x (nth (near P x) P []) <= sqdist x q.

(** [p] is one of the points of [P] nearest to [x]. *)
Definition is_nearest (P : list (list Q)) (x p : list Q) : Prop :=
  In p P /\ forall q, In q P -> sqdist x p <= sqdist x q.

(** [x] is a vertex of the Voronoi diagram of [P]: its nearest points do not lie in a common hyperplane. *)
Definition voronoi_vertex (d : nat) (P : list (list Q)) (x : list Q) : Prop :=
  length x = d /\
  forall u, length u = d -> (forall p q, is_nearest P x p -> is_nearest P x q -> inner u p == inner u q) ->
    forall i, nth i u 0 == 0.

(** All points lie in a common hyperplane. *)
Definition flat (d : nat) (P : list (list Q)) : Prop :=
  exists u c, length u = d /\ (exists i, ~ nth i u 0 == 0) /\ forall p, In p P -> inner u p == c.

(** What is assumed of [scipy.spatial.Voronoi(P)] that does not raise: all vertices of the diagram; every ridge lies
    between two different points, and its vertices (those not at infinity) are nearest to both. *)
Definition is_diagram (d : nat) (P : list (list Q)) (vertices : list (list Q)) (ridge_points : list (nat * nat))
  (ridge_vertices : list (list Z)) : Prop :=
  (forall v, In v vertices -> voronoi_vertex d P v) /\
  (forall x, voronoi_vertex d P x -> exists v, In v vertices /\ same v x) /\
  length ridge_points = length ridge_vertices /\
  (forall k i j r, nth_error ridge_points k = Some (i, j) -> nth_error ridge_vertices k = Some r ->
     (i < length P)%nat /\ (j < length P)%nat /\ i <> j /\ r <> [] /\
     forall z, In z r -> (z < Z.of_nat (length vertices))%Z /\
       ((0 <= z)%Z -> is_nearest P (nth (Z.to_nat z) vertices []) (nth i P []) /\
                      is_nearest P (nth (Z.to_nat z) vertices []) (nth j P []))).

(** [x] is equally far from [p] and [q]. *)
Definition equidistant (x p q : list Q) : Prop := sqdist x p == sqdist x q.
