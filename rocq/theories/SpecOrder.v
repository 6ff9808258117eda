(** * Specification vocabulary: the order of the sites and moved lattices *)
From Coq Require Import List ZArith QArith Bool Arith.
From Verif Require Import SpecBasis SpecStructure.
Import ListNotations.
Open Scope nat_scope.
Open Scope list_scope.

(** Dictionary order: in the first component that differs, [u] is smaller than [v]. *)
Definition before (u v : list Z) : Prop :=
  length u = length v /\
  exists k, k < length u /\ (forall l, l < k -> nth l u 0%Z = nth l v 0%Z) /\ (nth k u 0 < nth k v 0)%Z.

(** The order by one component, and by the dictionary where it agrees. *)
Definition before_along (axis : option nat) (u v : list Z) : Prop :=
  match axis with
  | None => before u v
  | Some a => (nth a u 0 < nth a v 0)%Z \/ (nth a u 0%Z = nth a v 0%Z /\ before u v)
  end.

(** [t] is the site [s] in the cell moved by [m], with the same atom. *)
Definition moved_site (d : nat) (m s t : list Z) : Prop :=
  exists n a, length n = d /\ s = n ++ [a] /\ t = map (fun i => (nth i n 0 + nth i m 0)%Z) (seq 0 d) ++ [a].

(** [q] is the point [p] moved by the lattice vector [m]. *)
Definition moved_point (d : nat) (V : list (list Q)) (m : list Z) (p q : list Q) : Prop :=
  length p = d /\ length q = d /\ forall i, i < d -> (nth i q 0 == nth i (lattice_point d V p m) 0)%Q.
