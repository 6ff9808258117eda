(** * Specification vocabulary for plots *)
From Coq Require Import List ZArith QArith Bool Arith.
From Verif Require Import Np LinAlg AtomModel SpecBasis SpecStructure DataModel SpecData PlotModel.
Import ListNotations.
Open Scope nat_scope.
Open Scope list_scope.

(** A point of the drawing: points of one-dimensional lattices lie on the first axis of the plane. *)
Definition on_page (p : list Q) : list Q := if length p =? 1 then p ++ [0%Q] else p.

(** The line goes from [p] to [q] and has the colour [c]. *)
Definition drawn (p q : list Q) (c : pyval) (l : line) : Prop :=
  ln_start l = on_page p /\ veq (ln_end l) (on_page q) /\ ln_color l = c.

(** The point at the fraction [t] of the way from [p] to [q]. *)
Definition part_way (t : Q) (p q : list Q) : list Q :=
  map (fun k => (nth k p 0 + t * (nth k q 0 - nth k p 0))%Q) (seq 0 (length p)).

(** The colour of connections between the atoms [i] and [j] of [n]: the last one that is given for the pair (in either
    order; Python's negative indices count from the end), or the default. *)
Definition means (n i : nat) (a : Z) : Prop := i < n /\ (a = Z.of_nat i \/ a = Z.of_nat i - Z.of_nat n)%Z.
Definition for_pair (n i j : nat) (e : Z * Z * pyval) : Prop :=
  (means n i (fst (fst e)) /\ means n j (snd (fst e))) \/ (means n j (fst (fst e)) /\ means n i (snd (fst e))).
Definition pair_color (n : nat) (default : pyval) (colors : list (Z * Z * pyval)) (i j : nat) (c : pyval) : Prop :=
  ((forall e, In e colors -> ~ for_pair n i j e) /\ c = default) \/
  exists l1 e l2, colors = l1 ++ e :: l2 /\ for_pair n i j e /\ (forall e', In e' l2 -> ~ for_pair n i j e') /\ c = snd e.

(** Atom and position of a site. *)
Definition atom_at (d : data) (i : nat) : nat := Z.to_nat (last (nth i (d_indices d) []) 0%Z).
Definition place_of (d : data) (i : nat) : list Q := nth i (d_positions d) [].

(** The regular bonds, from the lower to the higher site, and the periodic neighbours of all sites. *)
Definition bonds_up (d : data) : list (nat * nat) :=
  flat_map (fun i => map (pair i) (filter (Nat.ltb i) (map fst (regular_links d i)))) (seq 0 (nsites d)).
Definition crossings (d : data) : list (nat * slot) :=
  flat_map (fun i => map (pair i) (filter s_per (slots d i))) (seq 0 (nsites d)).
