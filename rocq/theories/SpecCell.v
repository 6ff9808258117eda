(** * Specification vocabulary: the edges of a parallelepiped *)
From Coq Require Import List ZArith QArith Bool Arith.
From Verif Require Import Np LinAlg SpecBasis SpecStructure AtomModel PlotModel SpecPlot.
Import ListNotations.
Open Scope nat_scope.
Open Scope list_scope.

(** The corner that is reached from the origin along the vectors chosen by [S]. *)
Definition corner (d : nat) (V : list (list Q)) (S : nat -> bool) : list Q :=
  map (fun i => sum_upto d (fun k => if S k then nth i (nth k V []) 0 else 0)%Q) (seq 0 d).

(** The edge along vector [k] from the corner [S], which does not contain [k]. *)
Definition is_edge (d : nat) (V : list (list Q)) (k : nat) (S : nat -> bool) (l : line) : Prop :=
  k < d /\ S k = false /\ veq (ln_start l) (on_page (corner d V S)) /\ veq (ln_end l) (on_page (corner d V (fun j => S j || (j =? k)))).
