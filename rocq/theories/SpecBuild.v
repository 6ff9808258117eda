(** * Specification vocabulary for building finite lattices *)
From Coq Require Import List ZArith QArith Bool Arith Sorting.Sorted.
From Verif Require Import SpecUtils SpecBasis SpecSpatial.
Import ListNotations.
Open Scope nat_scope.
Open Scope list_scope.

(** [m] lists the elements of [l] at the places satisfying [keep], in their order. *)
Definition selected {A} (keep : nat -> Prop) (l m : list A) : Prop :=
  exists ks, StronglySorted lt ks /\ (forall k, In k ks <-> k < length l /\ keep k) /\
    Forall2 (fun k x => nth_error l k = Some x) ks m.

(** [m] arises from [l] by leaving out elements. *)
Inductive sublist {A} : list A -> list A -> Prop :=
| sub_nil : sublist [] []
| sub_keep x l m : sublist l m -> sublist (x :: l) (x :: m)
| sub_skip x l m : sublist l m -> sublist (x :: l) m.

(** The sites of the given cells: cell by cell, atom by atom. *)
Definition cell_sites (num_atoms : nat) (cells : list (list Z)) : list (list Z) :=
  flat_map (fun n => map (fun a => n ++ [Z.of_nat a]) (seq 0 num_atoms)) cells.

(** [p] lies in the box, whose lower side is moved by [tol]. *)
Definition inside (d : nat) (lower size : list Q) (tol : Q) (p : list Q) : Prop :=
  forall i, i < d -> (nth i lower 0 - tol <= nth i p 0 <= nth i lower 0 + nth i size 0)%Q.

(** Coordinate [i] of [p] with respect to the lattice vectors; [W] is the inverse of their matrix. *)
Definition coordinate (d : nat) (W : list (list Q)) (p : list Q) (i : nat) : Q :=
  sum_upto d (fun j => entry W i j * nth j p 0)%Q.

(** Coordinate [i] does not decrease along any axis; or the box is at the origin and coordinate [i] does not decrease
    along some axis. *)
Definition reaches (d : nat) (W : list (list Q)) (lower : list Q) (i : nat) : Prop :=
  (forall j, j < d -> (0 <= entry W i j)%Q) \/
  ((forall j, j < d -> (nth j lower 0 == 0)%Q) /\ exists j, j < d /\ (0 <= entry W i j)%Q).

(** The ranges are short enough for the smallest integer type holding the bounds. *)
Definition no_wrap (limits : list (Z * Z)) : Prop :=
  exists w, width_of (flat_map (fun l => [fst l; snd l]) limits) w /\
    forall l, In l limits -> (snd l - fst l <= 2 ^ (w - 1))%Z.
