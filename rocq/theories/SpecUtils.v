(** * Specification vocabulary for the utility properties.

    Nothing here refers to the model of a library function: only mathematical notions. *)
From Coq Require Import String List ZArith QArith Qabs Bool Arith Sorting.Sorted.
Import ListNotations.

(** [leb] is a total order and [eqb] decides equality: what comparison of array entries provides. *)
Record total_order {A} (leb : A -> A -> bool) : Prop := {
  to_total : forall x y, leb x y = true \/ leb y x = true;
  to_trans : forall x y z, leb x y = true -> leb y z = true -> leb x z = true;
  to_antisym : forall x y, leb x y = true -> leb y x = true -> x = y }.

Definition decides_eq {A} (eqb : A -> A -> bool) : Prop := forall x y, eqb x y = true <-> x = y.

(** Strictly increasing. *)
Definition increasing {A} (leb : A -> A -> bool) (l : list A) : Prop :=
  StronglySorted (fun a b => leb a b = true /\ a <> b) l.

(** [z] fits into an integer type of [bits] bits. *)
Definition fits_signed (bits z : Z) : Prop := (- 2 ^ (bits - 1) <= z < 2 ^ (bits - 1))%Z.
Definition fits_unsigned (bits z : Z) : Prop := (0 <= z < 2 ^ bits)%Z.

(** The machine integer widths. *)
Definition machine_width (bits : Z) : Prop := In bits [8; 16; 32; 64]%Z.

(** [n] is a nearest integer of [q]. *)
Definition nearest (q : Q) (n : Z) : Prop := (Qabs (inject_Z n - q) <= 1 # 2)%Q.

(** SI prefixes by power. *)
Definition prefix_of_power : list string :=
  (["" ; "k" ; "M" ; "G" ; "T" ; "P" ; "E" ; "Z" ; "Y"]%string)%list.
