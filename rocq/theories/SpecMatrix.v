(** * Specification vocabulary: matrices of a lattice *)
From Coq Require Import List ZArith Bool Arith.
From Verif Require Import Np DataModel SpecData MatrixModel.
Import ListNotations.
Open Scope nat_scope.

(** Addition is associative and commutative, and [zero] is neutral. *)
Definition addition {T} (add : T -> T -> T) (zero : T) : Prop :=
  (forall x y z, add x (add y z) = add (add x y) z) /\ (forall x y, add x y = add y x) /\ (forall x, add zero x = x).

(** The last assignment that concerns the atom [alpha] (or all atoms)... *)
Definition onsite_value {T} (zero : T) (l : list (assignment T)) (alpha : Z) : T :=
  fold_left (fun v a => match a with
                        | Onsite None w => w
                        | Onsite (Some b) w => if (b =? alpha)%Z then w else v
                        | Hopping _ _ => v
                        end) l zero.

(** ... and the last one that concerns the distance index [k] (or all neighbours). *)
Definition hopping_value {T} (zero : T) (l : list (assignment T)) (k : nat) : T :=
  fold_left (fun v a => match a with
                        | Hopping None w => w
                        | Hopping (Some b) w => if (b =? Z.of_nat k)%Z then w else v
                        | Onsite _ _ => v
                        end) l zero.

(** Atoms and distances are not given by negative numbers. *)
Definition not_negative {T} (a : assignment T) : Prop :=
  match a with Onsite (Some b) _ | Hopping (Some b) _ => (0 <= b)%Z | _ => True end.

(** No site is its own neighbour; each neighbour is listed once. *)
Definition simple_links (d : data) : Prop :=
  forall i, i < nsites d -> NoDup (map fst (links d i)) /\ ~ In i (map fst (links d i)).

(** If [i] is linked to [j] then [j] to [i], at the same distance. *)
Definition mutual_links (d : data) : Prop :=
  forall i j x, i < nsites d -> j < nsites d -> In (j, x) (links d i) -> In (i, x) (links d j).
