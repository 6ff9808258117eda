(** * Specification vocabulary for bases: plain matrix algebra, independent of the model. *)
From Coq Require Import List ZArith QArith Qround Bool Arith.
Import ListNotations.
Open Scope Q_scope.

(** Sum of f(0), ..., f(n-1). *)
Fixpoint sum_upto (n : nat) (f : nat -> Q) : Q :=
  match n with
  | O => 0
  | S m => sum_upto m f + f m
  end.

(** Kronecker delta. *)
Definition delta (i j : nat) : Q := if Nat.eqb i j then 1 else 0.

(** [M] is a [d x d] matrix (list of rows). *)
Definition square (d : nat) (M : list (list Q)) : Prop :=
  length M = d /\ forall row, In row M -> length row = d.

Definition entry (M : list (list Q)) (i j : nat) : Q := nth j (nth i M []) 0.

(** What is assumed of [np.linalg.inv]: [W] is the inverse matrix of [V]. *)
Definition inverse_of (d : nat) (V W : list (list Q)) : Prop :=
  square d V /\ square d W /\
  (forall i j, (i < d)%nat -> (j < d)%nat ->
     sum_upto d (fun k => entry V i k * entry W k j) == delta i j) /\
  (forall i j, (i < d)%nat -> (j < d)%nat ->
     sum_upto d (fun k => entry W i k * entry V k j) == delta i j).

(** Equality of vectors, entry by entry. *)
Definition same (u v : list Q) : Prop :=
  length u = length v /\ forall i, nth i u 0 == nth i v 0.

(** Lexicographic order on integer vectors. *)
Inductive lex : list Z -> list Z -> Prop :=
| lex_here x y xs ys : (x < y)%Z -> lex (x :: xs) (y :: ys)
| lex_next x xs ys : lex xs ys -> lex (x :: xs) (x :: ys).

(** [l] lists the values satisfying [P], each once, in increasing order. *)
Definition lists_values (P : Q -> Prop) (l : list Q) : Prop :=
  (forall i j x y, (i < j)%nat -> nth_error l i = Some x -> nth_error l j = Some y -> x < y) /\
  (forall q, P q <-> exists x, In x l /\ x == q).

(** Squared length of a vector, and of the lattice vector with integer coordinates [n]
    (the columns of [V] are the basis vectors). *)
Definition sq_len (v : list Q) : Q := sum_upto (length v) (fun i => nth i v 0 * nth i v 0).
Definition cell_sq (d : nat) (V : list (list Q)) (n : list Z) : Q :=
  sum_upto d (fun i =>
    let c := sum_upto d (fun k => entry V i k * inject_Z (nth k n 0%Z)) in c * c).
Definition column_sq (d : nat) (V : list (list Q)) (k : nat) : Q :=
  sum_upto d (fun i => entry V i k * entry V i k).

(** Integer vectors of length [d] with entries between [-m] and [m]. *)
Definition int_box (d : nat) (m : Z) (n : list Z) : Prop :=
  length n = d /\ forall k, In k n -> (- m <= k <= m)%Z.

(** Determinant by expansion along the first row. *)
Fixpoint drop {A} (j : nat) (l : list A) : list A :=
  match l, j with
  | [], _ => []
  | _ :: xs, O => xs
  | x :: xs, S j' => x :: drop j' xs
  end.

Fixpoint det (d : nat) (M : list (list Q)) : Q :=
  match d with
  | O => 1
  | S m =>
    sum_upto d (fun j =>
      (if Nat.even j then 1 else -(1)) * entry M 0 j * det m (map (drop j) (tl M)))
  end.

(** The rows of [M] are linearly dependent. *)
Definition dependent (d : nat) (M : list (list Q)) : Prop :=
  exists c : nat -> Q,
    (exists i, (i < d)%nat /\ ~ c i == 0) /\
    forall j, (j < d)%nat -> sum_upto d (fun i => c i * entry M i j) == 0.

(** [N] is [M] with row [i] replaced by [f]. *)
Definition row_replaced (d i : nat) (f : nat -> Q) (M N : list (list Q)) : Prop :=
  square d N /\
  (forall j, (j < d)%nat -> entry N i j == f j) /\
  (forall k j, k <> i -> (k < d)%nat -> (j < d)%nat -> entry N k j == entry M k j).
