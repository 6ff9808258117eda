(** * Primitives of Python/numpy used by the modelled code.

    Each definition names the call sites in /repo whose meaning it gives. *)
From Coq Require Import List ZArith QArith Qround Bool Arith Lia.
Import ListNotations.
Open Scope nat_scope.

(** ** Boolean masks and fancy indexing *)

(** [arr[mask]] for a boolean mask.
    lattpy/data.py:596 (get_neighbors), data.py:577 (get_positions), data.py:629-630 (map),
    structure.py:1183-1184 (build_indices), lattice.py:1057-1058 (neighbor_pairs). *)
Fixpoint select {A} (mask : list bool) (l : list A) : list A :=
  match mask, l with
  | b :: ms, x :: xs => if b then x :: select ms xs else select ms xs
  | _, _ => []
  end.

(** [np.where(mask)[0]]: the positions of the true entries, increasing.
    lattpy/data.py:697, data.py:720, lattice.py:46, lattice.py:287, lattice.py:306. *)
Fixpoint where_from (i : nat) (mask : list bool) : list nat :=
  match mask with
  | [] => []
  | b :: ms => if b then i :: where_from (S i) ms else where_from (S i) ms
  end.

(** [np.where(mask)[0]].  lattpy/data.py:694-697, 715-720. *)
Definition where_ (mask : list bool) : list nat := where_from 0 mask.

(** [arr[idx]] for an integer index array (all indices in range).
    lattpy/data.py:475-481 (sort), data.py:501-505 (sort_neighbors, one row), data.py:50-51. *)
Definition take {A} (d : A) (l : list A) (idx : list nat) : list A :=
  map (fun i => nth i l d) idx.

(** [np.isin(x, l)] for one element.
    lattpy/data.py:337, lattice.py:63. *)
Definition isin (l : list nat) (x : nat) : bool := existsb (Nat.eqb x) l.

(** [np.delete(arr, sites, axis=0)] for non-negative in-range [sites]; repeated entries count once.
    lattpy/data.py:330-333 (remove), lattice.py:56-59 (_filter_dangling). *)
Definition delete {A} (sites : list nat) (l : list A) : list A :=
  select (map (fun i => negb (isin sites i)) (seq 0 (length l))) l.

(** [arr[mask] = v] on one row.
    lattpy/data.py:338-339, 341, 345, 487, 491-492, 536-537, 544; structure.py:1214-1215. *)
Fixpoint assign_mask {A} (mask : list bool) (v : A) (l : list A) : list A :=
  match mask, l with
  | b :: ms, x :: xs => (if b then v else x) :: assign_mask ms v xs
  | _, _ => l
  end.

(** [row[i0:i0+len(vs)] = vs] where the slice does not run over the end of the row.
    lattpy/data.py:463-467 (set_periodic), data.py:516-517 (add_neighbors). *)
Fixpoint assign_slice {A} (i0 : nat) (vs : list A) (l : list A) : list A :=
  match i0, l with
  | S i, x :: xs => x :: assign_slice i vs xs
  | S _, [] => []
  | O, _ =>
    match vs, l with
    | v :: vs', _ :: xs => v :: assign_slice O vs' xs
    | _, _ => l
    end
  end.

(** [table[i] = row] (assignment to one row of a table).
    lattpy/data.py:463-467 (set_periodic), data.py:516-517 (add_neighbors),
    plotting.py:613-614 (connection_color_array). *)
Fixpoint set_nth {A} (i : nat) (v : A) (l : list A) : list A :=
  match i, l with
  | O, _ :: xs => v :: xs
  | S i', x :: xs => x :: set_nth i' v xs
  | _, [] => []
  end.

(** [enumerate(l)].
    lattpy/utils.py:137, data.py:340, data.py:485, lattice.py:66. *)
Definition enumerate {A} (l : list A) : list (nat * A) := combine (seq 0 (length l)) l.

(** Elementwise operation on two arrays of equal length.
    lattpy/basis.py:229, 267, 325 (inner products and sums). *)
Fixpoint map2 {A B C} (f : A -> B -> C) (l : list A) (m : list B) : list C :=
  match l, m with
  | x :: xs, y :: ys => f x y :: map2 f xs ys
  | _, _ => []
  end.

(** ** Sorting *)

Section Sorting.
  Context {A : Type} (leb : A -> A -> bool).

  (** Stable insertion (after the elements that are <=). *)
  Fixpoint insert_stable (x : A) (l : list A) : list A :=
    match l with
    | [] => [x]
    | y :: ys => if leb x y then x :: y :: ys else y :: insert_stable x ys
    end.

  (** [np.sort] / [sorted] (stable).
      lattpy/utils.py:135, basis.py:532, structure.py:493, 590, 611, 749; data.py:100, 340. *)
  Fixpoint sort_stable (l : list A) : list A :=
    match l with
    | [] => []
    | x :: xs => insert_stable x (sort_stable xs)
    end.

  (** Drop equal neighbours of a sorted list. *)
  Fixpoint dedup_sorted (l : list A) : list A :=
    match l with
    | [] => []
    | x :: xs =>
      match dedup_sorted xs with
      | [] => [x]
      | y :: ys => if leb x y && leb y x then y :: ys else x :: y :: ys
      end
    end.

  (** [np.unique] (values only): sorted, distinct.
      lattpy/utils.py:135, basis.py:529, 532, data.py:100, 257, 608, lattice.py:147, 632. *)
  Definition unique (l : list A) : list A := dedup_sorted (sort_stable l).

End Sorting.

(** [np.searchsorted(a, v)] (side="left"): the number of leading entries smaller than [v].
    lattpy/data.py:461 (set_periodic), data.py:514 (add_neighbors). *)
Fixpoint searchsorted {A} (ltb : A -> A -> bool) (a : list A) (v : A) : nat :=
  match a with
  | [] => 0
  | x :: xs => if ltb x v then S (searchsorted ltb xs v) else 0
  end.

(** ** Rounding *)

(** Rounding to the nearest integer, ties to even: [np.round(x, 0)], [round], and the digit selection
    of Python's fixed-point formatting.
    lattpy/lattice.py:505, structure.py:703, utils.py:223-225, 257-277. *)
Definition Qrint (q : Q) : Z :=
  let f := Qfloor q in
  let r := (q - inject_Z f)%Q in
  if Qle_bool (1#2) r && negb (Qle_bool r (1#2)) then (f + 1)%Z
  else if Qeq_bool r (1#2) then (if Z.even f then f else (f + 1)%Z)
  else f.

(** ** Distances rounded to [DIST_DECIMALS] decimals, with infinity *)

(** A distance as stored by the library: either a multiple of 1e-6 or [np.inf].
    lattpy/structure.py:101 (DIST_DECIMALS = 6), spatial.py:352-366. *)
Inductive dist := Fin (micro : Z) | Inf.

(** [<=] on distances; lattpy/structure.py:1221, data.py:500 (argsort of distances). *)
Definition dleb (a b : dist) : bool :=
  match a, b with
  | Fin x, Fin y => (x <=? y)%Z
  | _, Inf => true
  | Inf, Fin _ => false
  end.

(** [<] on distances; lattpy/data.py:461, 514 (searchsorted). *)
Definition dltb (a b : dist) : bool := dleb a b && negb (dleb b a).

(** [==] on distances; lattpy/utils.py:138, structure.py:1212, 1226, 1240. *)
Definition deqb (a b : dist) : bool :=
  match a, b with
  | Fin x, Fin y => (x =? y)%Z
  | Inf, Inf => true
  | _, _ => false
  end.

(** [np.isfinite]; lattpy/data.py:257, lattice.py:45, 599. *)
Definition dfinite (a : dist) : bool := match a with Fin _ => true | Inf => false end.
