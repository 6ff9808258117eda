(** * Model of the matrices built from a data map (lattpy/data.py:142-207)

    The elements are of any type with an addition and a zero; [dtype] is not modelled.  Of a sparse matrix of scipy only
    the contents count: elements given more than once for the same row and column are added. *)
From Coq Require Import List ZArith Bool Arith.
From Verif Require Import Np DataModel.
Import ListNotations.
Open Scope nat_scope.

(** [zeros] without [norb] and with it.  lattpy/data.py:157-161. *)
Definition dm_zeros {T} (zero : T) (m : datamap) : list T := repeat zero (dm_size m).
(** [zeros] with [norb].  lattpy/data.py:157-161. *)
Definition dm_zeros_orbitals {T} (zero : T) (m : datamap) (norb : nat) : list (list (list T)) :=
  repeat (repeat (repeat zero norb) norb) (dm_size m).

(** The assignment [data[mask] = v] of numpy, as used with the masks [onsite] and [hopping] (lattpy/data.py:107-140;
    lattpy/tests/test_data.py:159-161, README.md:229-231). *)
Definition masked_set {T} (mask : list bool) (v : T) (data : list T) : list T :=
  map2 (fun (b : bool) x => if b then v else x) mask data.

(** Assignments with the masks of the map: [data[dmap.onsite(alpha)] = v] and [data[dmap.hopping(distidx)] = v].
    lattpy/data.py:107-140. *)
Inductive assignment (T : Type) :=
| Onsite (alpha : option Z) (v : T)
| Hopping (distidx : option Z) (v : T).
Arguments Onsite {T} _ _.
Arguments Hopping {T} _ _.

(** One assignment.  lattpy/tests/test_data.py:159-161. *)
Definition assign {T} (m : datamap) (data : list T) (a : assignment T) : list T :=
  match a with
  | Onsite alpha v => masked_set (dm_onsite m alpha) v data
  | Hopping k v => masked_set (dm_hopping m k) v data
  end.

(** Assignments one after the other.  lattpy/tests/test_data.py:159-161. *)
Definition assign_all {T} (m : datamap) (data : list T) (l : list (assignment T)) : list T := fold_left (assign m) l data.

(** Contents of a matrix of scipy: number of rows, number of columns, elements.  lattpy/data.py:183, 206. *)
Record matrix (T : Type) := mkMatrix { m_rows : nat; m_cols : nat; m_entry : nat -> nat -> T }.
Arguments mkMatrix {T} _ _ _.
Arguments m_rows {T} _.
Arguments m_cols {T} _.
Arguments m_entry {T} _ _ _.

(** [toarray] of the matrices of scipy.  lattpy/tests/test_data.py:163. *)
Definition toarray {T} (M : matrix T) : list (list T) :=
  map (fun i => map (m_entry M i) (seq 0 (m_cols M))) (seq 0 (m_rows M)).

(** Sum of some elements (scipy adds elements stored twice).  lattpy/data.py:183, 206. *)
Definition total {T} (add : T -> T -> T) (zero : T) (l : list T) : T := fold_right add zero l.

(** The largest index of an array without negative elements (in the matrices of scipy).  lattpy/data.py:183, 206. *)
Definition largest (l : list nat) : nat := fold_right Nat.max 0 l.

(** [csr_matrix((data, indices), shape)] of scipy: the numbers of rows and columns are the largest indices plus one if
    [shape] is [None]; an error if there are no indices then, if an index exceeds the shape or if the lengths differ. *)
Definition csr_matrix {T} (add : T -> T -> T) (zero : T) (data : list T) (indices : list (nat * nat)) (shape : option (nat * nat))
  : option (matrix T) :=
  if negb (length data =? length indices) then None
  else
    let dims := match shape, indices with
                | Some s, _ => Some s
                | None, [] => None
                | None, _ => Some (S (largest (map fst indices)), S (largest (map snd indices)))
                end in
    match dims with
    | None => None
    | Some (r, c) =>
      if forallb (fun e => (fst e <? r) && (snd e <? c)) indices
      then Some (mkMatrix r c (fun i j =>
             total add zero (map snd (filter (fun e => (fst (fst e) =? i) && (snd (fst e) =? j)) (combine indices data)))))
      else None
    end.

(** [build_csr].  lattpy/data.py:182. *)
Definition build_csr {T} (add : T -> T -> T) (zero : T) (m : datamap) (data : list T) (shape : option (nat * nat)) : option (matrix T) :=
  csr_matrix add zero data (dm_indices m) shape.

(** Element of a three-dimensional array of numpy.  lattpy/data.py:206. *)
Definition block_entry {T} (zero : T) (data : list (list (list T))) (k a b : nat) : T := nth b (nth a (nth k data []) []) zero.

(** [bsr_matrix((data, indices, indptr))] of scipy for blocks with [norb] rows and columns: the blocks of the block row
    [r] are [data[indptr[r]:indptr[r+1]]], their columns are [indices[indptr[r]:indptr[r+1]]]. *)
Definition bsr_matrix {T} (add : T -> T -> T) (zero : T) (norb : nat) (data : list (list (list T))) (indices indptr : list nat)
  : option (matrix T) :=
  if negb (length data =? length indices) then None
  else match indices with
       | [] => None
       | _ => Some (mkMatrix ((length indptr - 1) * norb) (S (largest indices) * norb) (fun p q =>
                let first := nth (p / norb) indptr 0 in
                total add zero (map (fun k => block_entry zero data k (p mod norb) (q mod norb))
                  (filter (fun k => nth k indices 0 =? q / norb) (seq first (nth (S (p / norb)) indptr 0 - first))))))
       end.

(** [build_bsr] for [shape=None].  lattpy/data.py:207. *)
Definition build_bsr {T} (add : T -> T -> T) (zero : T) (norb : nat) (m : datamap) (data : list (list (list T))) : option (matrix T) :=
  let (indices, indptr) := indices_indptr m in bsr_matrix add zero norb data indices indptr.

(** The matrix built with loops over the sites and their nearest neighbours ([nearest_neighbors], lattpy/lattice.py:347).
    README.md:208-214, docs/source/tutorial/finite.rst.  [None] is the IndexError of an assignment outside of the
    array. *)
Definition put {T} (M : nat -> nat -> T) (i j : nat) (v : T) : nat -> nat -> T :=
  fun p q => if (p =? i) && (q =? j) then v else M p q.

(** One site of the loop.  README.md:210-213. *)
Definition loop_row {T} (d : data) (eps t : T) (M : option (nat -> nat -> T)) (i : nat) : option (nat -> nat -> T) :=
  match M, get_neighbors d i (Some 0) None false with
  | Some M, Some ns =>
    if forallb (fun j => j <? num_sites d) ns then Some (fold_left (fun M j => put M i j t) ns (put M i i eps)) else None
  | _, _ => None
  end.

(** The whole loop.  README.md:208-214. *)
Definition loop_matrix {T} (zero : T) (d : data) (eps t : T) : option (matrix T) :=
  match fold_left (loop_row d eps t) (seq 0 (num_sites d)) (Some (fun _ _ => zero)) with
  | Some M => Some (mkMatrix (num_sites d) (num_sites d) M)
  | None => None
  end.
