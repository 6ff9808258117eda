(** * Model of lattpy/spatial.py (rational part; rotations and compute_vectors are in RealModel.v) *)
From Coq Require Import List ZArith QArith Qround Qabs Qminmax Bool Arith.
From Verif Require Import Np LinAlg UtilsModel.
Import ListNotations.

(** ** interweave *)

(** [result[i::n] = arr] on a list, starting at position [pos].  lattpy/spatial.py:115. *)
Fixpoint assign_stride {A} (pos i n : nat) (arr result : list A) : list A :=
  match result with
  | [] => []
  | x :: xs =>
    if (pos mod n =? i)%nat then
      match arr with
      | [] => x :: xs
      | a :: as_ => a :: assign_stride (S pos) i n as_ xs
      end
    else x :: assign_stride (S pos) i n arr xs
  end.

(** Number of positions of the slice [result[i::n]] of an array of length [size].
    lattpy/spatial.py:115. *)
Definition slots (size i n : nat) : nat :=
  length (filter (fun p => p mod n =? i)%nat (seq 0 size)).

(** The assignment [result[i::n] = arr]: an array of length one is broadcast, another length than that of the
    slice is a ValueError ([None]).  lattpy/spatial.py:115. *)
Definition assign_slice_stride {A} (i n : nat) (arr result : list A) : option (list A) :=
  let m := slots (length result) i n in
  match arr with
  | [a] => Some (assign_stride 0 i n (repeat a m) result)
  | _ => if (length arr =? m)%nat then Some (assign_stride 0 i n arr result) else None
  end.

(** The loop of [interweave].  lattpy/spatial.py:114-115. *)
Fixpoint interweave_loop {A} (n i : nat) (arrays : list (list A)) (result : list A) : option (list A) :=
  match arrays with
  | [] => Some result
  | arr :: rest =>
    match assign_slice_stride i n arr result with
    | Some res => interweave_loop n (S i) rest res
    | None => None
    end
  end.

(** [interweave].  lattpy/spatial.py:110-116.  [init] is the uninitialised memory of [np.empty]
    (its length is the one computed in line 111).  Entries are abstract: the shapes of the trailing axes and the
    dtype are taken to agree. *)
Definition interweave {A} (arrays : list (list A)) (init : list A) : option (list A) :=
  match arrays with
  | [] => None                                         (* arrays[0]: IndexError *)
  | _ => interweave_loop (length arrays) 0 arrays init
  end.

(** ** vindices *)

(** Conversion of [0, 1, ..., n-1] to [dtype] in [np.indices].  lattpy/spatial.py:157.
    The types are signed because of [signed=True] in line 141; [object] does not wrap. *)
Definition wrap_dtype (t : ndtype) (z : Z) : Z :=
  match t with
  | OBJ => z
  | _ => if dt_signed t then wrap_signed (dt_bits t) z else wrap_unsigned (dt_bits t) z
  end.

(** Order along one component.  lattpy/spatial.py:161. *)
Definition axis_leb (axis : nat) (u v : list Z) : bool :=
  (nth axis u 0 <=? nth axis v 0)%Z.

(** [vindices] with the default dtype.  lattpy/spatial.py:140-163.  [limits] is a list of (lower, upper);
    [np.lexsort] with one key is a stable sort; [None] is an exception (negative dimensions, axis out of range).
    Simplified: [sort_axis] is not negative. *)
Definition vindices (limits : list (Z * Z)) (sort_axis : option nat) : option (list (list Z)) :=
  match min_dtype (flat_map (fun l => [fst l; snd l]) limits) true with
  | None => None
  | Some dtype =>
    if existsb (fun l => (snd l - fst l <? 0)%Z) limits then None
    else
      let axis (l : Z * Z) :=
        map (fun i => (wrap_dtype dtype i + fst l)%Z) (zrange 0 (snd l - fst l)) in
      let nvecs := product (map axis limits) in
      match sort_axis with
      | None => Some nvecs
      | Some a =>
        if (a <? length limits)%nat then Some (sort_stable (axis_leb a) nvecs)
        else None                                      (* IndexError *)
      end
  end.

(** ** cell_size *)

(** Maximum / minimum of a non-empty column.  lattpy/spatial.py:237-238. *)
Definition qmax_list (x : Q) (l : list Q) : Q := fold_left Qmax l x.
(** Minimum of a non-empty column.  lattpy/spatial.py:238. *)
Definition qmin_list (x : Q) (l : list Q) : Q := fold_left Qmin l x.

(** [cell_size].  lattpy/spatial.py:237-240: [min_values[min_values > 0] = 0]. *)
Definition cell_size (vectors : mat) : vec :=
  match vectors with
  | [] => []
  | v0 :: rest =>
    map (fun j =>
      let c0 := nth j v0 0%Q in
      let col := map (fun v => nth j v 0%Q) rest in
      let mx := qmax_list c0 col in
      let mn := qmin_list c0 col in
      (mx - (if Qle_bool mn 0 then mn else 0))%Q) (seq 0 (length v0))
  end.

(** ** KDTree.query *)

(** A distance returned by the tree, given by its square; [None] is [inf].  lattpy/spatial.py:342-344. *)
Notation qdist := (option Q) (only parsing).

(** [dists == 0].  lattpy/spatial.py:347. *)
Definition qd_zero (a : qdist) : bool :=
  match a with Some q => Qeq_bool q 0 | None => false end.

(** [dists != np.inf].  lattpy/spatial.py:360. *)
Definition qd_finite (a : qdist) : bool := match a with Some _ => true | None => false end.

(** [dists > max_dist], with [max_dist] given by its square ([None] is [np.inf]).  lattpy/spatial.py:354. *)
Definition qd_exceeds (max2 : option Q) (a : qdist) : bool :=
  match max2, a with
  | None, _ => false
  | Some m, Some q => negb (Qle_bool q m)
  | Some _, None => true
  end.

(** [np.round(dists, decimals=6)].  lattpy/spatial.py:365-366. *)
Definition qd_round (a : qdist) : dist :=
  match a with Some q => Fin (sqrt_micro q) | None => Inf end.

(** One row of the result of a query: (index, distance) pairs. *)
Notation qrow := (list (nat * option Q)) (only parsing).

(** Columns that contain a finite distance.  lattpy/spatial.py:360. *)
Definition finite_column (rows : list qrow) (c : nat) : bool :=
  existsb (fun r => match nth_error r c with Some (_, d) => qd_finite d | None => false end) rows.

(** [KDTree.query]: post-processing of the raw result [raw] of [cKDTree.query] (one row per point, all rows of
    length k).  lattpy/spatial.py:341-368.  [n] is the number of points, [max2] the square of [max_dist].
    Rounding (lines 365-366) is [qd_round].  The integer conversion of line 350 does not change values (n fits,
    C02).  Not modelled: k = 1, for which scipy returns one-dimensional arrays and line 347 raises. *)
Definition kd_query (n : nat) (max2 : option Q) (include_zero compact : bool) (raw : list qrow) : list qrow :=
  let rows :=
    if negb include_zero &&
       forallb (fun r => match r with (_, d) :: _ => qd_zero d | [] => false end) raw
    then map (fun r => tl r) raw else raw in
  let rows :=
    map (map (fun e => if qd_exceeds max2 (snd e) then (n, None) else e)) rows in
  if compact then
    let cols := match rows with [] => 0%nat | r :: _ => length r end in
    let mask := map (finite_column rows) (seq 0 cols) in
    map (select mask) rows
  else rows.
