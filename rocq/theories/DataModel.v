(** * Model of lattpy/data.py

    A table (two-dimensional array) is a list of rows.  [None] is an exception.  Methods that mutate the object
    return the new object. *)
From Coq Require Import List ZArith QArith Qminmax Bool Arith.
From Verif Require Import Np LinAlg UtilsModel ShapeModel.
Import ListNotations.
Open Scope nat_scope.

(** ** DataMap *)

(** [DataMap].  lattpy/data.py:45-51: [_map] and [_indices]. *)
Record datamap := mkMap { dm_map : list Z; dm_indices : list (nat * nat) }.

(** [DataMap.__init__].  lattpy/data.py:45-51.  [argsort] is [np.argsort] (not stable by default, so any function
    sorting the keys is allowed). *)
Definition datamap_init (argsort : list nat -> list nat) (alphas : list Z) (pairs : list (nat * nat))
  (distindices : list nat) : datamap :=
  let sites := seq 0 (length alphas) in
  let map_ := map (fun a => (- a - 1)%Z) alphas ++ map Z.of_nat distindices in
  let indices_ := map (fun i => (i, i)) sites ++ pairs in
  let ind := argsort (map fst indices_) in
  mkMap (take 0%Z map_ ind) (take (0, 0) indices_ ind).

(** [size], [rows], [cols].  lattpy/data.py:54-71. *)
Definition dm_size (m : datamap) : nat := length (dm_indices m).
(** [rows].  lattpy/data.py:64-66. *)
Definition dm_rows (m : datamap) : list nat := map fst (dm_indices m).
(** [cols].  lattpy/data.py:69-71. *)
Definition dm_cols (m : datamap) : list nat := map snd (dm_indices m).

(** [indices_indptr].  lattpy/data.py:98-105. *)
Definition indptr_step (m : datamap) (acc : list nat * list nat) (r : nat) : list nat * list nat :=
  let (indices, indptr) := acc in
  let mask := map (Nat.eqb r) (dm_rows m) in
  let indices' := indices ++ select mask (dm_cols m) in
  (indices', indptr ++ [length indices']).

(** The loop over the distinct rows.  lattpy/data.py:98-105. *)
Definition indices_indptr (m : datamap) : list nat * list nat :=
  fold_left (indptr_step m) (unique Nat.leb (dm_rows m)) ([], [0]).

(** [onsite].  lattpy/data.py:120-122. *)
Definition dm_onsite (m : datamap) (alpha : option Z) : list bool :=
  match alpha with
  | None => map (fun x => (x <? 0)%Z) (dm_map m)
  | Some a => map (fun x => (x =? - a - 1)%Z) (dm_map m)
  end.

(** [hopping].  lattpy/data.py:138-140. *)
Definition dm_hopping (m : datamap) (distidx : option Z) : list bool :=
  match distidx with
  | None => map (fun x => (0 <=? x)%Z) (dm_map m)
  | Some k => map (fun x => (x =? k)%Z) (dm_map m)
  end.

(** ** LatticeData *)

(** The fields of [LatticeData].  lattpy/data.py:227-239.  [d_dim] and [d_cols] are the lengths of the trailing
    axes ([positions.shape[1]] and [neighbors.shape[1]]).  The state after [reset] (arrays without rows and invalid
    indices -1) is not represented here but as the absence of data in the lattice model.
    Neighbour and distance indices are natural numbers; unsigned wrap-around is modelled where a value can leave the
    range ([append], [map]). *)
Record data := mkData {
  d_dim : nat;
  d_cols : nat;
  d_indices : list (list Z);
  d_positions : list vec;
  d_neighbors : list (list nat);
  d_distances : list (list nat);
  d_distvals : list dist;
  d_pmask : list (list bool);
  d_pnvecs : list (list (list Z));
  d_paxes : list (list (list nat));
  d_invalid_idx : nat;
  d_invalid_distidx : nat;
  d_dmap : option datamap }.

(** [num_sites].  lattpy/data.py:250-252. *)
Definition num_sites (d : data) : nat := length (d_indices d).

(** [num_distances].  lattpy/data.py:255-257: the distance indices are always finite. *)
Definition num_distances (d : data) : nat := length (unique Nat.leb (concat (d_distances d))).

(** [np.max] of a table of indices.  lattpy/data.py:319. *)
Definition nat_max (l : list nat) : option nat :=
  match l with [] => None | x :: xs => Some (fold_left Nat.max xs x) end.

(** Length of the rows of an array ([shape[1]]).  lattpy/data.py:315, 536-560. *)
Definition width {A} (rows : list (list A)) : nat := match rows with [] => 0 | r :: _ => length r end.

(** [set].  lattpy/data.py:306-320.  [None]: [np.max] of an empty array in line 319. *)
Definition data_set (indices : list (list Z)) (positions : list vec) (neighbors : list (list nat))
  (distances : list (list dist)) : option data :=
  let (distvals, distidx) := create_lookup_table2 dleb deqb distances in
  let dim := width positions in
  match nat_max (concat distidx) with
  | None => None
  | Some inv =>
    Some (mkData dim (width neighbors) indices positions neighbors distidx distvals
            (map (map (fun _ => false)) neighbors)
            (map (map (fun _ => repeat 0%Z dim)) neighbors)
            (map (map (fun _ => repeat 0 dim)) neighbors)
            (length indices) inv None)
  end.

(** The loop of [remove]: [neighbors[neighbors > (i - count)] -= 1].  lattpy/data.py:340-341. *)
Definition decrement (neighbors : list (list nat)) (ci : nat * nat) : list (list nat) :=
  let (count, i) := ci in
  map (map (fun n => if i <? n + count then n - 1 else n)) neighbors.

(** [remove].  lattpy/data.py:322-352.  [sites] are non-negative; [None] is the IndexError of [np.delete].
    [paxes], [pnvecs], [pmask] and [_dmap] are not updated. *)
Definition remove (d : data) (sites : list nat) : option data :=
  if forallb (fun s => s <? num_sites d) sites then
    let invalid_idx := d_invalid_idx d in
    let invalid_distidx := d_invalid_distidx d in
    let indices := delete sites (d_indices d) in
    let positions := delete sites (d_positions d) in
    let neighbors := delete sites (d_neighbors d) in
    let distances := delete sites (d_distances d) in
    let mask := map (map (isin sites)) neighbors in
    let neighbors := map2 (fun m r => assign_mask m invalid_idx r) mask neighbors in
    let distances := map2 (fun m r => assign_mask m invalid_distidx r) mask distances in
    let neighbors := fold_left decrement (enumerate (sort_stable Nat.leb sites)) neighbors in
    let num := length indices in
    let neighbors := map (map (fun n => if n =? invalid_idx then num else n)) neighbors in
    Some (mkData (d_dim d) (d_cols d) indices positions neighbors distances (d_distvals d)
            (d_pmask d) (d_pnvecs d) (d_paxes d) num invalid_distidx (d_dmap d))
  else None.

(** [get_limits].  lattpy/data.py:362-364. *)
Definition get_limits (d : data) : list (Q * Q) := point_limits (d_positions d).

(** [neighbor_mask].  lattpy/data.py:424-433.  [None]: IndexError. *)
Definition neighbor_mask (d : data) (site : nat) (distidx : option nat) (periodic : option bool) (uniq : bool)
  : option (list bool) :=
  match nth_error (d_distances d) site, nth_error (d_neighbors d) site with
  | Some dists, Some nbrs =>
    let mask := match distidx with
                | None => map (fun k => k <? d_invalid_distidx d) dists
                | Some k => map (fun k' => k' =? k) dists
                end in
    let mask := if uniq then map2 andb mask (map (fun j => site <? j) nbrs) else mask in
    match periodic with
    | None => Some mask
    | Some p =>
      match nth_error (d_pmask d) site with
      | None => None
      | Some pm => Some (map2 andb mask (if p then pm else map negb pm))
      end
    end
  | _, _ => None
  end.

(** [get_neighbors].  lattpy/data.py:595-596. *)
Definition get_neighbors (d : data) (site : nat) (distidx : option nat) (periodic : option bool) (uniq : bool)
  : option (list nat) :=
  match neighbor_mask d site distidx periodic uniq, nth_error (d_neighbors d) site with
  | Some mask, Some nbrs => Some (select mask nbrs)
  | _, _ => None
  end.

(** [iter_neighbors].  lattpy/data.py:608-610. *)
Definition iter_neighbors (d : data) (site : nat) (uniq : bool) : option (list (nat * list nat)) :=
  match nth_error (d_distances d) site with
  | None => None
  | Some dists =>
    Some (flat_map (fun k =>
            if k =? d_invalid_distidx d then []
            else match get_neighbors d site (Some k) None uniq with
                 | Some ns => [(k, ns)]
                 | None => []
                 end) (unique Nat.leb dists))
  end.

(** [remove_periodic].  lattpy/data.py:489-495. *)
Definition remove_periodic (d : data) : data :=
  mkData (d_dim d) (d_cols d) (d_indices d) (d_positions d)
    (map2 (fun m r => assign_mask m (d_invalid_idx d) r) (d_pmask d) (d_neighbors d))
    (map2 (fun m r => assign_mask m (d_invalid_distidx d) r) (d_pmask d) (d_distances d))
    (d_distvals d)
    (map (map (fun _ => false)) (d_pmask d))
    (map (map (map (fun _ => 0%Z))) (d_pnvecs d))
    (map (map (map (fun _ => d_dim d))) (d_paxes d))
    (d_invalid_idx d) (d_invalid_distidx d) (d_dmap d).

(** The call of [remove_periodic].  lattpy/data.py:489-495.  [None]: IndexError of the boolean index in line 491, if
    the mask (left over from before [remove]) has more rows than the table. *)
Definition call_remove_periodic (d : data) : option data :=
  if length (d_pmask d) =? length (d_neighbors d) then Some (remove_periodic d) else None.

(** [row[i0:i1] = vs] with [i1 = i0 + len(vs)].  A slice running over the end is shorter than [vs], which is an
    error except that one value is broadcast to the empty slice.  lattpy/data.py:463-466, 516-517. *)
Definition put_slice {A} (i0 : nat) (vs row : list A) : option (list A) :=
  if i0 + length vs <=? length row then Some (assign_slice i0 vs row)
  else if length vs <=? 1 then Some row else None.

(** [table[i, i0:i1] = vs].  lattpy/data.py:513-517. *)
Definition put_row {A} (i i0 : nat) (vs : list A) (table : list (list A)) : option (list (list A)) :=
  match nth_error table i with
  | None => None
  | Some row => match put_slice i0 vs row with
                | None => None
                | Some row' => Some (set_nth i row' table)
                end
  end.

(** A periodic neighbour: index, distance, translation and axes.  lattpy/data.py:435-437: the four dictionaries are
    taken together. *)
Record pneighbor := mkPN { pn_idx : nat; pn_dist : dist; pn_nvec : list Z; pn_axes : list nat }.

(** [paxes[i, i0:i1, :n] = axes].  lattpy/data.py:465. *)
Definition put_axes (i i0 : nat) (pn : list pneighbor) (table : list (list (list nat)))
  : option (list (list (list nat))) :=
  match nth_error table i with
  | None => None
  | Some row =>
    put_row i i0 (map2 (fun p old => assign_slice 0 (pn_axes p) old) pn (skipn i0 row)) table
  end.

(** One step of the loop of [set_periodic].  lattpy/data.py:455-467. *)
Definition set_periodic_step (d : data) (entry : nat * list pneighbor) : option data :=
  let (i, pn) := entry in
  match get_neighbors d i None (Some false) false with
  | None => None
  | Some reg =>
    let i0 := length reg in
    let distidx := map (fun p => searchsorted dltb (d_distvals d) (pn_dist p)) pn in
    match put_row i i0 (map pn_idx pn) (d_neighbors d), put_row i i0 distidx (d_distances d),
          put_axes i i0 pn (d_paxes d), put_row i i0 (map pn_nvec pn) (d_pnvecs d),
          put_row i i0 (map (fun _ => true) pn) (d_pmask d) with
    | Some nb, Some di, Some ax, Some nv, Some pm =>
      Some (mkData (d_dim d) (d_cols d) (d_indices d) (d_positions d) nb di (d_distvals d) pm nv ax
              (d_invalid_idx d) (d_invalid_distidx d) (d_dmap d))
    | _, _, _, _, _ => None
    end
  end.

(** The loop of [set_periodic].  lattpy/data.py:455-467. *)
Fixpoint set_periodic_loop (d : data) (entries : list (nat * list pneighbor)) : option data :=
  match entries with
  | [] => Some d
  | e :: es => match set_periodic_step d e with Some d' => set_periodic_loop d' es | None => None end
  end.

(** [set_periodic].  lattpy/data.py:452-467.  [None]: an exception. *)
Definition set_periodic (d : data) (entries : list (nat * list pneighbor)) : option data :=
  match call_remove_periodic d with
  | Some d0 => set_periodic_loop d0 entries
  | None => None
  end.

(** The data if the loop of [set_periodic] raises: the entries before are written, of the failing entry nothing, as the
    five tables have the same number of columns and the first assignment is rejected.  lattpy/data.py:455-467. *)
Fixpoint written (d : data) (entries : list (nat * list pneighbor)) : data :=
  match entries with
  | [] => d
  | e :: es => match set_periodic_step d e with Some d' => written d' es | None => d end
  end.

(** [np.lexsort] with one key: stable.  lattpy/data.py:471. *)
Definition argsort_stable {A} (leb : A -> A -> bool) (d : A) (keys : list A) : list nat :=
  sort_stable (fun i j => leb (nth i keys d) (nth j keys d)) (seq 0 (length keys)).

(** Translation of the neighbour indices in [sort]: [neighbors[old_neighbors == old] = new].
    lattpy/data.py:484-487. *)
Definition relabel_step (old_neighbors : list (list nat)) (cur : list (list nat)) (no : nat * nat)
  : list (list nat) :=
  let (new, old) := no in
  map2 (map2 (fun o c => if o =? old then new else c)) old_neighbors cur.

(** The loop over the new order.  lattpy/data.py:484-485. *)
Definition relabel (indices : list nat) (neighbors : list (list nat)) : list (list nat) :=
  fold_left (relabel_step neighbors) (enumerate indices) neighbors.

(** [sort].  lattpy/data.py:469-487.  The map is not updated. *)
Definition sort (d : data) (ax : option nat) (indices : option (list nat)) (reverse : bool) : option data :=
  match
    match ax with
    | Some a =>
      if a <? S (d_dim d) then Some (argsort_stable Z.leb 0%Z (map (fun ind => nth a ind 0%Z) (d_indices d)))
      else None
    | None => indices
    end
  with
  | None => None
  | Some idx =>
    let idx := if reverse then rev idx else idx in
    if forallb (fun i => i <? num_sites d) idx then
      Some (mkData (d_dim d) (d_cols d) (take [] (d_indices d) idx) (take [] (d_positions d) idx)
              (relabel idx (take [] (d_neighbors d) idx)) (take [] (d_distances d) idx) (d_distvals d)
              (take [] (d_pmask d) idx) (take [] (d_pnvecs d) idx) (take [] (d_paxes d) idx)
              (d_invalid_idx d) (d_invalid_distidx d) (d_dmap d))
    else None
  end.

(** [self.distvals[self.distances]].  lattpy/data.py:498, 521. *)
Definition distance_table (d : data) : list (list dist) :=
  map (map (fun k => nth k (d_distvals d) Inf)) (d_distances d).

(** [sort_neighbors].  lattpy/data.py:497-505.  [argsort] is [np.argsort] of a row. *)
Definition sort_neighbors (argsort : list dist -> list nat) (d : data) : data :=
  let j := map argsort (distance_table d) in
  mkData (d_dim d) (d_cols d) (d_indices d) (d_positions d)
    (map2 (fun r p => take 0 r p) (d_neighbors d) j)
    (map2 (fun r p => take 0 r p) (d_distances d) j) (d_distvals d)
    (map2 (fun r p => take false r p) (d_pmask d) j)
    (map2 (fun r p => take [] r p) (d_pnvecs d) j)
    (map2 (fun r p => take [] r p) (d_paxes d) j)
    (d_invalid_idx d) (d_invalid_distidx d) (d_dmap d).

(** [add_neighbors] with one neighbour, as called in lattice.py:831-832.  lattpy/data.py:507-517. *)
Definition add_neighbor (d : data) (site neighbor : nat) (distance : dist) : option data :=
  match nth_error (d_distances d) site with
  | None => None
  | Some dists =>
    let i0 := length (select (map (fun k => negb (k =? d_invalid_distidx d)) dists) dists) in
    let distidx := searchsorted dltb (d_distvals d) distance in
    match put_row site i0 [neighbor] (d_neighbors d), put_row site i0 [distidx] (d_distances d) with
    | Some nb, Some di =>
      Some (mkData (d_dim d) (d_cols d) (d_indices d) (d_positions d) nb di (d_distvals d)
              (d_pmask d) (d_pnvecs d) (d_paxes d) (d_invalid_idx d) (d_invalid_distidx d) (d_dmap d))
    | _, _ => None
    end
  end.

(** [np.pad] of the rows to [cols] columns.  lattpy/data.py:550-557. *)
Definition pad_rows {A} (cols : nat) (v : A) (rows : list (list A)) : list (list A) :=
  map (fun r => r ++ repeat v (cols - length r)) rows.

(** [append], the joined arrays.  lattpy/data.py:520-563.
    [w1] and [w2] are the conversions to the types of the two neighbour arrays (values that do not fit are reduced),
    lines 536-537 and 552; [w3] is the conversion to the type chosen in line 540 (line 556).  The first component of
    the result is [neighbors2] after the in-place change of line 537, and of line 544 if no copy is made by line 542
    because the type is already the one chosen ([same_dtype]).  Line 540 fails for an empty table (see [append]). *)
Definition append_arrays (w1 w2 w3 : nat -> nat) (same_dtype : bool) (d : data)
  (indices2 : list (list Z)) (positions2 : list vec) (neighbors2 : list (list nat)) (distances2 : list (list dist))
  : list (list nat) * (list (list Z) * list vec * list (list nat) * list (list dist)) :=
  let n1 := num_sites d in
  let invalid_idx := n1 + length indices2 in
  let neighbors1 := map (map (fun n => if n =? d_invalid_idx d then w1 invalid_idx else n)) (d_neighbors d) in
  let distances1 := distance_table d in
  let neighbors2 := map (map (fun n => if n =? length indices2 then w2 invalid_idx else n)) neighbors2 in
  let shifted := map (map (fun n => if n =? invalid_idx then n else n + n1)) neighbors2 in
  let mutated := if same_dtype then shifted else neighbors2 in
  let cols := Nat.max (d_cols d) (width shifted) in
  (mutated,
   (d_indices d ++ indices2, d_positions d ++ positions2,
    pad_rows cols (w1 invalid_idx) neighbors1 ++ pad_rows cols (w3 invalid_idx) shifted,
    pad_rows cols Inf distances1 ++ pad_rows cols Inf distances2)).

(** [append] with four arrays.  lattpy/data.py:519-572: the resulting object ([self], or the new object if
    [copy=True]).  [None]: [remove_periodic], the [np.max] of line 540 or of [set].  The neighbours are copied in line 520 before
    [remove_periodic] in line 532, so that periodic neighbours are kept. *)
Definition append (argsort : list dist -> list nat) (w1 w2 w3 : nat -> nat) (d : data)
  (indices2 : list (list Z)) (positions2 : list vec) (neighbors2 : list (list nat)) (distances2 : list (list dist))
  : option data :=
  match call_remove_periodic d, concat neighbors2 with
  | None, _ | _, [] => None
  | Some _, _ :: _ =>
    let '(_, (ind, pos, nb, di)) := append_arrays w1 w2 w3 false d indices2 positions2 neighbors2 distances2 in
    option_map (sort_neighbors argsort) (data_set ind pos nb di)
  end.

(** [append] of another data object.  lattpy/data.py:522-527. *)
Definition append_data (argsort : list dist -> list nat) (w1 w2 w3 : nat -> nat) (d e : data) : option data :=
  append argsort w1 w2 w3 d (d_indices e) (d_positions e) (d_neighbors e) (distance_table e).

(** The appended object after the call.  lattpy/data.py:526, 537, 542-544: [neighbors2] is the array of the
    argument. *)
Definition append_argument (w1 w2 w3 : nat -> nat) (same_dtype : bool) (d e : data) : data :=
  let nb2 := fst (append_arrays w1 w2 w3 same_dtype d (d_indices e) (d_positions e) (d_neighbors e)
                    (distance_table e)) in
  mkData (d_dim e) (d_cols e) (d_indices e) (d_positions e) nb2 (d_distances e) (d_distvals e)
    (d_pmask e) (d_pnvecs e) (d_paxes e) (d_invalid_idx e) (d_invalid_distidx e) (d_dmap e).

(** [self] after a successful [append(..., copy=True)].  lattpy/data.py:532, 565-568. *)
Definition append_copy_self (d : data) : data := remove_periodic d.

(** [get_positions(alpha)].  lattpy/data.py:574-577. *)
Definition get_positions (d : data) (alpha : Z) : list vec :=
  select (map (fun ind => (last ind 0 =? alpha)%Z) (d_indices d)) (d_positions d).

(** The pairs and labels of [map] and of [neighbor_pairs].  lattpy/data.py:622-630, lattice.py:1043-1052. *)
Definition pair_table (d : data) : list (nat * nat) * list nat :=
  let sites_t := concat (map2 (fun i r => map (fun _ => i) r) (seq 0 (num_sites d)) (d_neighbors d)) in
  let pairs := combine sites_t (concat (d_neighbors d)) in
  let distindices := concat (d_distances d) in
  let mask := map (fun k => negb (k =? d_invalid_distidx d)) distindices in
  (select mask pairs, select mask distindices).

(** Type conversion of the atom indices to [int8].  lattpy/data.py:620. *)
Definition int8 (z : Z) : Z := wrap_signed 8 z.

(** [map].  lattpy/data.py:619-632: the map and the object with the cached map. *)
Definition data_map (argsort : list nat -> list nat) (d : data) : datamap * data :=
  match d_dmap d with
  | Some m => (m, d)
  | None =>
    let alphas := map (fun ind => int8 (last ind 0%Z)) (d_indices d) in
    let (pairs, distindices) := pair_table d in
    let m := datamap_init argsort alphas pairs distindices in
    (m, mkData (d_dim d) (d_cols d) (d_indices d) (d_positions d) (d_neighbors d) (d_distances d) (d_distvals d)
          (d_pmask d) (d_pnvecs d) (d_paxes d) (d_invalid_idx d) (d_invalid_distidx d) (Some m))
  end.

(** [site_mask].  lattpy/data.py:656-671.  Missing bounds (and missing entries) are unbounded. *)
Definition bound_leb (lo : option Q) (x : Q) : bool := match lo with None => true | Some l => Qle_bool l x end.
(** Upper bound.  lattpy/data.py:656-671. *)
Definition leb_bound (x : Q) (hi : option Q) : bool := match hi with None => true | Some h => Qle_bool x h end.

(** [site_mask].  lattpy/data.py:656-671. *)
Definition site_mask (d : data) (mins maxs : option (list (option Q))) (invert : bool) : list bool :=
  let mins := match mins with None => repeat None (d_dim d) | Some m => m ++ repeat None (d_dim d - length m) end in
  let maxs := match maxs with None => repeat None (d_dim d) | Some m => m ++ repeat None (d_dim d - length m) end in
  let mask := map (fun p =>
    forallb (fun ax => bound_leb (nth ax mins None) (nth ax p 0%Q) && leb_bound (nth ax p 0%Q) (nth ax maxs None))
      (seq 0 (d_dim d))) (d_positions d) in
  if invert then map negb mask else mask.

(** [find_sites].  lattpy/data.py:696-697. *)
Definition find_sites (d : data) (mins maxs : option (list (option Q))) (invert : bool) : list nat :=
  where_ (site_mask d mins maxs invert).

(** [find_outer_sites].  lattpy/data.py:714-720.  [None]: IndexError. *)
Definition find_outer_sites (d : data) (ax : nat) (offset : Q) : option (list nat) :=
  match nth_error (get_limits d) ax with
  | None => None
  | Some (lo, hi) =>
    let bound v := set_nth ax (Some v) (repeat None (d_dim d)) in
    Some (find_sites d (Some (bound (lo + offset)%Q)) (Some (bound (hi - offset)%Q)) true)
  end.
