(** * Model of lattpy/lattice.py

    Exceptions are values as in StructureModel.v; methods that change the object return the new object.
    External calls are arguments: [query] is [cKDTree.query], [ball] is [cKDTree.query_ball_tree] (by the square of the
    radius), [argsort] is [np.argsort] of a row of distances, [norms] are the lengths of the lattice vectors.  Site
    numbers and axes are not negative. *)
From Coq Require Import String List ZArith QArith Qround Qminmax Qabs Bool Arith.
From Verif Require Import Np LinAlg UtilsModel AtomModel BasisModel SpatialModel ShapeModel StructureModel DataModel.
Import ListNotations.
Open Scope nat_scope.
Open Scope list_scope.

(** ** The dangling filter *)

(** Number of finite entries of a row.  lattpy/lattice.py:45. *)
Definition count_finite (row : list (nat * dist)) : nat := length (filter (fun e => dfinite (snd e)) row).

(** One step of the loop [neighbors[neighbors > (i - count)] -= 1].  lattpy/lattice.py:66-67. *)
Definition drop_one (rows : list (list (nat * dist))) (ci : nat * nat) : list (list (nat * dist)) :=
  let (count, i) := ci in
  map (map (fun e => (if i <? fst e + count then fst e - 1 else fst e, snd e))) rows.

(** [_filter_dangling].  lattpy/lattice.py:44-73.  The arrays [neighbors] and [dists] are one table of pairs. *)
Definition filter_dangling (indices : list (list Z)) (positions : list vec) (rows : list (list (nat * dist)))
  (min_neighbors : nat) : result (list (list Z) * list vec * list (list (nat * dist))) :=
  let sites := where_ (map (fun r => count_finite r <? min_neighbors) rows) in
  if length sites =? 0 then Ok (indices, positions, rows)
  else if length sites =? length indices then Raise ValueError
  else
    let invalid_idx := length indices in
    let indices := delete sites indices in
    let positions := delete sites positions in
    let rows := delete sites rows in
    let rows := map (map (fun e => if isin sites (fst e) then (invalid_idx, Inf) else e)) rows in
    let rows := fold_left drop_one (enumerate (sort_stable Nat.leb sites)) rows in
    let num_sites := length indices in
    Ok (indices, positions, map (map (fun e => if fst e =? invalid_idx then (num_sites, snd e) else e)) rows).

(** ** The object *)

(** The attributes.  lattpy/lattice.py:127-134.  [lt_data = None]: the empty arrays after [LatticeData()] or
    [reset]. *)
Record lattice := mkLattice {
  lt_structure : structure;
  lt_data : option data;
  lt_shape : option vec;
  lt_pos : option vec;
  lt_axes : list nat;
  lt_primitive : option bool }.

(** A new lattice.  lattpy/lattice.py:126-137 (without the keyword "shape"). *)
Definition new_lattice (s : structure) : lattice := mkLattice s None None None [] None.

(** The basis.  lattpy/lattice.py:76, 127. *)
Definition lt_basis (l : lattice) : basis := st_basis (lt_structure l).

(** [num_sites], [indices], [positions].  lattpy/lattice.py:139-157. *)
Definition lt_indices (l : lattice) : list (list Z) := match lt_data l with None => [] | Some d => d_indices d end.
(** [positions].  lattpy/lattice.py:155-157. *)
Definition lt_positions (l : lattice) : list vec := match lt_data l with None => [] | Some d => d_positions d end.
(** [num_sites].  lattpy/lattice.py:140-142. *)
Definition lt_num_sites (l : lattice) : nat := length (lt_indices l).

(** Lexicographic order of two rows, for [np.unique] with [axis=0].  lattpy/lattice.py:147, 167. *)
Fixpoint row_leb (u v : list Z) : bool :=
  match u, v with
  | [], _ => true
  | _ :: _, [] => false
  | x :: xs, y :: ys => if (x <? y)%Z then true else if (x =? y)%Z then row_leb xs ys else false
  end.

(** [num_cells].  lattpy/lattice.py:147.  Of a built lattice (the array of indices of an unbuilt lattice has one axis,
    the index in line 147 raises IndexError). *)
Definition num_cells (l : lattice) : nat := length (unique row_leb (map site_cell (lt_indices l))).

(** [volume].  lattpy/lattice.py:167.  [None]: a dimension above three (see [cell_volume]).  Of a built lattice, as
    [num_cells]. *)
Definition volume (l : lattice) : option Q :=
  option_map (fun v => (v * inject_Z (Z.of_nat (num_cells l)))%Q) (cell_volume (b_vectors (lt_basis l))).

(** [alpha], [atom].  lattpy/lattice.py:182, 196.  [None]: IndexError. *)
Definition lt_alpha (l : lattice) (i : nat) : option Z := option_map (fun ind => last ind 0%Z) (nth_error (lt_indices l) i).
(** [atom]: the atom with the index of [alpha].  lattpy/lattice.py:196. *)
Definition lt_atom (l : lattice) (i : nat) : option atom :=
  match lt_alpha l i with
  | None => None
  | Some a => match py_index (length (st_atoms (lt_structure l))) a with
              | None => None
              | Some k => nth_error (st_atoms (lt_structure l)) k
              end
  end.

(** [limits]: pairs (minimum, maximum) per axis.  lattpy/lattice.py:222-223.  [None]: no sites. *)
Definition limits (l : lattice) : option (list (Q * Q)) :=
  match lt_positions l with [] => None | ps => Some (point_limits ps) end.

(** [relative_position] for fractions of the dimension of the lattice.  lattpy/lattice.py:239-240. *)
Definition relative_position (l : lattice) (fractions : vec) : option vec :=
  option_map (fun lim => vadd (map fst lim) (map2 Qmult fractions (vsub (map snd lim) (map fst lim)))) (limits l).

(** [center].  lattpy/lattice.py:250-251. *)
Definition center (l : lattice) : option vec := relative_position l (repeat (1#2)%Q (b_dim (lt_basis l))).

(** [self.atom(i).get("mass", 1.0)].  lattpy/lattice.py:266.  [None]: IndexError or not a number. *)
Definition site_mass (l : lattice) (i : nat) : option Q :=
  match lt_atom l i with
  | None => None
  | Some a => match atom_get a "mass" (VNum 1) with VNum q => Some q | _ => None end
  end.

(** All or nothing, for list comprehensions that may raise.  lattpy/lattice.py:266. *)
Fixpoint all_some {A} (l : list (option A)) : option (list A) :=
  match l with
  | [] => Some []
  | Some x :: r => option_map (cons x) (all_some r)
  | None :: _ => None
  end.

(** [center_of_gravity].  lattpy/lattice.py:266-269.  A total mass of zero divides by zero (NaN).
    Of a built lattice (an unbuilt lattice returns an array without elements). *)
Definition center_of_gravity (l : lattice) : option vec :=
  match all_some (map (site_mass l) (seq 0 (lt_num_sites l))) with
  | None => None
  | Some masses =>
    let total := fold_right Qplus 0%Q masses in
    let sums := fold_right vadd (vzero (b_dim (lt_basis l))) (map2 vscale masses (lt_positions l)) in
    Some (map (fun x => (x / total)%Q) sums)
  end.

(** [superindex_from_pos].  lattpy/lattice.py:286-290.  [pos] has the dimension of the lattice.  Of a built lattice (the
    positions of an unbuilt lattice have one axis and are broadcast against [pos]). *)
Definition superindex_from_pos (l : lattice) (pos : vec) (atol : Q) : option nat :=
  let mask := map (fun p => forallb (fun x => negb (Qle_bool atol (Qabs x))) (vsub p pos)) (lt_positions l) in
  hd_error (where_ mask).

(** [superindex_from_index].  lattpy/lattice.py:305-309.  Indices are integers: [|diff| < 1e-4] is [diff = 0].
    Of a built lattice, as [superindex_from_pos]. *)
Definition superindex_from_index (l : lattice) (ind : list Z) : option nat :=
  let mask := map (fun i => forallb (fun p => (fst p =? snd p)%Z) (combine i ind)) (lt_indices l) in
  hd_error (where_ mask).

(** [neighbors].  lattpy/lattice.py:330.  [None]: IndexError. *)
Definition neighbors (l : lattice) (site : nat) (distidx : option nat) (uniq : bool) : option (list nat) :=
  match lt_data l with None => None | Some d => DataModel.get_neighbors d site distidx None uniq end.

(** [num_distances] of the lattice: the largest connection number.  lattpy/structure.py:156-158. *)
Definition lt_num_distances (l : lattice) : nat :=
  match st_connections (lt_structure l) with None => 0 | Some c => max_connections c end.

(** The loop of [check_neighbors].  lattpy/lattice.py:386-389.  The outer [None] is an IndexError. *)
Fixpoint check_loop (l : lattice) (idx0 idx1 : nat) (distidxs : list nat) : option (option nat) :=
  match distidxs with
  | [] => Some None
  | k :: ks =>
    match neighbors l idx0 (Some k) false with
    | None => None
    | Some ns => if isin ns idx1 then Some (Some k) else check_loop l idx0 idx1 ks
    end
  end.

(** [check_neighbors].  lattpy/lattice.py:386-389. *)
Definition check_neighbors (l : lattice) (idx0 idx1 : nat) : option (option nat) :=
  check_loop l idx0 idx1 (seq 0 (lt_num_distances l)).

(** [_update_shape].  lattpy/lattice.py:391-394.  Without sites [np.min] raises; the method is called after sites were
    stored only. *)
Definition update_shape (l : lattice) : lattice :=
  match limits l with
  | None => l
  | Some lim => mkLattice (lt_structure l) (lt_data l) (Some (vsub (map snd lim) (map fst lim))) (Some (map fst lim))
                  (lt_axes l) (lt_primitive l)
  end.

(** The assignment of [self.data] (the methods of the data change it in place).  lattpy/lattice.py:448, 473, 695-700,
    827-835. *)
Definition set_data (l : lattice) (d : option data) : lattice :=
  mkLattice (lt_structure l) d (lt_shape l) (lt_pos l) (lt_axes l) (lt_primitive l).

(** ** Periodic translations *)

(** Column-wise limits of integer rows.  lattpy/lattice.py:508. *)
Definition index_limits (indices : list (list Z)) : list (Z * Z) :=
  match indices with
  | [] => []
  | i0 :: rest =>
    map (fun j =>
      let col := map (fun i => nth j i 0%Z) rest in
      (fold_left Z.min col (nth j i0 0%Z), fold_left Z.max col (nth j i0 0%Z))) (seq 0 (length i0))
  end.

(** [LatticeData.get_index_limits], as pairs (minimum, maximum).  lattpy/data.py:366-374.  [None]: ValueError of the
    minimum of nothing, or IndexError. *)
Definition get_index_limits (d : data) : option (list (Z * Z)) :=
  match d_indices d with [] => None | ind => Some (index_limits ind) end.

(** [LatticeData.get_cell_limits].  lattpy/data.py:376-385. *)
Definition get_cell_limits (d : data) : option (list (Z * Z)) :=
  match d_indices d with [] => None | ind => Some (index_limits (map site_cell ind)) end.

(** [LatticeData.get_translation_limits].  lattpy/data.py:387-395. *)
Definition get_translation_limits (d : data) : option (list (Z * Z)) :=
  option_map (@removelast (Z * Z)) (get_index_limits d).

(** [LatticeData.__bool__].  lattpy/data.py:722-723. *)
Definition data_bool (d : data) : bool := negb (length (d_indices d) =? 0).

(** [_build_periodic_translation_vector].  lattpy/lattice.py:487-514.  [np.unique] in line 495 does not change the
    limits.  [None]: an axis out of range or no sites. *)
Definition translation_vector (b : basis) (axes : list nat) (primitive : bool) (indices : list (list Z))
  : option (list Z) :=
  let dim := b_dim b in
  if negb (forallb (fun a => a <? dim) axes) then None
  else
    match indices with
    | [] => None
    | _ =>
      if primitive then
        let lim := index_limits indices in
        Some (fold_left (fun v ax => set_nth ax (snd (nth ax lim (0, 0)) - fst (nth ax lim (0, 0)) + 1)%Z v) axes
                (repeat 0%Z dim))
      else
        let lim := point_limits (map (fun i => transform b (of_Z (site_cell i))) indices) in
        let size := cell_size (b_vectors b) in
        let ppoint := fold_left (fun v ax =>
          set_nth ax (snd (nth ax lim (0, 0)) - fst (nth ax lim (0, 0)) + nth ax size 0 * (2#1) / (3#1))%Q v) axes
          (vzero dim) in
        Some (map Qrint (itransform b ppoint))
    end.

(** [itertools.combinations_with_replacement(l, r=2)].  lattpy/lattice.py:540. *)
Fixpoint pairs_with_replacement {A} (l : list A) : list (A * A) :=
  match l with
  | [] => []
  | x :: xs => map (pair x) (x :: xs) ++ pairs_with_replacement xs
  end.

(** [nvec2[1:] *= -1].  lattpy/lattice.py:545-546. *)
Definition flip_tail (v : list Z) : list Z := match v with [] => [] | x :: xs => x :: map Z.opp xs end.

(** [periodic_translation_vectors]: axes with their vector.  lattpy/lattice.py:516-548. *)
Definition periodic_translation_vectors (b : basis) (primitive : bool) (indices : list (list Z)) (axes : list nat)
  : option (list (list nat * list Z)) :=
  match axes with
  | [a] => option_map (fun v => [([a], v)]) (translation_vector b [a] primitive indices)
  | _ =>
    option_map (@concat _)
      (all_some (map (fun p : nat * nat =>
        let ax := [fst p; snd p] in
        option_map (fun v =>
          if forallb (Nat.eqb (nth 0 axes 0)) ax then [(ax, v)] else [(ax, v); (ax, flip_tail v)])
          (translation_vector b ax primitive indices)) (pairs_with_replacement axes)))
  end.

(** [-nvec].  lattpy/lattice.py:617, 791. *)
Definition neg (v : list Z) : list Z := map Z.opp v.

(** ** Periodic neighbours *)

(** The dictionaries [pidx], [pdists], [pnvecs] and [paxs] taken together: per site the list of entries, in insertion
    order.  lattpy/lattice.py:587, 607-617. *)
Definition pdict := list (nat * list pneighbor).

(** [d.setdefault(site, list()).extend(entries)].  lattpy/lattice.py:608-617. *)
Fixpoint pd_extend (d : pdict) (k : nat) (entries : list pneighbor) : pdict :=
  match d with
  | [] => [(k, entries)]
  | (k', v) :: r => if k =? k' then (k', v ++ entries) :: r else (k', v) :: pd_extend r k entries
  end.

(** The loop over the neighbours of one translated site.  lattpy/lattice.py:602-617. *)
Definition add_translated (n : nat) (ax : list nat) (nvec : list Z) (d : pdict) (site_row : nat * list (nat * dist))
  : pdict :=
  let (site, row) := site_row in
  let found := filter (fun e => fst e <? n) row in
  let d := pd_extend d site (map (fun e => mkPN (fst e) (snd e) nvec ax) found) in
  fold_left (fun d e => pd_extend d (fst e) [mkPN site (snd e) (neg nvec) ax]) found d.

(** The query for one translation.  lattpy/lattice.py:579-581, 590-596.  The index array [ind_t] of the translated
    sites has the same atoms.  [None]: [query_radius]. *)
Definition translated_rows (query : kd_tree) (argsort : list dist -> list nat) (b : basis) (an : analysis)
  (indices : list (list Z)) (positions : list vec) (nvec : list Z) : option (list (list (nat * dist))) :=
  match query_radius an with
  | None => None
  | Some r =>
    let k := query_count an in
    let r2 := Some (r * r)%Q in
    let delta := translate b nvec (vzero (b_dim b)) in
    let pos_t := map (fun p => vadd p delta) positions in
    let raw := map (fun x => query positions x k r2) pos_t in
    let rows := kd_query (length positions) r2 false true raw in
    let rows := map (map (fun e => (fst e, qd_round (snd e)))) rows in
    Some (filter_neighbors argsort (an_distmat an) indices (map (fun i => last i 0%Z) indices) rows)
  end.

(** The dictionaries before the last loop.  lattpy/lattice.py:587-617. *)
Fixpoint collect_translations (query : kd_tree) (argsort : list dist -> list nat) (b : basis) (an : analysis)
  (indices : list (list Z)) (positions : list vec) (items : list (list nat * list Z)) (d : pdict) : option pdict :=
  match items with
  | [] => Some d
  | (ax, nvec) :: rest =>
    match translated_rows query argsort b an indices positions nvec with
    | None => None
    | Some rows =>
      let found := filter (fun sr => existsb (fun e => dfinite (snd e)) (snd sr)) (enumerate rows) in
      collect_translations query argsort b an indices positions rest
        (fold_left (add_translated (length indices) ax nvec) found d)
    end
  end.

(** First position of [x] in a list, [np.unique(..., return_index=True)].  lattpy/lattice.py:632. *)
Fixpoint first_index (x : nat) (l : list nat) : nat :=
  match l with
  | [] => 0
  | y :: ys => if x =? y then 0 else S (first_index x ys)
  end.

(** The last loop for one site.  lattpy/lattice.py:620-642.  [pi.remove(ind)] for every existing neighbour removes all
    of them; [ind] of line 632 are positions in the shortened list [pi], but are used as positions in the lists of
    distances, axes and vectors, which have not been shortened. *)
Definition finish_site (existing : list nat) (entries : list pneighbor) : list pneighbor :=
  let pi := filter (fun j => negb (isin existing j)) (map pn_idx entries) in
  map (fun j => let e := nth (first_index j pi) entries (mkPN 0 Inf [] []) in mkPN j (pn_dist e) (pn_nvec e) (pn_axes e))
    (unique Nat.leb pi).

(** The last loop.  lattpy/lattice.py:620-642.  [None]: IndexError of [neighbors]. *)
Fixpoint finish (d : data) (pd : pdict) : option pdict :=
  match pd with
  | [] => Some []
  | (k, entries) :: rest =>
    match DataModel.get_neighbors d k None None false, finish d rest with
    | Some existing, Some rest' =>
      match finish_site existing entries with
      | [] => Some rest'
      | l => Some ((k, l) :: rest')
      end
    | _, _ => None
    end
  end.

(** [_compute_pneighbors].  lattpy/lattice.py:568-643. *)
Definition compute_pneighbors (query : kd_tree) (argsort : list dist -> list nat) (b : basis) (an : analysis)
  (primitive : bool) (axes : list nat) (d : data) : option pdict :=
  match periodic_translation_vectors b primitive (d_indices d) axes with
  | None => None
  | Some items =>
    match collect_translations query argsort b an (d_indices d) (d_positions d) items [] with
    | None => None
    | Some pd => finish d pd
    end
  end.

(** The argument [axis] of [set_periodic].  lattpy/lattice.py:646, 674-678, 696. *)
Inductive axis_arg := AxNone | AxBool (b : bool) | AxList (axes : list nat).

(** [self.primitive] as a condition.  lattpy/lattice.py:492, 686, 786. *)
Definition is_primitive (l : lattice) : bool := match lt_primitive l with Some true => true | _ => false end.

(** [set_periodic].  lattpy/lattice.py:674-701.  After a failed build the data is empty and [remove_periodic] raises
    IndexError.  If the data rejects the neighbours of a site, those of the sites before have been written. *)
Definition set_periodic (query : kd_tree) (argsort : list dist -> list nat) (l : lattice) (axis : axis_arg)
  : lattice * result unit :=
  let axis := match axis with
              | AxNone | AxBool false => None
              | AxBool true => Some (seq 0 (b_dim (lt_basis l)))
              | AxList a => Some a
              end in
  match lt_shape l with
  | None => (l, Raise NotBuiltError)
  | Some _ =>
    match match lt_data l with None => None | Some d => call_remove_periodic d end with
    | None => (l, Raise IndexError)
    | Some d =>
      let l := set_data l (Some d) in
      match axis with
      | None => (mkLattice (lt_structure l) (lt_data l) (lt_shape l) (lt_pos l) [] (lt_primitive l), Ok tt)
      | Some axes =>
        match st_analysis (lt_structure l) with
        | None => (l, Raise TypeError)
        | Some an =>
          match compute_pneighbors query argsort (lt_basis l) an (is_primitive l) axes d with
          | None => (l, Raise OtherError)
          | Some [] => (l, Ok tt)
          | Some pd =>
            match DataModel.set_periodic d pd with
            | None => (set_data l (Some (written (remove_periodic d) pd)), Raise OtherError)
            | Some d' => (mkLattice (lt_structure l) (Some d') (lt_shape l) (lt_pos l) axes (lt_primitive l), Ok tt)
            end
          end
        end
      end
    end
  end.

(** ** build *)

(** [Shape(shape, pos, basis)].  lattpy/lattice.py:449-451, shape.py:24-26, 85-90.  [basis.T] is the matrix of the
    lattice basis; its inverse (shape.py:140) is the one the basis already has. *)
Definition build_shape (b : basis) (sh : shape_arg) (primitive : bool) (pos : option vec) : shape :=
  match sh with
  | AShape s => s
  | ASize size =>
    let p := match pos with None => vzero (length size) | Some p => p end in
    if primitive then SBoxBasis size p (b_mat b) (b_inv b) else SBox size p
  end.

(** The position has the length of the shape.  shape.py:94: otherwise the sum raises (a position of length one is
    broadcast; not modelled).  shape.py:130: a primitive box must have the dimension of the lattice. *)
Definition shape_ok (b : basis) (sh : shape_arg) (primitive : bool) (pos : option vec) : bool :=
  match sh with
  | AShape _ => true
  | ASize size =>
    match pos with Some p => length p =? length size | None => true end && (negb primitive || (length size =? b_dim b))
  end.

(** [_assert_connections]: [None == 0] is false, so that missing connections pass.  lattpy/structure.py:526-528. *)
Definition no_connections (s : structure) : bool :=
  match st_connections s with None => false | Some c => forallb (forallb (Nat.eqb 0)) c end.

(** [_assert_analyzed].  lattpy/structure.py:530-532. *)
Definition not_analyzed (s : structure) : bool :=
  match st_analysis s with None => true | Some an => length (an_base an) =? 0 end.

(** The part of [build] between [reset] and [set].  lattpy/lattice.py:454-470. *)
Definition build_tables (query : kd_tree) (argsort : list dist -> list nat) (norms : vec) (s : structure)
  (sh : shape_arg) (primitive : bool) (pos : option vec) (check : bool) (min_neighbors : option nat)
  (callback : option (list (list Z) -> list vec -> list bool))
  : result (list (list Z) * list vec * list (list (nat * dist))) :=
  if no_connections s then Raise NoConnectionsError
  else if not_analyzed s then Raise NotAnalyzedError
  else if negb (shape_ok (st_basis s) sh primitive pos) then Raise ValueError
  else
    match build_indices (st_basis s) norms (st_positions s) (AShape (build_shape (st_basis s) sh primitive pos))
            primitive pos check callback, st_analysis s with
    | Raise e, _ => Raise e
    | _, None => Raise NotAnalyzedError
    | Ok (indices, positions), Some an =>
      match compute_neighbors query argsort an indices positions with
      | None => Raise OtherError
      | Some rows =>
        match min_neighbors with
        | None => Ok (indices, positions, rows)
        | Some m => filter_dangling indices positions rows m
        end
      end
    end.

(** [build].  lattpy/lattice.py:448-485. *)
Definition build (query : kd_tree) (argsort : list dist -> list nat) (norms : vec) (l : lattice) (sh : shape_arg)
  (primitive : bool) (pos : option vec) (check : bool) (min_neighbors : option nat) (periodic : option axis_arg)
  (callback : option (list (list Z) -> list vec -> list bool)) : lattice * result unit :=
  let l := set_data l None in
  match build_tables query argsort norms (lt_structure l) sh primitive pos check min_neighbors callback with
  | Raise e => (l, Raise e)
  | Ok (indices, positions, rows) =>
    match data_set indices positions (map (map fst) rows) (map (map snd) rows) with
    | None => (l, Raise ValueError)
    | Some d =>
      let l := mkLattice (lt_structure l) (Some d) (lt_shape l) (lt_pos l) (lt_axes l) (Some primitive) in
      let l := update_shape l in
      match periodic with
      | None | Some AxNone => (l, Ok tt)
      | Some axis => set_periodic query argsort l axis
      end
    end
  end.

(** ** Distances *)

(** [distances(p, positions)], squared.  lattpy/lattice.py:783, 789, 792; spatial.py:85. *)
Definition distances2 (p : vec) (positions : list vec) : list Q := map (dist2 p) positions.

(** [minimum_distances], squared.  lattpy/lattice.py:781-794.  [None]: IndexError. *)
Definition minimum_distances2 (l : lattice) (site : nat) : option (list Q) :=
  let b := lt_basis l in
  match nth_error (lt_positions l) site,
        periodic_translation_vectors b (is_primitive l) (lt_indices l) (lt_axes l) with
  | Some p, Some items =>
    let translated := flat_map (fun it => [translate b (snd it) p; translate b (neg (snd it)) p]) items in
    let rows := map (fun q => distances2 q (lt_positions l)) translated in
    Some (fold_left (map2 Qmin) rows (distances2 p (lt_positions l)))
  | _, _ => None
  end.

(** ** Appending *)

(** The smallest multiple of 1e-6 that is not below [sqrt q].  lattpy/lattice.py:719, data.py:514: the distance of
    [cdist] is not rounded; [np.searchsorted] among multiples of 1e-6 gives the same result for this number. *)
Definition sqrt_up (q : Q) : Z :=
  let s := (q * (1000000000000 # 1))%Q in
  let n := Z.sqrt (Qceiling s) in
  if Qle_bool s (inject_Z (n * n)) then n else (n + 1)%Z.

(** [_compute_connection_neighbors]: pairs with their (unrounded) distance.  lattpy/lattice.py:703-726.
    [None]: [query_radius]. *)
Definition connection_neighbors (ball : list vec -> list vec -> Q -> list (list nat)) (an : analysis)
  (positions1 positions2 : list vec) : option (list (nat * nat * Q)) :=
  match query_radius an with
  | None => None
  | Some r =>
    Some (flat_map (fun ic => map (fun j => (fst ic, j, dist2 (nth (fst ic) positions1 []) (nth j positions2 []))) (snd ic))
            (enumerate (ball positions1 positions2 (r * r)%Q)))
  end.

(** The loop adding the connections.  lattpy/lattice.py:830-832. *)
Fixpoint add_connecting (offset : nat) (d : data) (pairs : list (nat * nat * Q)) : option data :=
  match pairs with
  | [] => Some d
  | (i, j, q) :: rest =>
    match add_neighbor d i (j + offset) (Fin (sqrt_up q)) with
    | None => None
    | Some d1 =>
      match add_neighbor d1 (j + offset) i (Fin (sqrt_up q)) with
      | None => None
      | Some d2 => add_connecting offset d2 rest
      end
    end
  end.

(** [indices2[:, :-1] += nvec].  lattpy/lattice.py:823. *)
Definition shift_index (nvec : list Z) (ind : list Z) : list Z := map2 Z.add (site_cell ind) nvec ++ [last ind 0%Z].

(** The conversions of [LatticeData.append] to the types of the arrays (see [append_arrays]).
    lattpy/lattice.py:827. *)
Record conversions := mkConv { c_w1 : nat -> nat; c_w2 : nat -> nat; c_w3 : nat -> nat }.

(** The arrays that are appended.  lattpy/lattice.py:797-801, 897-900, 988-991. *)
Record section := mkSection {
  sec_indices : list (list Z); sec_positions : list vec; sec_neighbors : list (list nat); sec_dists : list (list dist) }.

(** [_append].  lattpy/lattice.py:808-838.  [None]: an exception. *)
Definition append_section (ball : list vec -> list vec -> Q -> list (list nat)) (argsort : list dist -> list nat)
  (w : conversions) (l : lattice) (sec : section) (ax : nat) (side : Z) (sort_axis : option nat)
  (sort_reverse primitive : bool) : option lattice :=
  match lt_data l, st_analysis (lt_structure l) with
  | Some d, Some an =>
    let b := lt_basis l in
    let base := if (0 <? side)%Z then d_indices d else sec_indices sec in
    match translation_vector b [ax] primitive base with
    | None => None
    | Some nvec =>
      let nvec := if (0 <? side)%Z then nvec else neg nvec in
      let vec := translate b nvec (vzero (b_dim b)) in
      let indices2 := map (shift_index nvec) (sec_indices sec) in
      let positions2 := map (fun p => vadd p vec) (sec_positions sec) in
      match append argsort (c_w1 w) (c_w2 w) (c_w3 w) d indices2 positions2 (sec_neighbors sec) (sec_dists sec),
            connection_neighbors ball an (d_positions d) positions2 with
      | Some d1, Some pairs =>
        match add_connecting (length (d_positions d)) d1 pairs with
        | None => None
        | Some d2 =>
          match match sort_axis with None => Some d2 | Some a => sort d2 (Some a) None sort_reverse end with
          | None => None
          | Some d3 => Some (update_shape (set_data l (Some d3)))
          end
        end
      | _, _ => None
      end
    end
  | _, _ => None
  end.

(** The arrays of a lattice.  lattpy/lattice.py:897-900, 988-991. *)
Definition data_section (d : data) : section := mkSection (d_indices d) (d_positions d) (d_neighbors d) (distance_table d).

(** [append].  lattpy/lattice.py:897-903. *)
Definition append_lattice (ball : list vec -> list vec -> Q -> list (list nat)) (argsort : list dist -> list nat)
  (w : conversions) (l other : lattice) (ax : nat) (side : Z) (sort_axis : option nat) (sort_reverse : bool)
  : option lattice :=
  match lt_data other with
  | None => None
  | Some e => append_section ball argsort w l (data_section e) ax side sort_axis sort_reverse (is_primitive l)
  end.

(** The loop of [repeat].  lattpy/lattice.py:993-996. *)
Fixpoint repeat_loop (ball : list vec -> list vec -> Q -> list (list nat)) (argsort : list dist -> list nat)
  (ws : list conversions) (l : lattice) (sec later : section) (ax : nat) (side : Z) (sort_axis : option nat)
  (sort_reverse : bool) : option lattice :=
  match ws with
  | [] => Some l
  | w :: ws' =>
    match append_section ball argsort w l sec ax side sort_axis sort_reverse (is_primitive l) with
    | None => None
    | Some l' => repeat_loop ball argsort ws' l' later later ax side sort_axis sort_reverse
    end
  end.

(** [repeat]; the number of repetitions is the number of conversions [ws].  lattpy/lattice.py:988-996.  The first
    [LatticeData.append] removes the periodic neighbours in place from the array [neighbors] that is appended again by
    the later rounds (the distances are a copy). *)
Definition repeat_lattice (ball : list vec -> list vec -> Q -> list (list nat)) (argsort : list dist -> list nat)
  (ws : list conversions) (l : lattice) (ax : nat) (side : Z) (sort_axis : option nat) (sort_reverse : bool)
  : option lattice :=
  match lt_data l with
  | None => None
  | Some d =>
    let sec := data_section d in
    let later := mkSection (d_indices d) (d_positions d) (d_neighbors (remove_periodic d)) (distance_table d) in
    repeat_loop ball argsort ws l sec later ax side sort_axis sort_reverse
  end.

(** [extend].  lattpy/lattice.py:942-950.  [shape] is a size here, not a [Shape].  [None]: an exception. *)
Definition extend (query : kd_tree) (ball : list vec -> list vec -> Q -> list (list nat))
  (argsort : list dist -> list nat) (norms : vec) (w : conversions) (l : lattice) (size : Q) (ax : nat) (side : Z)
  (sort_axis : option nat) (sort_reverse : bool) : option lattice :=
  match lt_shape l, st_analysis (lt_structure l) with
  | Some shape, Some an =>
    if negb (ax <? length shape) then None
    else
      let s := lt_structure l in
      match build_indices (st_basis s) norms (st_positions s) (ASize (set_nth ax size shape)) (is_primitive l) None true
              None with
      | Raise _ => None
      | Ok (ind, pos) =>
        match compute_neighbors query argsort an ind pos with
        | None => None
        | Some rows =>
          append_section ball argsort w l (mkSection ind pos (map (map fst) rows) (map (map snd) rows)) ax side
            sort_axis sort_reverse (is_primitive l)
        end
      end
  | _, _ => None
  end.

(** ** Pairs *)

(** [neighbor_pairs].  lattpy/lattice.py:1043-1060. *)
Definition neighbor_pairs (d : data) (uniq : bool) : list (nat * nat) * list nat :=
  let (pairs, distindices) := pair_table d in
  if uniq then
    let mask := map (fun p => fst p <? snd p) pairs in
    (select mask pairs, select mask distindices)
  else (pairs, distindices).

(** A sparse matrix: shape and entries.  lattpy/lattice.py:1089. *)
Record sparse := mkSparse { sp_shape : nat * nat; sp_entry : nat -> nat -> Z }.

(** [csr_matrix((data, (rows, cols)), dtype=np.int8)]: the shape is one more than the largest indices, entries given
    several times are added.  lattpy/lattice.py:1086-1089.  [None]: the ValueError for no entries. *)
Definition adjacency_matrix (d : data) : option sparse :=
  let (pairs, distindices) := neighbor_pairs d false in
  match nat_max (map fst pairs), nat_max (map snd pairs) with
  | Some r, Some c =>
    Some (mkSparse (S r, S c) (fun i j =>
      int8 (fold_right Z.add 0%Z
        (map (fun pk => if (fst (fst pk) =? i) && (snd (fst pk) =? j) then (Z.of_nat (snd pk) + 1)%Z else 0%Z)
          (combine pairs distindices)))))
  | _, _ => None
  end.
