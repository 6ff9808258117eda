(** * Model of lattpy/structure.py

    Exceptions are values: [Raise e].  Methods that mutate the object return the new object, also when they raise.
    [cKDTree.query] is external: functions that use it take it as the argument [query] (what is assumed of it is
    [nearest_row] in SpecSpatial.v).  Negative numbers of distances and negative distance indices are not modelled. *)
From Coq Require Import String List ZArith QArith Qround Qminmax Bool Arith.
From Verif Require Import Np LinAlg UtilsModel AtomModel BasisModel SpatialModel ShapeModel.
Import ListNotations.
Open Scope nat_scope.
Open Scope list_scope.

(** The exceptions that are raised.  lattpy/utils.py:60-92, structure.py:243, 248, 359, 524, 528, 532;
    lattice.py:690.  [OtherError] is an exception of numpy or scipy whose class is not modelled. *)
Inductive pyerr :=
| ValueError | SiteOccupiedError | NoAtomsError | NoConnectionsError | NotAnalyzedError
| IndexError | TypeError | AttributeError | NotBuiltError | OtherError.

(** The outcome of a call.  lattpy/structure.py:238-268 (and all other methods). *)
Inductive result (A : Type) := Ok (a : A) | Raise (e : pyerr).
Arguments Ok {A} a.
Arguments Raise {A} e.

(** A site: cell index followed by the index of the atom.  lattpy/structure.py:463-466, 1169-1172. *)
Notation site := (list Z) (only parsing).

(** [idx[:-1]] and [idx[-1]].  lattpy/structure.py:469, 486, 678, 801. *)
Definition site_cell (s : site) : list Z := removelast s.
(** [idx[-1]].  lattpy/structure.py:469, 486, 678, 801. *)
Definition site_atom (s : site) : nat := Z.to_nat (last s 0%Z).

(** [OrderedDict] with distances as keys, in insertion order.  lattpy/structure.py:475-477, 579. *)
Definition distdict := list (dist * list site).

(** [d.keys()].  lattpy/structure.py:493, 512, 584, 608, 749. *)
Definition dd_keys (d : distdict) : list dist := map fst d.

(** [d.setdefault(dist, list()).extend(sites)].  lattpy/structure.py:488 (one site), 588. *)
Fixpoint dd_extend (d : distdict) (k : dist) (sites : list site) : distdict :=
  match d with
  | [] => [(k, sites)]
  | (k', v) :: r => if deqb k k' then (k', v ++ sites) :: r else (k', v) :: dd_extend r k sites
  end.

(** [d[dist]].  lattpy/structure.py:588, 751. *)
Fixpoint dd_get (d : distdict) (k : dist) : list site :=
  match d with
  | [] => []
  | (k', v) :: r => if deqb k k' then v else dd_get r k
  end.

(** Number of sites in a dictionary: [sum(len(x) for x in d.values())].  lattpy/structure.py:513, 602. *)
Definition dd_count (d : distdict) : nat := fold_right (fun kv n => length (snd kv) + n) 0 d.

(** The results of [analyze].  lattpy/structure.py:516-518, 613-616.  [_raw_distance_matrix] and
    [_raw_num_neighbors] are functions of [_raw_base_neighbors], see [raw_distance_matrix] and
    [raw_num_neighbors]. *)
Record analysis := mkAnalysis {
  an_raw : list (list distdict);
  an_base : list distdict;
  an_distmat : list (list (list dist));
  an_num : list Z;
  an_distances : list (list dist) }.

(** The object.  lattpy/structure.py:103-120.  [st_frozen]: [_positions] has become an array (line 454), which has no
    [append].  [_num_base] is the number of positions: it is only assigned in line 259, after line 258. *)
Record structure := mkStructure {
  st_basis : basis;
  st_atoms : list atom;
  st_positions : list vec;
  st_frozen : bool;
  st_connections : option (list (list nat));
  st_analysis : option analysis }.

(** A new object without atoms.  lattpy/structure.py:103-120. *)
Definition new_structure (b : basis) : structure := mkStructure b [] [] false None None.

(** [num_base].  lattpy/structure.py:141-143, 257-259. *)
Definition num_base (s : structure) : nat := length (st_positions s).

(** ** Neighbours of the unit cell *)

(** [cKDTree(points).query(x, k, distance_upper_bound)]: a row of (index, squared distance).
    lattpy/spatial.py:342-344, structure.py:471, 480. *)
Definition kd_tree := list vec -> vec -> nat -> option Q -> list (nat * option Q).

(** [np.ravel(arrays, order="F")] of arrays of shape (nbase, ncells, cols): the first index runs fastest.
    lattpy/structure.py:465, 1171. *)
Definition ravel_f (cols ncells : nat) (arrays : list (list (list Z))) : list Z :=
  flat_map (fun j => flat_map (fun c => map (fun arr => nth j (nth c arr []) 0%Z) arrays) (seq 0 ncells))
    (seq 0 cols).

(** [x.reshape(cols, int(len(x) / cols)).T].  lattpy/structure.py:466, 1172. *)
Definition reshape_t (cols : nat) (x : list Z) : list (list Z) :=
  let rows := length x / cols in
  map (fun r => map (fun j => nth (j * rows + r) x 0%Z) (seq 0 cols)) (seq 0 rows).

(** The index array of all sites in the cells [nvecs].  lattpy/structure.py:461-466, 1168-1172. *)
Definition site_indices (dim nbase : nat) (nvecs : list (list Z)) : list site :=
  let arrays := map (fun i => map (fun n => n ++ [Z.of_nat i]) nvecs) (seq 0 nbase) in
  reshape_t (dim + 1) (ravel_f (dim + 1) (length nvecs) arrays).

(** [get_positions] for valid indices.  lattpy/structure.py:677-679, 469-470. *)
Definition get_positions (b : basis) (atom_positions : list vec) (indices : list site) : list vec :=
  map (fun i => translate b (site_cell i) (nth (site_atom i) atom_positions [])) indices.

(** [if dist:].  lattpy/structure.py:487. *)
Definition dist_truthy (d : dist) : bool := negb (deqb d (Fin 0)).

(** One iteration of the loop over the query result, for the row of dictionaries of one atom.
    lattpy/structure.py:485-488. *)
Definition collect (dicts : list distdict) (e : dist * site) : list distdict :=
  let a2 := site_atom (snd e) in
  if dist_truthy (fst e) then set_nth a2 (dd_extend (nth a2 dicts []) (fst e) [snd e]) dicts else dicts.

(** Keeping the first [max_distidx] distances.  lattpy/structure.py:492-497. *)
Definition drop_extra (max_distidx : nat) (d : distdict) : distdict :=
  let keep := firstn max_distidx (sort_stable dleb (dd_keys d)) in
  filter (fun kv => existsb (deqb (fst kv)) keep) d.

(** [_compute_base_neighbors].  lattpy/structure.py:450-499.  [None] is the exception of [get_neighbor_cells]. *)
Definition compute_base_neighbors (query : kd_tree) (b : basis) (atom_positions : list vec) (max_distidx : nat)
  : option (list (list distdict)) :=
  match get_neighbor_cells b (2 * max_distidx) true Qle_bool with
  | None => None
  | Some nvecs =>
    let n := length atom_positions in
    let indices := site_indices (b_dim b) n nvecs in
    let points := get_positions b atom_positions indices in
    Some (map (fun pos =>
      let rows := kd_query (length points) None true false [query points pos (length points) None] in
      let row := nth 0 rows [] in
      let found := map (fun e => (qd_round (snd e), nth (fst e) indices [])) row in
      map (drop_extra max_distidx) (fold_left collect found (repeat [] n))) atom_positions)
  end.

(** [_raw_distance_matrix] and [_raw_num_neighbors].  lattpy/structure.py:508-513. *)
Definition raw_distance_matrix (raw : list (list distdict)) : list (list (list dist)) := map (map dd_keys) raw.
(** [_raw_num_neighbors].  lattpy/structure.py:508-513. *)
Definition raw_num_neighbors (raw : list (list distdict)) : list (list nat) := map (map dd_count) raw.

(** [np.max(self._connections)].  lattpy/structure.py:158, 571. *)
Definition max_connections (conns : list (list nat)) : nat := fold_right Nat.max 0 (concat conns).

(** Entry of a table.  lattpy/structure.py:583, 585. *)
Definition entry2 {A} (d : A) (t : list (list A)) (i j : nat) : A := nth j (nth i t []) d.

(** The first [max_dist] distances between two atoms.  lattpy/structure.py:583-586. *)
Definition pair_dists (raw : list (list distdict)) (conns : list (list nat)) (a1 a2 : nat) : list dist :=
  firstn (entry2 0 conns a1 a2) (dd_keys (entry2 [] raw a1 a2)).

(** [base_neighbors[a1]].  lattpy/structure.py:582-588: the pairs are visited row by row, so each row is a loop over
    [a2]. *)
Definition base_row (raw : list (list distdict)) (conns : list (list nat)) (n a1 : nat) : distdict :=
  fold_left (fun acc a2 =>
    fold_left (fun acc d => dd_extend acc d (dd_get (entry2 [] raw a1 a2) d)) (pair_dists raw conns a1 a2) acc)
    (seq 0 n) [].

(** [unique_distances], a set.  lattpy/structure.py:581, 587. *)
Definition unique_distances (raw : list (list distdict)) (conns : list (list nat)) (n : nat) : list dist :=
  unique dleb (flat_map (fun a1 => flat_map (pair_dists raw conns a1) (seq 0 n)) (seq 0 n)).

(** The results computed by [analyze] from the raw neighbours.  lattpy/structure.py:577-616.
    [num_neighbors] has the dtype int8 and assigning a larger number wraps (numpy 1; numpy 2 raises OverflowError). *)
Definition analyze_raw (raw : list (list distdict)) (conns : list (list nat)) (n : nat) : analysis :=
  let base := map (base_row raw conns n) (seq 0 n) in
  let max_num_distances := length (unique_distances raw conns n) in
  mkAnalysis raw base
    (map (fun a1 => map (fun a2 => sort_stable dleb (pair_dists raw conns a1 a2)) (seq 0 n)) (seq 0 n))
    (map (fun d => wrap_signed 8 (Z.of_nat (dd_count d))) base)
    (map (fun d => assign_slice 0 (sort_stable dleb (dd_keys d)) (repeat (Fin 0) max_num_distances)) base).

(** [analyze].  lattpy/structure.py:566-616, 522-528, 450-454. *)
Definition analyze (query : kd_tree) (s : structure) : structure * result unit :=
  match st_atoms s with
  | [] => (s, Raise NoAtomsError)
  | _ =>
    match st_connections s with
    | None => (s, Raise TypeError)                     (* int(np.max(None)) *)
    | Some conns =>
      if forallb (forallb (Nat.eqb 0)) conns then (s, Raise NoConnectionsError)
      else
        let s := mkStructure (st_basis s) (st_atoms s) (st_positions s) true (st_connections s) (st_analysis s) in
        match compute_base_neighbors query (st_basis s) (st_positions s) (max_connections conns) with
        | None => (s, Raise IndexError)
        | Some raw =>
          (mkStructure (st_basis s) (st_atoms s) (st_positions s) true (st_connections s)
             (Some (analyze_raw raw conns (num_base s))), Ok tt)
        end
    end
  end.

(** ** Atoms and connections *)

(** [add_connections].  lattpy/structure.py:446-448.  Without atoms there is no matrix (AttributeError). *)
Definition add_connections (query : kd_tree) (s : structure) (num : nat) (run_analyze : bool)
  : structure * result unit :=
  match st_connections s with
  | None => (s, Raise AttributeError)
  | Some conns =>
    let s := mkStructure (st_basis s) (st_atoms s) (st_positions s) (st_frozen s)
               (Some (map (map (fun _ => num)) conns)) (st_analysis s) in
    if run_analyze then analyze query s else (s, Ok tt)
  end.

(** [add_atom].  lattpy/structure.py:238-268.  [at_] is the atom of line 251 (its construction is [atom_new]).
    With [primitive] a position of the wrong length already makes [translate] raise ValueError. *)
Definition add_atom (query : kd_tree) (s : structure) (pos : option vec) (at_ : atom) (primitive : bool)
  (neighbors : nat) : structure * result unit :=
  let dim := b_dim (st_basis s) in
  let pos := match pos with None => vzero dim | Some p => p end in
  if negb (length pos =? dim) then (s, Raise ValueError)
  else
    let pos := if primitive then vadd (vzero dim) (matvec (b_mat (st_basis s)) pos) else pos in
    if existsb (veqb pos) (st_positions s) then (s, Raise SiteOccupiedError)
    else
      let atoms := st_atoms s ++ [at_] in
      if st_frozen s then
        (mkStructure (st_basis s) atoms (st_positions s) true (st_connections s) (st_analysis s),
         Raise AttributeError)                         (* ndarray has no append *)
      else
        let positions := st_positions s ++ [pos] in
        let n := length atoms in
        let s := mkStructure (st_basis s) atoms positions false (Some (repeat (repeat 0 n) n)) (st_analysis s) in
        if neighbors =? 0 then (s, Ok tt) else add_connections query s neighbors true.

(** A reference to an atom.  lattpy/structure.py:270, 314. *)
Inductive aref := RIndex (i : Z) | RName (name : string) | RAtom (a : atom).

(** Result of [get_alpha].  lattpy/structure.py:308-312. *)
Inductive alphas := One (i : Z) | Many (l : list Z).

(** [list.index(atom)].  lattpy/structure.py:309. *)
Fixpoint list_index (i : Z) (atoms : list atom) (a : atom) : option Z :=
  match atoms with
  | [] => None
  | x :: xs => if atom_eq x a then Some i else list_index (i + 1) xs a
  end.

(** [name == at.name]: the attribute, which a parameter called "name" would hide.  lattpy/structure.py:311, 357. *)
Definition has_name (name : string) (a : atom) : bool :=
  match atom_getattr a "name" with Some v => pyval_eqb (VStr name) v | None => false end.

(** [get_alpha].  lattpy/structure.py:308-312. *)
Definition get_alpha (s : structure) (r : aref) : result alphas :=
  match r with
  | RAtom a => match list_index 0 (st_atoms s) a with Some i => Ok (One i) | None => Raise ValueError end
  | RName name =>
    Ok (Many (map (fun p => Z.of_nat (fst p))
                (filter (fun p => has_name name (snd p)) (enumerate (st_atoms s)))))
  | RIndex i => Ok (One i)
  end.

(** Index of a Python sequence of length [n]; negative indices count from the end.
    lattpy/structure.py:354, 412-413. *)
Definition py_index (n : nat) (i : Z) : option nat :=
  if (0 <=? i)%Z && (i <? Z.of_nat n)%Z then Some (Z.to_nat i)
  else if (- Z.of_nat n <=? i)%Z && (i <? 0)%Z then Some (Z.to_nat (i + Z.of_nat n))
  else None.

(** [get_atom].  lattpy/structure.py:351-359. *)
Definition get_atom (s : structure) (r : aref) : result atom :=
  match r with
  | RAtom a => Ok a
  | RIndex i =>
    match py_index (length (st_atoms s)) i with
    | None => Raise IndexError
    | Some k => match nth_error (st_atoms s) k with Some a => Ok a | None => Raise IndexError end
    end
  | RName name =>
    match filter (has_name name) (st_atoms s) with
    | a :: _ => Ok a
    | [] => Raise ValueError
    end
  end.

(** [np.atleast_1d].  lattpy/structure.py:409-410. *)
Definition alpha_list (a : alphas) : list Z := match a with One i => [i] | Many l => l end.

(** [m[i, j] = v].  lattpy/structure.py:412-413. *)
Definition set_entry (m : list (list nat)) (i j : Z) (v : nat) : option (list (list nat)) :=
  match py_index (length m) i, py_index (length m) j with
  | Some a, Some b => Some (set_nth a (set_nth b v (nth a m [])) m)
  | _, _ => None
  end.

(** The loop over the pairs.  lattpy/structure.py:411-413.  The matrix is square. *)
Fixpoint set_entries (m : list (list nat)) (pairs : list (Z * Z)) (v : nat) : list (list nat) * bool :=
  match pairs with
  | [] => (m, true)
  | (i, j) :: rest =>
    match set_entry m i j v with
    | None => (m, false)
    | Some m' =>
      match set_entry m' j i v with
      | None => (m', false)
      | Some m'' => set_entries m'' rest v
      end
    end
  end.

(** [add_connection].  lattpy/structure.py:409-415. *)
Definition add_connection (query : kd_tree) (s : structure) (atom1 atom2 : aref) (num : nat) (run_analyze : bool)
  : structure * result unit :=
  match get_alpha s atom1 with
  | Raise e => (s, Raise e)
  | Ok a1 =>
    match get_alpha s atom2 with
    | Raise e => (s, Raise e)
    | Ok a2 =>
      let pairs := list_prod (alpha_list a1) (alpha_list a2) in
      match st_connections s, pairs with
      | None, _ :: _ => (s, Raise TypeError)           (* None[i, j] = ... *)
      | None, [] => if run_analyze then analyze query s else (s, Ok tt)
      | Some conns, _ =>
        let (conns', ok) := set_entries conns pairs num in
        let s := mkStructure (st_basis s) (st_atoms s) (st_positions s) (st_frozen s)
                   (Some conns') (st_analysis s) in
        if negb ok then (s, Raise IndexError)
        else if run_analyze then analyze query s else (s, Ok tt)
      end
    end
  end.

(** ** Queries on the analysed lattice *)

(** [get_position].  lattpy/structure.py:647-651. *)
Definition get_position (s : structure) (nvec : option (list Z)) (alpha : nat) : result vec :=
  match nth_error (st_positions s) alpha with
  | None => Raise IndexError
  | Some r =>
    match nvec with
    | None => Ok r
    | Some n => Ok (vadd r (matvec (b_mat (st_basis s)) (of_Z n)))
    end
  end.

(** [estimate_index].  lattpy/structure.py:702-704. *)
Definition estimate_index (s : structure) (pos : vec) : list Z := map Qrint (matvec (b_inv (st_basis s)) pos).

(** [get_neighbors] with a cell index ([nvec=None] is the zero vector).  lattpy/structure.py:741-756, 530-532. *)
Definition get_neighbors (s : structure) (nvec : list Z) (alpha distidx : nat) : result (list site) :=
  match st_analysis s with
  | None => Raise NotAnalyzedError
  | Some an =>
    match nth_error (an_base an) alpha with
    | None => Raise IndexError
    | Some d =>
      let keys := sort_stable dleb (dd_keys d) in
      match nth_error keys distidx with
      | None => Raise IndexError
      | Some k =>
        Ok (map (fun i => map2 Z.add (site_cell i) nvec ++ [last i 0%Z]) (dd_get d k))
      end
    end
  end.

(** [get_neighbor_positions].  lattpy/structure.py:793-806. *)
Definition get_neighbor_positions (s : structure) (nvec : list Z) (alpha distidx : nat) : result (list vec) :=
  match get_neighbors s nvec alpha distidx with
  | Raise e => Raise e
  | Ok indices => Ok (get_positions (st_basis s) (st_positions s) indices)
  end.

(** [get_neighbor_vectors].  lattpy/structure.py:843-855. *)
Definition get_neighbor_vectors (s : structure) (alpha distidx : nat) (include_zero : bool) : result (list vec) :=
  match st_analysis s with
  | None => Raise NotAnalyzedError
  | Some _ =>
    match nth_error (st_positions s) alpha with
    | None => Raise IndexError
    | Some pos0 =>
      let dim := b_dim (st_basis s) in
      match get_neighbor_positions s (repeat 0%Z dim) alpha distidx with
      | Raise e => Raise e
      | Ok pos1 =>
        let pos1 := if include_zero then vzero dim :: pos1 else pos1 in
        Ok (map (fun p => vsub p pos0) pos1)
      end
    end
  end.

(** ** Building sites *)

(** The argument [shape]: a size or a shape object.  lattpy/structure.py:922, 956, 1035. *)
Inductive shape_arg := ASize (size : vec) | AShape (sh : shape).

(** [np.max(self.vectors, axis=0)].  lattpy/structure.py:966, 1047. *)
Definition max_vectors (b : basis) : vec :=
  match b_vectors b with
  | [] => []
  | v0 :: rest => map (fun j => qmax_list (nth j v0 0%Q) (map (fun v => nth j v 0%Q) rest)) (seq 0 (length v0))
  end.

(** The extra length [np.max(self.vectors, axis=0) - 0.1 * self.norms].  lattpy/structure.py:966.
    [norms] are the lengths of the lattice vectors as floating point numbers (basis.py:179-181). *)
Definition relative_extra (b : basis) (norms : vec) : vec := vsub (max_vectors b) (vscale (1#10) norms).

(** The test of one point against a box.  lattpy/structure.py:968-974. *)
Definition in_box (dim : nat) (size pos : vec) (tol : Q) (p : vec) : bool :=
  let pos := map (fun x => (x - tol)%Q) pos in
  let end_ := map (fun x => (x + tol)%Q) (vadd pos size) in
  forallb (fun i => Qle_bool (nth i pos 0%Q) (nth i p 0%Q) && Qle_bool (nth i p 0%Q) (nth i end_ 0%Q)) (seq 0 dim).

(** [check_points].  lattpy/structure.py:956-975.  Simplified: [size] is an array of floats (for integers [+=] in
    line 966 raises) and [pos] has the dimension of the lattice (otherwise the sum in line 970 raises). *)
Definition check_points (b : basis) (norms : vec) (points : list vec) (sh : shape_arg) (relative : bool)
  (pos : option vec) (tol : Q) : result (list bool) :=
  match sh with
  | AShape s => Ok (map (fun p => shape_contains s p tol) points)
  | ASize size =>
    let dim := b_dim b in
    if negb (length size =? dim) then Raise ValueError
    else
      let size := if relative then vadd size (relative_extra b norms) else size in
      let pos := match pos with None => vzero dim | Some p => p end in
      if negb (length pos =? dim) then Raise ValueError
      else Ok (map (in_box dim size pos tol) points)
  end.

(** [itertools.combinations(l, r)].  lattpy/structure.py:1057. *)
Fixpoint combinations {A} (l : list A) (r : nat) : list (list A) :=
  match r, l with
  | 0, _ => [[]]
  | S _, [] => []
  | S r', x :: xs => map (cons x) (combinations xs r') ++ combinations xs r
  end.

(** [_pos = end.copy(); _pos[np.array(idx)] = 0].  lattpy/structure.py:1058-1059. *)
Definition zero_at (idx : list nat) (v : vec) : vec :=
  fold_left (fun v i => set_nth i 0%Q v) idx v.

(** [astype(np.int64)] of a float: truncation towards zero.  lattpy/structure.py:1066. *)
Definition Qtrunc (q : Q) : Z := if Qle_bool 0 q then Qfloor q else Qceiling q.

(** The corners that are probed.  lattpy/structure.py:1056-1059. *)
Definition probes (dim : nat) (end_ : vec) : list vec :=
  flat_map (fun i => map (fun idx => zero_at idx end_) (combinations (seq 0 dim) i)) (seq 1 (dim - 1)).

(** [max_nvecs] before padding.  lattpy/structure.py:1053-1062. *)
Definition nvec_range (b : basis) (pos end_ : vec) : list Z * list Z :=
  fold_left (fun acc p =>
    let index := fst (itranslate b p) in
    (map2 Z.min index (fst acc), map2 Z.max index (snd acc)))
    (probes (b_dim b) end_) (fst (itranslate b pos), fst (itranslate b end_)).

(** The index limits.  lattpy/structure.py:1064-1066. *)
Definition nvec_limits (b : basis) (pos size : vec) (oversample : Q) : list (Z * Z) :=
  let (lo, hi) := nvec_range b pos (vadd pos size) in
  let padding := map (fun x => (oversample * x + 1)%Q) size in
  combine (map2 (fun l p => Qtrunc (inject_Z l + - p)%Q) lo padding)
          (map2 (fun h p => Qtrunc (inject_Z h + p)%Q) hi padding).

(** [build_translation_vectors] with the default dtype.  lattpy/structure.py:1034-1078.
    The tolerance of [check_points] is its default 1e-3. *)
Definition build_translation_vectors (b : basis) (norms : vec) (sh : shape_arg) (primitive : bool)
  (pos : option vec) (check : bool) (oversample : Q) : result (list (list Z)) :=
  let (size, pos) :=
    match sh with
    | AShape s => let lim := shape_limits s in (vsub (map snd lim) (map fst lim), Some (map fst lim))
    | ASize size => (size, pos)
    end in
  let dim := b_dim b in
  if negb (length size =? dim) then Raise ValueError
  else
    let size := if primitive then vsub (map2 Qmult size (max_vectors b)) (vscale (1#10) norms) else size in
    let pos := match pos with None => vzero dim | Some p => p end in
    if negb (length pos =? dim) then Raise ValueError
    else
      match vindices (nvec_limits b pos size oversample) (Some 0) with
      | None => Raise ValueError
      | Some nvecs =>
        if check then
          let positions := map (fun n => matvec (b_mat b) (of_Z n)) nvecs in
          match check_points b norms positions (ASize size) primitive (Some pos) (1#1000) with
          | Raise e => Raise e
          | Ok mask => Ok (select mask nvecs)
          end
        else Ok nvecs
      end.

(** Filtering two arrays with the mask returned by the user.  lattpy/structure.py:1187-1191.  A mask of the wrong
    length is an IndexError. *)
Definition apply_mask {A B} (mask : list bool) (x : list A) (y : list B) : result (list A * list B) :=
  if length mask =? length x then Ok (select mask x, select mask y) else Raise IndexError.

(** [build_indices], returning the positions.  lattpy/structure.py:1164-1194.
    [callback] returns a boolean mask. *)
Definition build_indices (b : basis) (norms : vec) (atom_positions : list vec) (sh : shape_arg) (primitive : bool)
  (pos : option vec) (check : bool) (callback : option (list site -> list vec -> list bool))
  : result (list site * list vec) :=
  match build_translation_vectors b norms sh primitive pos false 0 with
  | Raise e => Raise e
  | Ok nvecs =>
    let indices := site_indices (b_dim b) (length atom_positions) nvecs in
    let arrays := map (fun r => map (fun n => translate b n r) nvecs) atom_positions in
    match interweave arrays (repeat [] (length (concat arrays))) with
    | None => Raise IndexError                         (* no atoms *)
    | Some positions =>
      let checked :=
        if check then
          match check_points b norms positions sh primitive pos (1#1000) with
          | Raise e => Raise e
          | Ok mask => apply_mask mask indices positions
          end
        else Ok (indices, positions) in
      match checked, callback with
      | Raise e, _ => Raise e
      | Ok r, None => Ok r
      | Ok (indices, positions), Some f => apply_mask (f indices positions) indices positions
      end
    end
  end.

(** ** Neighbours of built sites *)

(** The row of one site: pairs of neighbour and distance.  lattpy/structure.py:1196, 1320-1322. *)
Notation nrow := (list (nat * dist)) (only parsing).

(** [indices_padded[neighbors, -1]]: -1 for the invalid index.  lattpy/structure.py:1203-1204. *)
Definition padded_alpha (indices : list site) (j : nat) : Z := last (nth j indices [-1]%Z) 0%Z.

(** One step of the loop over the pairs of atoms.  lattpy/structure.py:1210-1215. *)
Definition disconnect (indices : list site) (distmat : list (list (list dist))) (rows : list (Z * nrow))
  (pair : nat * nat) : list (Z * nrow) :=
  let (a1, a2) := pair in
  map (fun xr =>
    (fst xr, map (fun e =>
       if (fst xr =? Z.of_nat a1)%Z && (padded_alpha indices (fst e) =? Z.of_nat a2)%Z
          && negb (existsb (deqb (snd e)) (entry2 [] distmat a1 a2))
       then (length indices, Inf) else e) (snd xr))) rows.

(** Sorting one row by distance.  lattpy/structure.py:1220-1223; [argsort] is [np.argsort] (not stable by default). *)
Definition sort_row (argsort : list dist -> list nat) (row : nrow) : nrow :=
  take (0, Inf) row (argsort (map snd row)).

(** [_filter_neighbors].  lattpy/structure.py:1196-1244.  [x_alpha] is the last column of [x_ind]. *)
Definition filter_neighbors (argsort : list dist -> list nat) (distmat : list (list (list dist)))
  (indices : list site) (x_alpha : list Z) (rows : list nrow) : list nrow :=
  let num_base := length distmat in
  let rows := fold_left (disconnect indices distmat) (list_prod (seq 0 num_base) (seq 0 num_base))
                (combine x_alpha rows) in
  let rows := map (fun xr => sort_row argsort (snd xr)) rows in
  if negb (existsb (existsb (fun e => deqb (snd e) Inf)) rows) then
    map (fun r => r ++ [(length indices, Inf)]) rows
  else
    let cols := match rows with [] => 0 | r :: _ => length r end in
    let keep := map (fun c => existsb (fun r => match nth_error r c with
                                                | Some e => negb (deqb (snd e) Inf) | None => false end) rows)
                  (seq 0 cols) in
    map (select keep) rows.

(** Sum of all entries.  lattpy/structure.py:1314. *)
Definition sum_all (t : list (list nat)) : nat := fold_right Nat.add 0 (concat t).

(** Largest and smallest distance of a list in units of 1e-6.  lattpy/structure.py:1315.  All are finite. *)
Definition micro (d : dist) : Z := match d with Fin z => z | Inf => 0%Z end.
(** [np.max].  lattpy/structure.py:1315. *)
Definition zmax_list (l : list Z) : option Z := match l with [] => None | x :: xs => Some (fold_left Z.max xs x) end.
(** [np.min] of such a list.  lattpy/structure.py:1315. *)
Definition zmin_list (l : list Z) : option Z := match l with [] => None | x :: xs => Some (fold_left Z.min xs x) end.

(** The number of neighbours asked for.  lattpy/structure.py:1314. *)
Definition query_count (an : analysis) : nat := sum_all (raw_num_neighbors (an_raw an)) + 1.

(** [max_dist = np.max(self.distances) + 0.1 * np.min(self._raw_distance_matrix)].  lattpy/structure.py:1315.
    [None]: an empty array, or lists of different lengths in the matrix, of which numpy makes no array of numbers. *)
Definition query_radius (an : analysis) : option Q :=
  let raw := concat (raw_distance_matrix (an_raw an)) in
  let len := match raw with [] => 0 | r :: _ => length r end in
  if forallb (fun r => length r =? len) raw then
    match zmax_list (map micro (concat (an_distances an))), zmin_list (map micro (concat raw)) with
    | Some mx, Some mn => Some ((inject_Z mx + (1#10) * inject_Z mn) * (1#1000000))%Q
    | _, _ => None
    end
  else None.

(** [compute_neighbors].  lattpy/structure.py:1311-1325.  [None] is an exception. *)
Definition compute_neighbors (query : kd_tree) (argsort : list dist -> list nat) (an : analysis)
  (indices : list site) (positions : list vec) : option (list nrow) :=
  match query_radius an with
  | None => None
  | Some r =>
    let k := query_count an in
    let r2 := Some (r * r)%Q in
    let raw := map (fun x => query positions x k r2) positions in
    let rows := kd_query (length positions) r2 false true raw in
    let rows := map (map (fun e => (fst e, qd_round (snd e)))) rows in
    Some (filter_neighbors argsort (an_distmat an) indices (map (fun i => last i 0%Z) indices) rows)
  end.

(** ** Serialisation and equality *)

(** [todict].  lattpy/structure.py:1339-1344. *)
Record sdict := mkDict {
  sd_vectors : mat; sd_atoms : list atom; sd_positions : list vec; sd_connections : option (list (list nat)) }.

(** [todict].  lattpy/structure.py:1339-1344. *)
Definition todict (s : structure) : sdict :=
  mkDict (b_vectors (st_basis s)) (st_atoms s) (st_positions s) (st_connections s).

(** [LatticeBasis(vectors)] for a square array of rows; [inv] is [np.linalg.inv].  lattpy/basis.py:91-99. *)
Definition make_basis (inv : mat -> mat) (vectors : mat) : basis :=
  let m := transpose (length vectors) vectors in mkBasis m (inv m).

(** The loop adding the atoms.  lattpy/structure.py:1361-1362. *)
Fixpoint add_atoms (query : kd_tree) (s : structure) (l : list (vec * atom)) : structure * result unit :=
  match l with
  | [] => (s, Ok tt)
  | (pos, at_) :: rest =>
    match add_atom query s (Some pos) at_ false 0 with
    | (s', Ok tt) => add_atoms query s' rest
    | (s', Raise e) => (s', Raise e)
    end
  end.

(** [fromdict].  lattpy/structure.py:1360-1365.  The new object shares the arrays of the dictionary (not modelled). *)
Definition fromdict (query : kd_tree) (inv : mat -> mat) (d : sdict) : result structure :=
  match add_atoms query (new_structure (make_basis inv (sd_vectors d))) (combine (sd_positions d) (sd_atoms d)) with
  | (_, Raise e) => Raise e
  | (s, Ok tt) =>
    let s := mkStructure (st_basis s) (st_atoms s) (st_positions s) (st_frozen s) (sd_connections d) (st_analysis s) in
    match analyze query s with
    | (s', Ok tt) => Ok s'
    | (_, Raise e) => Raise e
    end
  end.

(** How numpy and the atoms print themselves.  lattpy/structure.py:1378 ([str(x)]). *)
Record printer := mkPrinter {
  show_vec : vec -> string; show_atom : atom -> string; show_row : list nat -> string }.

(** [f"{head:<15}"]: padded on the right to 15 characters.  lattpy/structure.py:1377-1378. *)
Definition pad15 (s : string) : string :=
  String.append s (String.concat "" (repeat " "%string (15 - String.length s))).

(** [dumps].  lattpy/structure.py:1375-1379 ([None] connections cannot be iterated: TypeError). *)
Definition dumps (p : printer) (s : structure) : option string :=
  let d := todict s in
  let line key values := String.append (pad15 (String.append key ":")) (String.concat "; " values) in
  match sd_connections d with
  | None => None
  | Some conns =>
    Some (String.concat (String (Ascii.ascii_of_nat 10) EmptyString)
      [line "vectors"%string (map (show_vec p) (sd_vectors d)); line "atoms"%string (map (show_atom p) (sd_atoms d));
       line "positions"%string (map (show_vec p) (sd_positions d)); line "connections"%string (map (show_row p) conns)])
  end.

(** [__hash__] and [__eq__], for the hash function [md5].  lattpy/structure.py:1414-1421. *)
Definition structure_hash (p : printer) (md5 : string -> Z) (s : structure) : option Z :=
  option_map md5 (dumps p s).

(** [__eq__].  lattpy/structure.py:1420-1421. *)
Definition structure_eq (p : printer) (md5 : string -> Z) (s t : structure) : option bool :=
  match structure_hash p md5 s, structure_hash p md5 t with
  | Some x, Some y => Some (x =? y)%Z
  | _, _ => None
  end.
