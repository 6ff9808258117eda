(** * Property C116 (lattpy/lattice.py: the tree of the sites) *)
From Coq Require Import String List ZArith QArith Bool Arith Lia Lqa Permutation Sorting.Sorted.
From Verif Require Import Np NpFacts LinAlg LinFacts SpecUtils UtilsModel UtilsProofs PropUtils SpecBasis AtomModel BasisModel BasisProofs
  NeighborCellProofs PropBasis SpatialModel SpecSpatial KDProofs PropSpatial SpecStructure SpecBuild ShapeModel StructureModel KDBrute RoundFacts StructureFacts
  DataModel SpecData DataFacts DataProofs PropData AnalyzeProofs StructureProofs PropStructure PropAnalyze FilterProofs SpecNeighbors
  NeighborProofs RadiusProofs RangeProofs PropNeighbors BuiltProofs BuildProofs PropBuild LatticeModel LatticeExamples PropFailed SpecGrid PropBuilt
  KdtreeModel.
Import ListNotations.
Open Scope nat_scope.
Open Scope list_scope.

(** ** The settings *)

Lemma tree_of l an r points : st_analysis (lt_structure l) = Some an -> query_radius an = Some r ->
  lattice_kdtree l (Some points) = Some (mkTree points (query_count an) r).
Proof. intros E1 E2. unfold lattice_kdtree. rewrite E1, E2. reflexivity. Qed.

Lemma in_range_kept P x len k r2 row : nearest_row (fun _ => True) P x len k r2 row ->
  map (fun e : nat * option Q => if qd_exceeds r2 (snd e) then (length P, None) else e) row = row.
Proof.
  intros [Hl [m [Hm [H1 [H2 _]]]]]. rewrite <- (map_id row) at 2. apply map_ext_in. intros [j y] Hin.
  apply In_nth_error in Hin. destruct Hin as [c E]. pose proof (nth_error_length_lt _ _ _ E) as Hc. cbn [snd].
  destruct (Nat.lt_ge_cases c m) as [Hlt|Hge].
  - destruct (H1 c j y Hlt E) as [_ [p [q [_ [-> [_ Hle]]]]]]. destruct r2 as [r|]; auto. unfold qd_exceeds.
    destruct (Qle_bool q r) eqn:B; auto. exfalso. assert (Qle_bool q r = true) by (apply Qle_bool_iff; auto). congruence.
  - rewrite H2 in E by lia. injection E as <- <-. destruct (qd_exceeds r2 None); auto.
Qed.

(** The tree of any points: the sites nearest to any points asked for, and for the points themselves the others. *)
Theorem C116_tree :
  forall query s s' conns an r l points,
    correct_tree query -> valid_basis (st_basis s) -> 1 <= b_dim (st_basis s) -> in_step s ->
    st_connections s = Some conns -> analyze query s = (s', Ok tt) -> st_analysis s' = Some an -> query_radius an = Some r ->
    lt_structure l = s' ->
    exists m cells,
      (forall a c, nth c (nth a conns []) 0 <= m) /\ (exists a c, nth c (nth a conns []) 0 = m) /\
      get_neighbor_cells (st_basis s) (2 * m) true Qle_bool = Some cells /\
      let occ := occurs (b_dim (st_basis s)) (b_mat (st_basis s)) (st_positions s) cells in
      ((forall a c x, a < length (st_positions s) -> c < length (st_positions s) -> occ a c x -> dleb (Fin 6) x = true) ->
       exists t, lattice_kdtree l (Some points) = Some t /\ kt_points t = points /\ 2 <= kt_k t /\ (0 < kt_max t)%Q /\
         (* the allowed distances are in range *)
         (forall a c z, a < length (st_positions s) -> c < length (st_positions s) ->
            among_first (nth c (nth a conns []) 0) (occ a c) (Fin z) -> (inject_Z z + (1#2) < kt_max t * (1000000#1))%Q) /\
         (* any points *)
         (forall xs, nearest_rows points xs (kt_k t) (Some (kt_max t * kt_max t)%Q) (tree_query query t (Some xs) true false)) /\
         (* the points of the tree *)
         (forall d, distinct_points d points ->
            let rows := tree_query query t None false true in
            length rows = length points /\
            exists M, M <= kt_k t - 1 /\ forall i x row, nth_error points i = Some x -> nth_error rows i = Some row ->
              nearest_row (fun j => j <> i) points x M (kt_k t - 1) (Some (kt_max t * kt_max t)%Q) row)).
Proof.
  intros query s s' conns an r l points Hq Hb Hd Hs Ec0 Ha Ean Hr El.
  destruct (analysed_table query s s' Hb Hd Hs Ha) as [conns' [cells [Ec [_ [_ [Hm0 [Ecells [_ [HR Es]]]]]]]]].
  rewrite Ec0 in Ec. injection Ec as <-. pose proof Ean as Ean0. rewrite Es in Ean. cbn in Ean. injection Ean as <-.
  set (an := analyze_raw (raw_dicts query (st_basis s) (st_positions s) (max_connections conns) cells) conns (length (st_positions s))) in *.
  exists (max_connections conns), cells.
  split; [exact (in_max_connections conns)|]. split; [exact (max_connections_reached conns Hm0)|]. split; auto. cbv zeta. intro Hsep.
  destruct (radius_spec query (st_basis s) (st_positions s) cells conns Hq Hb Hd HR Ecells r Hr Hsep) as [Hr0 Hreach]. fold an in Hreach.
  assert (2 <= query_count an) as Hk by (exact (count_spec query (st_basis s) (st_positions s) cells conns Hq Hb Hd HR Ecells r Hr)).
  exists (mkTree points (query_count an) r). cbn [kt_points kt_k kt_max].
  split; [apply tree_of; auto; rewrite El; auto|]. split; auto. split; auto. split; auto. split; [|split].
  - intros a c z La Lc H. apply (Hreach a c z). apply (In_distmat query (st_basis s) (st_positions s) cells conns Hq Hb Hd HR Ecells). auto.
  - intro xs. unfold tree_query, kd_query, nearest_rows. cbn [negb andb kt_points kt_k kt_max].
    induction xs as [|x xs IH]; cbn [map]; constructor; auto.
    match goal with |- nearest_row _ _ _ _ _ _ ?row => replace row with (query points x (query_count an) (Some (r * r)%Q)); [apply Hq|] end.
    symmetry. exact (in_range_kept points x _ _ (Some (r * r)%Q) _ (Hq points x (query_count an) (Some (r * r)%Q))).
  - intros d HP. unfold tree_query. cbn [kt_points kt_k kt_max].
    destruct (C19_self_query d points (query_count an) (Some (r * r)%Q) (map (fun x => query points x (query_count an) (Some (r * r)%Q)) points) HP Hk)
      as [H1 [M [HM [H2 _]]]].
    + nra.
    + unfold nearest_rows. generalize (Hq points). intro H. clear -H. generalize points at 2 4. intro L. induction L; cbn; constructor; auto.
    + split; auto. exists M. auto.
Qed.

(** ** The tree of a lattice *)

(** The tree of a built lattice finds for every site the other sites in range, among them all its neighbours: they are
    the ones at an allowed distance of the two atoms. *)
Theorem C116_links :
  forall query argsort norms s s' conns an l sh primitive pos check callback I P r,
    correct_tree query -> is_argsort dleb argsort ->
    valid_basis (st_basis s) -> 1 <= b_dim (st_basis s) -> in_step s ->
    st_connections s = Some conns -> analyze query s = (s', Ok tt) -> st_analysis s' = Some an -> lt_structure l = s' ->
    let d := b_dim (st_basis s) in
    let V := b_mat (st_basis s) in
    let R := st_positions s in
    (* the sites *)
    (primitive = true -> length norms = d) -> fitting d sh primitive pos -> incongruent d V R ->
    build_indices (st_basis s) norms R (AShape (build_shape (st_basis s) sh primitive pos)) primitive pos check callback = Ok (I, P) ->
    I <> [] ->
    (* not more sites in range than asked for *)
    query_radius an = Some r -> (forall p, In p P -> at_most (query_count an) (within P p (r * r)%Q)) ->
    exists m cells,
      (forall a c, nth c (nth a conns []) 0 <= m) /\ (exists a c, nth c (nth a conns []) 0 = m) /\
      get_neighbor_cells (st_basis s) (2 * m) true Qle_bool = Some cells /\
      let allowed a c := among_first (nth c (nth a conns []) 0) (occurs d V R cells a c) in
      let connected := connected_sites allowed I P in
      (* the guards of C71 *)
      (forall a c x, a < length R -> c < length R -> occurs d V R cells a c x -> dleb (Fin 6) x = true) ->
      (exists values, length values <= 255 /\ forall a c x, a < length R -> c < length R -> allowed a c x -> In x values) ->
      ((exists i i', i < length P /\ i' < length P /\ fewer connected i i') \/
       (forall i j p, i <> j -> nth_error P i = Some p -> within P p (r * r)%Q j -> exists x, connected i j x)) ->
      exists l' dt t, build query argsort norms l sh primitive pos check None None callback = (l', Ok tt) /\ lt_data l' = Some dt /\
        lattice_kdtree l' None = Some t /\ kt_points t = d_positions dt /\ kt_max t = r /\
        let rows := tree_query query t None false true in
        length rows = nsites dt /\
        forall i p row, nth_error (d_positions dt) i = Some p -> nth_error rows i = Some row ->
          (* other sites, in range, at their distance, once each *)
          (forall j q, In (j, Some q) row -> j <> i /\ exists p', nth_error (d_positions dt) j = Some p' /\ (q == sqdist p p')%Q /\ (q <= r * r)%Q) /\
          (forall c c' j q q', nth_error row c = Some (j, Some q) -> nth_error row c' = Some (j, Some q') -> c = c') /\
          (* all of them *)
          (forall j p', j <> i -> nth_error (d_positions dt) j = Some p' -> (sqdist p p' < r * r)%Q -> exists q, In (j, Some q) row) /\
          (* the neighbours *)
          (forall j x, In (j, x) (links dt i) <->
             exists q z, In (j, Some q) row /\ x = Fin z /\ rounds_to_micro q z /\
               allowed (atom_of (d_indices dt) i) (atom_of (d_indices dt) j) x).
Proof.
  intros query argsort norms s s' conns an l sh primitive pos check callback I P r Hq Harg Hb Hd Hs Ec0 Ha Ean El d V R
    Hnorms Hfit Hinc EI HI0 Hr Hroom.
  destruct (C71_build_connects_the_sites query argsort norms s s' conns an l sh primitive pos check callback I P r Hq Harg Hb Hd Hs Ec0 Ha Ean El Hnorms Hfit Hinc EI HI0 Hr Hroom)
    as [m [cells [Hm1 [Hm2 [Ecells H]]]]].
  exists m, cells. split; auto. split; auto. split; auto. cbv zeta. intros Hsep Hval Hpad.
  destruct (H Hsep Hval Hpad) as (l' & dt & Eb & Es' & _ & _ & Edt & _ & _ & _ & _ & EI1 & EP1 & _ & Hlinks). clear H.
  destruct (C116_tree query s s' conns an r l' P Hq Hb Hd Hs Ec0 Ha Ean Hr Es') as [m' [cells' [Hm1' [Hm2' [Ecells' H]]]]].
  assert (m' = m) as -> by (destruct Hm2 as [a1 [c1 E1]]; destruct Hm2' as [a2 [c2 E2]]; specialize (Hm1' a1 c1); specialize (Hm1 a2 c2); lia).
  rewrite Ecells in Ecells'. injection Ecells' as <-. cbv zeta in H.
  destruct (H Hsep) as (t & Et & Ept & Hk & Hr0 & Hreach & _ & Hself). clear H.
  pose proof Et as Et0. rewrite (tree_of l' an r P) in Et0 by (rewrite ?Es'; auto). injection Et0 as Et0.
  assert (kt_k t = query_count an) as Ek by (rewrite <- Et0; reflexivity).
  assert (kt_max t = r) as Er by (rewrite <- Et0; reflexivity). rewrite Ek, Er in *.
  destruct (analysed_table query s s' Hb Hd Hs Ha) as [_ [_ [_ [_ [_ [_ [_ [_ [HR _]]]]]]]]].
  destruct (C31_indices_and_positions_aligned _ _ _ _ _ _ _ _ _ _ Hb Hnorms HR EI) as [Hlen [Hal _]].
  pose proof (built_points_distinct _ _ _ _ _ _ _ _ _ _ Hb Hnorms HR Hinc EI) as HP.
  destruct (Hself _ HP) as [Hl [M [HM Hrows]]].
  exists l', dt, t. split; auto. split; auto. split.
  { unfold lattice_kdtree in *. rewrite Edt. cbn [option_map]. rewrite EP1. exact Et. }
  split; [congruence|]. split; [auto|]. split; [unfold nsites; rewrite EI1; congruence|].
  rewrite EP1, EI1. intros i p row Hp Hrow.
  destruct (row_entries an I P r Hlen Hk Hroom M i p row HM Hp (Hrows i p row Hp Hrow)) as [R1 [R2 [_ R4]]].
  split; [exact R1|]. split; [exact R4|]. split; [exact R2|]. intros j x.
  pose proof (nth_error_length_lt _ _ _ Hp) as Hi. rewrite (proj2 (Hlinks i Hi) j x). split.
  - intros [Hne [[p0 [p' [z [Hp0 [Hp' [-> Hz]]]]]] Hallow]]. assert (Some p0 = Some p) as E0 by (exact (eq_trans (eq_sym Hp0) Hp)). injection E0 as ->.
    assert (forall k q, nth_error P k = Some q -> atom_of I k < length R) as Hat.
    { intros k q Hkq. pose proof (nth_error_length_lt _ _ _ Hkq). destruct (nth_error_lt I k) as [t' Ht']; [unfold vec in *; lia|].
      destruct (Hal k t' q Ht' Hkq) as [n [a [r0 [-> [_ [Hr1 _]]]]]]. unfold atom_of. rewrite (nth_of_nth_error _ _ _ _ Ht'), last_last, Nat2Z.id.
      apply nth_error_length_lt in Hr1. exact Hr1. }
    pose proof (Hreach _ _ z (Hat i p Hp) (Hat j p' Hp') Hallow) as Hzr.
    assert (sqdist p p' < r * r)%Q as Hlt.
    { destruct Hz as [Hz0 [Hz1 _]]. assert (0 <= inject_Z z)%Q by (change 0%Q with (inject_Z 0); rewrite <- Zle_Qle; lia). nra. }
    destruct (R2 j p') as [q Hqin]; auto. destruct (R1 j q Hqin) as [_ [p1 [Hp1 [Hqd _]]]]. assert (Some p1 = Some p') as E1 by (exact (eq_trans (eq_sym Hp1) Hp')). injection E1 as ->.
    exists q, z. split; auto. split; auto. split; auto. apply (rounds_ext (sqdist p p')); auto. symmetry. auto.
  - intros [q [z [Hin [-> [Hz Hallow]]]]]. destruct (R1 j q Hin) as [Hne [p' [Hp' [Hqd _]]]]. split; auto. split; auto.
    exists p, p', z. split; auto. split; auto. split; auto. apply (rounds_ext q); auto.
Qed.

(** Without [analyze], or without sites, there is no tree. *)
Theorem C116_errors :
  forall l positions,
    (st_analysis (lt_structure l) = None -> lattice_kdtree l positions = None) /\
    (lt_data l = None -> lattice_kdtree l None = None).
Proof.
  intros l positions. unfold lattice_kdtree. split; intros ->; auto. destruct (match positions with None => _ | _ => _ end); auto.
Qed.

(** ** Examples *)

(** Rows with distances in units of 1e-6. *)
Definition row_micro (row : qrow) : list (nat * dist) := map (fun e => (fst e, qd_round (snd e))) row.

(** The chain of A and B, of which three sites are built: the sites at distance 1/2, padded with 3. *)
Example C116_links_example :
  valid_basis (st_basis ab_chain) /\ 1 <= b_dim (st_basis ab_chain) /\ in_step ab_chain /\
  st_connections ab_chain = Some [[0; 1]; [1; 0]] /\ incongruent 1 [[1]]%Q [[0]; [1#2]]%Q /\
  exists s' an r cells, analyze brute ab_chain = (s', Ok tt) /\ st_analysis s' = Some an /\ query_radius an = Some r /\
    fitting 1 (ASize [1]%Q) false None /\
    build_indices (st_basis ab_chain) [] (st_positions ab_chain) (AShape (build_shape (st_basis ab_chain) (ASize [1]%Q) false None))
      false None true None = Ok (ab_indices, ab_points) /\
    get_neighbor_cells (st_basis ab_chain) 2 true Qle_bool = Some cells /\
    (forall p, In p ab_points -> at_most (query_count an) (within ab_points p (r * r)%Q)) /\
    (forall a c x, a < 2 -> c < 2 -> occurs 1 [[1%Q]] [[0]; [1#2]]%Q cells a c x -> dleb (Fin 6) x = true) /\
    let allowed a c := among_first (nth c (nth a [[0; 1]; [1; 0]] []) 0) (occurs 1 [[1%Q]] [[0]; [1#2]]%Q cells a c) in
    (forall a c x, a < 2 -> c < 2 -> allowed a c x <-> a <> c /\ x = Fin 500000) /\
    fewer (connected_sites allowed ab_indices ab_points) 0 1 /\
    exists t, lattice_kdtree (fst (build brute dist_argsort [] (mkLattice s' None None None [] None) (ASize [1]%Q) false None true None None None)) None = Some t /\
      kt_k t = 9 /\ (kt_max t == 55#100)%Q /\
      map row_micro (tree_query brute t None false true) =
        [[(1, Fin 500000); (3, Inf)]; [(0, Fin 500000); (2, Fin 500000)]; [(1, Fin 500000); (3, Inf)]].
Proof.
  destruct C71_example as (H1 & H2 & H3 & H4 & H5 & s' & an & r & cells & E1 & E2 & E3 & E4 & E5 & E6 & E7 & E8 & E9 & E10 & _).
  do 5 (split; auto). exists s', an, r, cells. do 8 (split; auto). split; auto. split; auto.
  assert (s' = fst (analyze brute ab_chain)) as -> by (rewrite E1; reflexivity). clear.
  eexists. split; [vm_compute; reflexivity|]. split; [vm_compute; reflexivity|]. split; vm_compute; reflexivity.
Qed.

(** The same chain where only the A are connected: the radius is 1.05, and B is found although it is no neighbour. *)
Definition aa_chain : structure :=
  run_calls brute ex_chain [CAddAtom (Some [0]%Q) (ex_atom "A") false 0; CAddAtom (Some [1#2]%Q) (ex_atom "B") false 0;
    CAddConnection (RName "A") (RName "A") 1 false].

Example C116_tree_example :
  valid_basis (st_basis aa_chain) /\ 1 <= b_dim (st_basis aa_chain) /\ in_step aa_chain /\ st_connections aa_chain = Some [[1; 0]; [0; 0]] /\
  exists s' an r cells, analyze brute aa_chain = (s', Ok tt) /\ st_analysis s' = Some an /\ query_radius an = Some r /\
    get_neighbor_cells (st_basis aa_chain) 2 true Qle_bool = Some cells /\
    (forall a c x, a < 2 -> c < 2 -> occurs 1 [[1%Q]] [[0]; [1#2]]%Q cells a c x -> dleb (Fin 6) x = true) /\
    let l := mkLattice s' None None None [] None in
    match lattice_kdtree l (Some [[0]; [3#4]; [1]; [204#100]; [4]]%Q) with
    | None => False
    | Some t => kt_k t = 9 /\ (kt_max t == 105#100)%Q /\
        (* distance 1.04 is in range; the last point is alone *)
        map row_micro (tree_query brute t None false true) =
          [[(1, Fin 750000); (2, Fin 1000000); (5, Inf)]; [(2, Fin 250000); (0, Fin 750000); (5, Inf)];
           [(1, Fin 250000); (0, Fin 1000000); (3, Fin 1040000)]; [(2, Fin 1040000); (5, Inf); (5, Inf)]; [(5, Inf); (5, Inf); (5, Inf)]] /\
        map (fun row => firstn 2 (row_micro row)) (tree_query brute t (Some [[1]; [7]]%Q) true false) = [[(2, Fin 0); (1, Fin 250000)]; [(5, Inf); (5, Inf)]]
    end /\
    match fst (build brute dist_argsort [] l (ASize [1]%Q) false None true None None None) with
    | l' => match lt_data l', lattice_kdtree l' None with
      | Some dt, Some t => map (links dt) [0; 1; 2] = [[(2, Fin 1000000)]; []; [(0, Fin 1000000)]] /\
          map row_micro (tree_query brute t None false true) =
            [[(1, Fin 500000); (2, Fin 1000000)]; [(0, Fin 500000); (2, Fin 500000)]; [(1, Fin 500000); (0, Fin 1000000)]]
      | _, _ => False
      end
    end /\
    lattice_kdtree l None = None /\ lattice_kdtree (mkLattice aa_chain None None None [] None) (Some [[0]]%Q) = None.
Proof.
  destruct C34_example as [H1 [H2 [H3 _]]]. split; [exact H1|]. split; [cbn; lia|]. split; [|split; [reflexivity|]].
  { apply (reachable_in_step brute ex_chain). unfold aa_chain, run_calls. cbn [fold_left].
    repeat (apply r_call; [|intro; reflexivity || discriminate]). apply r_new. }
  eexists _, _, _, _. split; [vm_compute; reflexivity|]. split; [reflexivity|]. split; [vm_compute; reflexivity|]. split; [vm_compute; reflexivity|].
  split; [apply (apart_checked 1 [[1%Q]] [[0]; [1#2]]%Q); vm_compute; reflexivity|]. cbv zeta.
  split; [vm_compute; repeat split|]. split; [vm_compute; repeat split|]. split; vm_compute; reflexivity.
Qed.

Print Assumptions C116_tree.
Print Assumptions C116_links.
Print Assumptions C116_errors.
