(** * Property C92, continued: matrices of lattices made by [build] *)
From Coq Require Import String List ZArith QArith Bool Arith Lia Lqa Permutation Sorting.Sorted.
From Verif Require Import Np NpFacts LinAlg LinFacts SpecUtils UtilsModel SpecBasis AtomModel BasisModel BasisProofs PropBasis SpatialModel SpecSpatial SpatialProofs SpecStructure ShapeModel StructureModel KDBrute KDProofs RoundFacts StructureFacts
  AnalyzeProofs PropAnalyze SpecNeighbors PropNeighbors SpecLattice DataModel SpecData DataFacts DataProofs LatticeModel LatticeExamples SpecGrid GridProofs
  StructureProofs PropStructure PropData PropDataMap SpecBuild BuildProofs PropBuild NeighborProofs RangeProofs PropBuilt SpecJoin SpecBlock BlockProofs PropBlock SpecFinite PropFinite
  MatrixModel SpecMatrix PropMatrix.
Import ListNotations.
Open Scope nat_scope.
Open Scope list_scope.

Notation site_atom := PropDataMap.atom_of.

(** The map of a new lattice is computed from its data. *)
Theorem C92_fresh_after_build :
  forall query argsort norms l sh primitive pos check k periodic callback l',
    build query argsort norms l sh primitive pos check k periodic callback = (l', Ok tt) ->
    exists d, lt_data l' = Some d /\ d_dmap d = None.
Proof.
  intros query argsort norms l sh primitive pos check k periodic callback l' E. unfold build in E.
  destruct (build_tables _ _ _ _ _ _ _ _ _ _) as [[[indices positions] rows]|e]; [|discriminate].
  destruct (data_set indices positions (map (map fst) rows) (map (map snd) rows)) as [d|] eqn:Ed; [|discriminate].
  assert (d_dmap d = None) as Hd.
  { unfold data_set in Ed. destruct (create_lookup_table2 _ _ _) as [dv dx]. destruct (nat_max (concat dx)); [|discriminate].
    injection Ed as <-. reflexivity. }
  set (l1 := update_shape _) in E. assert (lt_data l1 = Some d) as E1 by (unfold l1, update_shape; destruct (limits _); reflexivity).
  assert (forall axis, set_periodic query argsort l1 axis = (l', Ok tt) -> exists d, lt_data l' = Some d /\ d_dmap d = None) as H.
  { clear E. intros axis E. unfold set_periodic in E. destruct (lt_shape l1); [|discriminate]. rewrite E1 in E.
    destruct (call_remove_periodic d) as [d1|] eqn:Er; [|discriminate].
    assert (d_dmap d1 = None) as Hd1.
    { unfold call_remove_periodic in Er. destruct (length (d_pmask d) =? length (d_neighbors d)); [|discriminate]. injection Er as <-. exact Hd. }
    destruct (match axis with AxNone | AxBool false => None | AxBool true => _ | AxList a => _ end) as [axes|].
    - destruct (st_analysis _) as [an|]; [|discriminate]. destruct (compute_pneighbors _ _ _ _ _ _ _) as [[|p ps]|]; [| |discriminate].
      + injection E as <-. exists d1. auto.
      + destruct (DataModel.set_periodic d1 (p :: ps)) as [d2|] eqn:E2; [|discriminate]. injection E as <-. exists d2. split; [reflexivity|].
        rewrite <- Hd1. unfold DataModel.set_periodic, call_remove_periodic in E2. destruct (length (d_pmask d1) =? length (d_neighbors d1)); [|discriminate].
        rewrite (set_periodic_loop_dmap _ _ _ E2). reflexivity.
    - injection E as <-. exists d1. auto. }
  destruct periodic as [[| |]|]; try (apply (H _ E)); injection E as <-; exists d; auto.
Qed.

(** The matrix of a built lattice in terms of the positions of its sites. *)
Theorem C92_built :
  forall {T} (add : T -> T -> T) zero query argsort argsort' norms s s' conns an l sh primitive pos check callback I P r (values : list (assignment T)),
    addition add zero -> Forall not_negative values ->
    correct_tree query -> is_argsort dleb argsort -> is_argsort Nat.leb argsort' ->
    valid_basis (st_basis s) -> 1 <= b_dim (st_basis s) -> in_step s ->
    st_connections s = Some conns -> analyze query s = (s', Ok tt) -> st_analysis s' = Some an -> lt_structure l = s' ->
    let d := b_dim (st_basis s) in
    let V := b_mat (st_basis s) in
    let R := st_positions s in
    length R <= 128 ->
    (primitive = true -> length norms = d) -> fitting d sh primitive pos -> incongruent d V R ->
    build_indices (st_basis s) norms R (AShape (build_shape (st_basis s) sh primitive pos)) primitive pos check callback = Ok (I, P) ->
    I <> [] ->
    query_radius an = Some r -> (forall p, In p P -> at_most (query_count an) (within P p (r * r)%Q)) ->
    exists m cells,
      (forall a c, nth c (nth a conns []) 0 <= m) /\ (exists a c, nth c (nth a conns []) 0 = m) /\
      get_neighbor_cells (st_basis s) (2 * m) true Qle_bool = Some cells /\
      let allowed a c := among_first (nth c (nth a conns []) 0) (occurs d V R cells a c) in
      let connected := connected_sites allowed I P in
      (forall a c x, a < length R -> c < length R -> occurs d V R cells a c x -> dleb (Fin 6) x = true) ->
      (exists values, length values <= 255 /\ forall a c x, a < length R -> c < length R -> allowed a c x -> In x values) ->
      ((exists i i', i < length P /\ i' < length P /\ fewer connected i i') \/
       (forall i j p, i <> j -> nth_error P i = Some p -> within P p (r * r)%Q j -> exists x, connected i j x)) ->
      exists l' dt, build query argsort norms l sh primitive pos check None None callback = (l', Ok tt) /\ lt_data l' = Some dt /\
        d_indices dt = I /\ length I = length P /\
        let dm := fst (data_map argsort' dt) in
        exists M, build_csr add zero dm (assign_all dm (dm_zeros zero dm) values) None = Some M /\
          m_rows M = length P /\ m_cols M = length P /\
          (forall i, i < length P -> m_entry M i i = onsite_value zero values (last (nth i I []) 0%Z)) /\
          (forall i j k, i < length P -> k < d_invalid_distidx dt -> connected i j (nth k (d_distvals dt) Inf) ->
             m_entry M i j = hopping_value zero values k) /\
          (forall i j x, i < length P -> connected i j x -> exists k, k < d_invalid_distidx dt /\ nth k (d_distvals dt) Inf = x) /\
          (forall i j, i < length P -> j < length P -> i <> j -> (forall x, ~ connected i j x) -> m_entry M i j = zero) /\
          (forall i j, i < length P -> j < length P -> m_entry M i j = m_entry M j i).
Proof.
  intros T add zero query argsort argsort' norms s s' conns an l sh primitive pos check callback I P r values
    Hadd Hval0 Hq Harg Harg' Hb Hd Hs Ec Ha Ean El d V R HR128 Hnorms Hfit Hinc EI HIne Er Hroom.
  assert (forall x, In x R -> length x = d) as HR by (intros x Hx; apply Hs; auto).
  destruct (C31_indices_and_positions_aligned _ _ _ _ _ _ _ _ _ _ Hb Hnorms HR EI) as [Hlen [Hal _]].
  pose proof (C33_no_site_twice _ _ _ _ _ _ _ _ _ _ Hb Hnorms HR EI) as HNI.
  destruct (C71_build_connects_the_sites query argsort norms s s' conns an l sh primitive pos check callback I P r Hq Harg Hb Hd Hs Ec Ha Ean El Hnorms Hfit Hinc EI HIne Er Hroom)
    as [m [cells [Hm1 [Hm2 [Ecells H]]]]].
  exists m, cells. do 3 (split; auto). cbv zeta. intros Hsep Hval Hpad.
  destruct (H Hsep Hval Hpad) as (l1 & dt & Ebuild & Es & _ & _ & Edt & W & _ & _ & _ & EI1 & EP1 & _ & Hlinks). clear H.
  exists l1, dt. do 4 (split; auto).
  set (allowed := fun a c => among_first (nth c (nth a conns []) 0) (occurs d V R cells a c)) in *.
  assert (finite_lattice d V R allowed dt) as F.
  { constructor; rewrite ?EI1, ?EP1; auto.
    - apply W.
    - intros i Hi. unfold nsites in Hi. rewrite EI1 in Hi. destruct (nth_error_lt I i Hi) as [t Ht]. rewrite Hlen in Hi. destruct (nth_error_lt P i Hi) as [p Hp].
      destruct (Hal i t p Ht Hp) as [n [a [x [Et [Ln [Hx Hsame]]]]]]. exists n, a. rewrite (nth_of_nth_error _ _ _ _ Ht), (nth_of_nth_error _ _ _ _ Hp), (nth_of_nth_error _ _ _ _ Hx).
      repeat (split; auto). eapply nth_error_length_lt; eauto.
    - intros i Hi. unfold nsites in Hi. rewrite EI1, Hlen in Hi. apply Hlinks. auto. }
  assert (nsites dt = length P) as EN by (unfold nsites; rewrite EI1; exact Hlen).
  assert (few_atoms dt) as Hfew.
  { intros i Hi. destruct (fl_sites _ _ _ _ _ F i Hi) as [n [a [En [_ [La _]]]]]. unfold site_atom. rewrite En, last_last. change (length R) with (length (st_positions s)) in HR128, La. split; [apply Nat2Z.is_nonneg|]. apply (Nat2Z.inj_lt a 128). lia. }
  destruct (C92_fresh_after_build _ _ _ _ _ _ _ _ _ _ _ _ Ebuild) as [dt' [Edt' Hfresh]].
  rewrite Edt in Edt'. injection Edt' as <-.
  assert (0 < nsites dt) as HN. { rewrite EN, <- Hlen. destruct I; [congruence|cbn; lia]. }
  destruct (C92_finite_lattice add zero argsort' d V R allowed dt values Hadd Harg' F Hfew Hfresh HN Hval0) as (M & EM & E1 & E2 & H1 & H2 & H3 & H4).
  rewrite EN, EI1, EP1 in *.
  exists M. split; [exact EM|]. split; [exact E1|]. split; [exact E2|]. split; [|split; [exact H2|split; [|split; [exact H3|]]]].
  - intros i Hi. rewrite H1 by auto. unfold site_atom. rewrite EI1. reflexivity.
  - intros i j x Hi Hc. pose proof (fl_links _ _ _ _ _ F i ltac:(lia)) as [_ HL]. rewrite EI1, EP1 in HL. apply HL in Hc.
    unfold links in Hc. apply in_map_iff in Hc. destruct Hc as [c [Ecx Hc]]. unfold link_at in Ecx. injection Ecx as _ <-.
    unfold valid_slots in Hc. apply filter_In in Hc. destruct Hc as [_ Hv]. exists (di dt i c). split; auto. apply Nat.ltb_lt. exact Hv.
  - apply H4. intros a b x La Lb Hax.
    destruct (analysed_table query s s' Hb Hd Hs Ha) as [conns' [cells' [Ec' [Hcne [HRne [Hm0 [Ecells' [[_ [_ Hcs]] _]]]]]]]].
    rewrite Ec in Ec'. injection Ec' as <-.
    assert (m = max_connections conns) as Em.
    { apply Nat.le_antisymm.
      - destruct Hm2 as [a0 [c0 <-]]. apply in_max_connections.
      - destruct (max_connections_reached conns Hm0) as [a0 [c0 <-]]. apply Hm1. }
    subst m. destruct (cells_props (st_basis s) (max_connections conns) Hb Hd cells Ecells) as [_ [Hclen Hneg]].
    unfold allowed in Hax |- *. rewrite Hcs. eapply among_first_ext; [|exact Hax]. intro y.
    apply occurs_sym; auto; apply HR, nth_In; auto.
Qed.

(** A lattice with one site: the padding is taken for a nearest neighbour, which does not exist. *)
Theorem C92_single_site_refuted :
  exists l d, build brute dist_argsort [1]%Q (new_lattice one_atom) (ASize [0]%Q) false None true None None None = (l, Ok tt) /\
    lt_data l = Some d /\ d_indices d = [[0; 0]]%Z /\ neighbors l 0 None false = Some [] /\ neighbors l 0 (Some 0) false = Some [1] /\
    loop_matrix 0%Z d 2%Z 1%Z = None /\
    let m := fst (data_map nat_argsort d) in
    option_map toarray (build_csr Z.add 0%Z m (assign_all m (dm_zeros 0%Z m) [Onsite None 2; Hopping (Some 0) 1]%Z) None) = Some [[2]]%Z.
Proof. eexists. eexists. split; [vm_compute; reflexivity|]. split; [reflexivity|]. vm_compute. repeat split. Qed.

(** The alternating chain of [C71_example] with three sites: the atoms A and B have different energies. *)
Example C92_built_example :
  exists l' dt, build brute dist_argsort [] (mkLattice (fst (analyze brute ab_chain)) None None None [] None) (ASize [1]%Q) false None true None None None = (l', Ok tt) /\
    lt_data l' = Some dt /\ d_indices dt = ab_indices /\
    let m := fst (data_map nat_argsort dt) in
    option_map toarray (build_csr Z.add 0%Z m (assign_all m (dm_zeros 0%Z m) [Onsite (Some 0) 3; Onsite (Some 1) 5; Hopping None 1]%Z) None) =
      Some [[3; 1; 0]; [1; 5; 1]; [0; 1; 3]]%Z.
Proof.
  destruct C91_built_example as (m & cells & l' & dt & _ & Eb & Edt & EI & _).
  exists l', dt. split; [exact Eb|]. split; [exact Edt|]. split; [exact EI|].
  revert Eb Edt. clear. intros Eb Edt.
  assert (option_map (fun d => let m := fst (data_map nat_argsort d) in
    option_map toarray (build_csr Z.add 0%Z m (assign_all m (dm_zeros 0%Z m) [Onsite (Some 0) 3; Onsite (Some 1) 5; Hopping None 1]%Z) None))
    (lt_data (fst (build brute dist_argsort [] (mkLattice (fst (analyze brute ab_chain)) None None None [] None) (ASize [1]%Q) false None true None None None))) =
    Some (Some [[3; 1; 0]; [1; 5; 1]; [0; 1; 3]]%Z)) as H by (vm_compute; reflexivity).
  rewrite Eb in H. cbn [fst] in H. rewrite Edt in H. cbn [option_map] in H. injection H as H. exact H.
Qed.

Print Assumptions C92_fresh_after_build.
Print Assumptions C92_built.
Print Assumptions C92_single_site_refuted.
