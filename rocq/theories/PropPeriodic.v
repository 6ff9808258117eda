(** * Properties of lattpy/lattice.py: periodic neighbours (C58) *)
From Coq Require Import String List ZArith QArith Bool Arith Lia Permutation Sorting.Sorted.
From Verif Require Import Np NpFacts LinAlg LinFacts SpecUtils UtilsModel UtilsProofs SpecBasis AtomModel BasisModel BasisProofs
  NeighborCellProofs PropBasis SpatialModel SpecSpatial KDProofs SpecStructure StructureModel KDBrute RoundFacts StructureFacts
  DataModel SpecData DataFacts DataProofs PropData
  AnalyzeProofs StructureProofs PropStructure PropAnalyze FilterProofs SpecNeighbors NeighborProofs RadiusProofs PropNeighbors
  LatticeModel SpecLattice LatticeFacts LatticeExamples TranslationFacts ImageProofs PropMinDist PNeighborProofs.
Import ListNotations.
Open Scope nat_scope.
Open Scope list_scope.

Lemma finish_existing d pd pd' k v : finish d pd = Some pd' -> In (k, v) pd -> exists ex, DataModel.get_neighbors d k None None false = Some ex.
Proof.
  revert pd'. induction pd as [|[k0 v0] pd IH]; intros pd' H; [intros []|]. cbn in H.
  destruct (DataModel.get_neighbors d k0 None None false) as [ex|] eqn:E; [|discriminate]. destruct (finish d pd) as [r|]; [|discriminate].
  intros [Ek|Hin]; [injection Ek as -> ->; eauto|eauto].
Qed.

(** [image n i j x]: site [i] translated by [n] has the distance [x] from site [j], one of the distances of the
    connections of the two atoms.  [regular i j]: [j] is a neighbour of [i] already. *)
Theorem C58_periodic_neighbors :
  forall query argsort s s' conns an dat prim axes items r pd,
    correct_tree query -> is_argsort dleb argsort ->
    valid_basis (st_basis s) -> 1 <= b_dim (st_basis s) -> in_step s ->
    st_connections s = Some conns -> analyze query s = (s', Ok tt) -> st_analysis s' = Some an -> query_radius an = Some r ->
    let d := b_dim (st_basis s) in
    let V := b_mat (st_basis s) in
    let R := st_positions s in
    let I := d_indices dat in
    let P := d_positions dat in
    (* the sites *)
    I <> [] -> length I = length P -> (forall p, In p P -> length p = d) ->
    (forall i, In i I -> 0 <= last i 0 < Z.of_nat (length R))%Z ->
    (* the periodic axes *)
    (forall a, In a axes -> a < d) -> periodic_translation_vectors (st_basis s) prim I axes = Some items ->
    compute_pneighbors query argsort (st_basis s) an prim axes dat = Some pd ->
    let regular i j := exists l, DataModel.get_neighbors dat i None None false = Some l /\ In j l in
    exists m cells,
      (forall a c, nth c (nth a conns []) 0 <= m) /\ (exists a c, nth c (nth a conns []) 0 = m) /\
      get_neighbor_cells (st_basis s) (2 * m) true Qle_bool = Some cells /\
      let image := image_sites d V (fun a c => among_first (nth c (nth a conns []) 0) (occurs d V R cells a c)) I P in
      NoDup (map fst pd) /\
      (forall i l, In (i, l) pd -> NoDup (map pn_idx l) /\
        forall j, In j (map pn_idx l) -> ~ regular i j /\ exists ax n x, translation_of items ax n /\ image n i j x) /\
      (* a site that is not a neighbour already is listed for every translation, if enough neighbours are asked for *)
      (forall i j ax n x, In (ax, n) items -> image n i j x ->
        (forall p, In p P -> at_most (query_count an) (within P (lattice_point d V p n) (r * r)%Q)) ->
        (forall a c y, a < length R -> c < length R -> occurs d V R cells a c y -> dleb (Fin 6) y = true) ->
        (~ regular i j -> exists l, In (i, l) pd /\ In j (map pn_idx l)) /\
        (~ regular j i -> exists l, In (j, l) pd /\ In i (map pn_idx l))) /\
      (* if the translations bring no neighbours together, the entries belong to the listed sites *)
      ((forall i j ax n x, regular i j -> translation_of items ax n -> ~ image n i j x) ->
       forall i l e, In (i, l) pd -> In e l ->
         image (pn_nvec e) i (pn_idx e) (pn_dist e) /\ translation_of items (pn_axes e) (pn_nvec e) /\
         (pn_idx e <> i -> exists l' e', In (pn_idx e, l') pd /\ In e' l' /\ pn_idx e' = i /\ pn_dist e' = pn_dist e /\
            pn_nvec e' = map Z.opp (pn_nvec e) /\ pn_axes e' = pn_axes e)).
Proof.
  intros query argsort s s' conns an dat prim axes items r pd Hq Harg Hb Hd Hs Ec0 Ha Ean Hr d V R I P HI Hlen HP Hat Hax Hit Hpd regular.
  destruct (analysed_table query s s' Hb Hd Hs Ha) as [conns' [cells [Ec [Hcne [HRne [Hm0 [Ecells [[Hcl [Hcr Hcs]] [HR Es]]]]]]]]].
  rewrite Ec0 in Ec. injection Ec as <-. fold R in HRne, HR, Es, Hcl, Hcr, Hcs. fold d in HR.
  rewrite Es in Ean. cbn in Ean. injection Ean as Ean.
  destruct (cells_props (st_basis s) (max_connections conns) Hb Hd cells Ecells) as [_ [Hclen Hneg]]. fold d in Hclen.
  exists (max_connections conns), cells.
  split; [exact (in_max_connections conns)|]. split; [exact (max_connections_reached conns Hm0)|]. split; auto.
  cbv zeta. set (allowed := fun a c => among_first (nth c (nth a conns []) 0) (occurs d V R cells a c)).
  assert (forall a c x, In x (nth c (nth a (an_distmat an) []) []) <-> a < length R /\ c < length R /\ allowed a c x) as HD.
  { intros a c x. rewrite <- Ean. exact (In_distmat query (st_basis s) R cells conns Hq Hb Hd HR Ecells a c x). }
  assert (length (an_distmat an) = length R) as LD by (rewrite <- Ean; apply distmat_length).
  assert (forall a c x, a < length R -> c < length R -> allowed a c x -> allowed c a x) as Hal.
  { intros a c x La Lc H. unfold allowed in *. rewrite Hcs. eapply among_first_ext; [|exact H]. intro y. apply occurs_sym; auto; apply HR, nth_In; auto. }
  set (image := image_sites d V allowed I P).
  set (imageD := image_sites d V (fun a c x => In x (nth c (nth a (an_distmat an) []) [])) I P).
  assert (forall i, i < length P -> Z.to_nat (last (nth i I []) 0%Z) < length R) as Hrange.
  { intros i Hi. assert (In (nth i I []) I) as Hin by (apply nth_In; lia). specialize (Hat _ Hin). lia. }
  assert (forall n i j x, imageD n i j x <-> image n i j x) as Him.
  { intros n i j x. split; intros [p [q [z [Hp [Hq' [Ex [Hz Hall]]]]]]]; exists p, q, z; (split; [auto|split; [auto|split; [auto|split; [auto|]]]]).
    - apply HD in Hall. tauto.
    - apply HD. split; [apply Hrange; eapply nth_error_length_lt; eauto|]. split; [apply Hrange; eapply nth_error_length_lt; eauto|auto]. }
  destruct (items_exist (st_basis s) prim I axes HI Hb Hax) as [items' [Hit' Hlv]]. rewrite Hit in Hit'. injection Hit' as <-.
  pose proof Hb as [Hsq _].
  assert (forall i, In i I -> (0 <= last i 0 < Z.of_nat (length (an_distmat an)))%Z) as Hat' by (rewrite LD; auto).
  assert (forall a c x, In x (nth c (nth a (an_distmat an) []) []) -> In x (nth a (nth c (an_distmat an) []) [])) as HDs.
  { intros a c x H. apply HD in H. apply HD. destruct H as [H1 [H2 H3]]. split; auto. }
  assert (entries_ok (st_basis s) an d I P r [] []) as Hstart.
  { split; [constructor|]. split; [intros i j _; reflexivity|]. split; [intros i e []|intros ax v i j x []]. }
  destruct (collect_ok query argsort (st_basis s) an d I P r Hq Harg Hlen eq_refl Hsq HP Hat' Hr HDs items [] [] Hlv Hstart) as [raw [Eraw Hok]].
  cbn [app] in Hok. destruct Hok as [K1 [K2 [K3 K4]]].
  unfold compute_pneighbors in Hpd. fold I in Hpd. fold P in Hpd. rewrite Hit in Hpd. unfold vec in Hpd, Eraw. rewrite Eraw in Hpd.
  destruct (finish_spec dat raw pd Hpd K1) as [F1 F2].
  split; [exact F1|]. split; [|split].
  - intros i l Hl. destruct (F2 i) as [A _]. destruct (A l Hl) as [ex [Eex ->]].
    destruct (finish_site_spec ex (pd_get raw i)) as [S1 [S2 _]]. split; auto. intros j Hj. apply S2 in Hj. destruct Hj as [Hj Hn].
    split. { intros [ex' [Eex' Hin]]. rewrite Eex in Eex'. injection Eex' as <-. auto. }
    apply in_map_iff in Hj. destruct Hj as [e [<- He]]. destruct (K3 i e He) as [B1 B2]. exists (pn_axes e), (pn_nvec e), (pn_dist e).
    split; auto. apply Him. exact B1.
  - intros i j ax n x Hin Himg Hroom Hsep.
    pose proof (radius_spec query (st_basis s) R cells conns Hq Hb Hd HR Ecells r) as Hrad. rewrite Ean in Hrad. specialize (Hrad Hr Hsep).
    destruct Hrad as [Hr0 Hreach].
    destruct (K4 ax n i j x Hin) as [B1 B2].
    { split; auto. split; auto. intros a c z H. split; [|eapply Hreach; eauto]. apply HD in H. destruct H as [H1 [H2 H3]].
      destruct H3 as [L [_ [HL [i0 [_ Ei0]]]]]. intros ->.
      assert (occurs d V R cells a c (Fin 0)) as Ho by (apply HL; eapply nth_error_In; eauto).
      specialize (Hsep a c _ H1 H2 Ho). discriminate. }
    { apply Him. auto. }
    assert (forall i j e, pn_idx e = j -> In e (pd_get raw i) -> ~ regular i j -> exists l, In (i, l) pd /\ In j (map pn_idx l)) as Hlisted.
    { clear -F2 Hpd K1. intros i j e Ej He Hn.
      assert (exists ex, DataModel.get_neighbors dat i None None false = Some ex) as [ex Eex].
      { eapply finish_existing; [exact Hpd|]. eapply pd_get_nonempty; eauto. }
      destruct (F2 i) as [_ B]. specialize (B ex Eex). destruct (finish_site_spec ex (pd_get raw i)) as [_ [S2 _]].
      assert (In j (map pn_idx (finish_site ex (pd_get raw i)))) as Hj.
      { apply S2. split; [rewrite <- Ej; apply in_map; auto|]. intro Hin. apply Hn. exists ex. auto. }
      rewrite <- B in Hj. exists (pd_get pd i). split; auto.
      apply in_map_iff in Hj. destruct Hj as [e' [_ He']]. eapply pd_get_nonempty; eauto. }
    split; intro Hn; [eapply (Hlisted i j (mkPN j x n ax))|eapply (Hlisted j i (mkPN i x (neg n) ax))]; auto.
  - intros Hno i l e Hl He.
    assert (forall k e, In e (pd_get raw k) -> ~ regular k (pn_idx e)) as Hnr.
    { intros k e0 He0 Hreg. destruct (K3 k e0 He0) as [B1 B2]. eapply Hno; eauto. apply Him. exact B1. }
    assert (forall k l e, In (k, l) pd -> In e l -> exists rest, filter (to (pn_idx e)) (pd_get raw k) = e :: rest) as Hfirst.
    { intros k l0 e0 Hl0 He0. destruct (F2 k) as [A _]. destruct (A l0 Hl0) as [ex [Eex ->]].
      destruct (finish_site_spec ex (pd_get raw k)) as [_ [_ S3]]. apply S3; auto.
      intros e1 He1 Hin. apply (Hnr k e1 He1). exists ex. auto. }
    destruct (Hfirst i l e Hl He) as [rest Hrest].
    assert (In e (pd_get raw i)) as Hin. { assert (In e (filter (to (pn_idx e)) (pd_get raw i))) as H by (rewrite Hrest; left; auto). apply filter_In in H. tauto. }
    destruct (K3 i e Hin) as [B1 B2]. split; [apply Him; exact B1|]. split; auto.
    intro Hne. pose proof (K2 i (pn_idx e) ltac:(congruence)) as Hmir. rewrite Hrest in Hmir. cbn [map] in Hmir.
    set (j := pn_idx e) in *.
    assert (In (swap i e) (pd_get raw j)) as Hsw. { assert (In (swap i e) (filter (to i) (pd_get raw j))) as H by (rewrite Hmir; left; auto). apply filter_In in H. tauto. }
    assert (exists ex, DataModel.get_neighbors dat j None None false = Some ex) as [ex Eex].
    { eapply finish_existing; [exact Hpd|]. eapply pd_get_nonempty; eauto. }
    destruct (F2 j) as [_ B]. specialize (B ex Eex). destruct (finish_site_spec ex (pd_get raw j)) as [_ [S2 _]].
    assert (In i (map pn_idx (finish_site ex (pd_get raw j)))) as Hj.
    { apply S2. split; [change i with (pn_idx (swap i e)); apply in_map; auto|]. intro Hx. apply (Hnr j (swap i e) Hsw). exists ex. auto. }
    rewrite <- B in Hj. apply in_map_iff in Hj. destruct Hj as [e' [Ee' He']].
    exists (pd_get pd j), e'. assert (In (j, pd_get pd j) pd) as Hjl by (eapply pd_get_nonempty; eauto).
    split; auto. split; auto. split; auto. destruct (Hfirst j (pd_get pd j) e' Hjl He') as [rest' Hrest']. rewrite Ee', Hmir in Hrest'.
    injection Hrest' as <- _. cbn. auto.
Qed.

(** The computation succeeds on well-formed data. *)
Theorem C58_succeeds :
  forall query argsort s s' conns an dat prim axes r,
    correct_tree query -> is_argsort dleb argsort ->
    valid_basis (st_basis s) -> 1 <= b_dim (st_basis s) -> in_step s ->
    st_connections s = Some conns -> analyze query s = (s', Ok tt) -> st_analysis s' = Some an -> query_radius an = Some r ->
    let d := b_dim (st_basis s) in
    wf dat -> 0 < nsites dat -> d_dim dat = d ->
    (forall i, In i (d_indices dat) -> 0 <= last i 0 < Z.of_nat (length (st_positions s)))%Z ->
    (forall a, In a axes -> a < d) ->
    exists items pd, periodic_translation_vectors (st_basis s) prim (d_indices dat) axes = Some items /\
      compute_pneighbors query argsort (st_basis s) an prim axes dat = Some pd.
Proof.
  intros query argsort s s' conns an dat prim axes r Hq Harg Hb Hd Hs Ec0 Ha Ean Hr d W H0 Hdim Hat Hax.
  destruct (analysed_table query s s' Hb Hd Hs Ha) as [conns' [cells [Ec [Hcne [HRne [Hm0 [Ecells [[Hcl [Hcr Hcs]] [HR Es]]]]]]]]].
  rewrite Ec0 in Ec. injection Ec as <-. rewrite Es in Ean. cbn in Ean. injection Ean as Ean.
  assert (length (an_distmat an) = length (st_positions s)) as LD by (rewrite <- Ean; apply distmat_length).
  assert (length (d_indices dat) = length (d_positions dat)) as Hlen by (symmetry; exact (proj1 (wf_positions _ W))).
  assert (forall p, In p (d_positions dat) -> length p = d) as HP by (rewrite <- Hdim; exact (proj2 (wf_positions _ W))).
  assert (d_indices dat <> []) as HI by (intro E; unfold nsites in H0; rewrite E in H0; cbn in H0; lia).
  destruct (items_exist (st_basis s) prim (d_indices dat) axes HI Hb Hax) as [items [Hit Hlv]].
  pose proof Hb as [Hsq _].
  assert (forall a c x, In x (nth c (nth a (an_distmat an) []) []) -> In x (nth a (nth c (an_distmat an) []) [])) as HDs.
  { intros a c x H. rewrite <- Ean in H |- *. apply (In_distmat query (st_basis s) (st_positions s) cells conns Hq Hb Hd HR Ecells) in H.
    apply (In_distmat query (st_basis s) (st_positions s) cells conns Hq Hb Hd HR Ecells). destruct H as [H1 [H2 H3]]. split; auto. split; auto.
    rewrite Hcs. eapply among_first_ext; [|exact H3]. destruct (cells_props (st_basis s) (max_connections conns) Hb Hd cells Ecells) as [_ [Hclen Hneg]].
    intro y. apply occurs_sym; auto; apply HR, nth_In; auto. }
  rewrite <- LD in Hat.
  assert (entries_ok (st_basis s) an d (d_indices dat) (d_positions dat) r [] []) as Hstart.
  { split; [constructor|]. split; [intros i j _; reflexivity|]. split; [intros i e []|intros ax v i j x []]. }
  destruct (collect_ok query argsort (st_basis s) an d _ _ r Hq Harg Hlen eq_refl Hsq HP Hat Hr HDs items [] [] Hlv Hstart) as [raw [Eraw _]].
  pose proof (collect_keys query argsort (st_basis s) an d _ _ r Hq Harg Hlen eq_refl Hsq HP Hat Hr items [] raw Hlv ltac:(intros k []) Eraw) as Hkeys.
  destruct (finish_total dat raw) as [pd Epd].
  { intros k Hk. apply Hkeys in Hk. eexists. apply get_neighbors_wf; auto. unfold nsites, vec in *. rewrite Hlen. exact Hk. }
  exists items, pd. split; auto. unfold compute_pneighbors. rewrite Hit. unfold vec in *. rewrite Eraw. exact Epd.
Qed.

(** A check that no translation brings neighbours together. *)
Definition apart_images (d : nat) (V : list (list Q)) (D : list (list (list dist))) (dat : data) (items : list (list nat * list Z)) : bool :=
  let site i := Z.to_nat (last (nth i (d_indices dat) []) 0%Z) in
  let apart n i j :=
    negb (existsb (deqb (Fin (sqrt_micro (sqdist (lattice_point d V (nth i (d_positions dat) []) n) (nth j (d_positions dat) []))))) (nth (site j) (nth (site i) D []) [])) in
  forallb (fun i => match DataModel.get_neighbors dat i None None false with
    | Some l => forallb (fun j => forallb (fun it => apart (snd it) i j && apart (map Z.opp (snd it)) i j) items) l
    | None => true end) (seq 0 (length (d_positions dat))).

Lemma apart_images_checked d V D dat items : apart_images d V D dat items = true ->
  forall i j ax n x l, DataModel.get_neighbors dat i None None false = Some l -> In j l -> translation_of items ax n ->
    ~ image_sites d V (fun a c x => In x (nth c (nth a D []) [])) (d_indices dat) (d_positions dat) n i j x.
Proof.
  unfold apart_images. cbv zeta. intros H i j ax n x l El Hj Ht [p [q [z [Hp [Hq [-> [Hz Ha]]]]]]].
  rewrite forallb_forall in H. specialize (H i ltac:(apply in_seq; split; [lia|exact (nth_error_length_lt _ _ _ Hp)])). rewrite El in H.
  rewrite forallb_forall in H. specialize (H j Hj). rewrite forallb_forall in H.
  assert (forall n', n' = n -> existsb (deqb (Fin (sqrt_micro (sqdist (lattice_point d V (nth i (d_positions dat) []) n') (nth j (d_positions dat) [])))))
    (nth (Z.to_nat (last (nth j (d_indices dat) []) 0%Z)) (nth (Z.to_nat (last (nth i (d_indices dat) []) 0%Z)) D []) []) = true) as Hex.
  { intros n' ->. apply existsb_deqb. rewrite (nth_of_nth_error _ _ _ _ Hp), (nth_of_nth_error _ _ _ _ Hq).
    rewrite <- (rounds_unique _ _ _ _ Hz (sqrt_micro_rounds _ (sqdist_nonneg _ _)) (Qeq_refl _)). exact Ha. }
  destruct Ht as [Ht|Ht]; specialize (H _ Ht); apply andb_true_iff in H; destruct H as [H1 H2]; cbn [snd] in *; apply negb_true_iff in H1, H2.
  - rewrite Hex in H1; auto. discriminate.
  - rewrite Hex in H2; [discriminate|]. apply opp_opp.
Qed.

(** A check that few sites are in range. *)
Lemma at_most_checked k P p r2 :
  length (filter (fun j => Qle_bool (sqdist p (nth j P [])) r2) (seq 0 (length P))) <= k -> at_most k (within P p r2).
Proof.
  intros H L Hnd HL. etransitivity; [|exact H]. apply NoDup_incl_length; auto. intros j Hj. destruct (HL j Hj) as [q [Hq Hle]].
  apply filter_In. split; [apply in_seq; split; [lia|exact (nth_error_length_lt _ _ _ Hq)]|].
  rewrite (nth_of_nth_error _ _ _ _ Hq). apply Qle_bool_iff. auto.
Qed.

(** The square lattice with 3 x 4 sites and open boundaries. *)
Definition grid12 : lattice :=
  Eval vm_compute in fst (build brute dist_argsort [1; 1]%Q (new_lattice square_atom) (ASize [2; 3]%Q) false None true None None None).
Definition grid12_data : data := Eval vm_compute in match lt_data grid12 with Some d => d | None => chain5_data end.
Definition square_analysis : analysis := Eval vm_compute in match st_analysis square_atom with Some an => an | None => analyze_raw [] [] 0 end.
Definition square_calls : list call := [CAddAtom (Some [0; 0]%Q) (ex_atom "A") false 0; CAddConnection (RName "A") (RName "A") 1 false].
Definition square_plain : structure := run_calls brute ex_square square_calls.
Definition square_cells : list (list Z) := Eval vm_compute in match get_neighbor_cells ex_square 2 true Qle_bool with Some c => c | None => [] end.

Example C58_example :
  valid_basis (st_basis square_plain) /\ in_step square_plain /\ st_connections square_plain = Some [[1]] /\
  (exists s', analyze brute square_plain = (s', Ok tt) /\ st_analysis s' = Some square_analysis) /\
  query_radius square_analysis = Some (11000000#10000000)%Q /\
  get_neighbor_cells ex_square 2 true Qle_bool = Some square_cells /\
  (forall p, In p (d_positions grid12_data) -> length p = 2) /\
  (forall i, In i (d_indices grid12_data) -> 0 <= last i 0 < 1)%Z /\
  exists items pd,
    periodic_translation_vectors ex_square false (d_indices grid12_data) [0; 1] = Some items /\
    compute_pneighbors brute dist_argsort ex_square square_analysis false [0; 1] grid12_data = Some pd /\
    (forall i j l ax n x, DataModel.get_neighbors grid12_data i None None false = Some l -> In j l -> translation_of items ax n ->
      ~ image_sites 2 [[1; 0]; [0; 1]]%Q (fun a c => among_first (nth c (nth a [[1]] []) 0) (occurs 2 [[1; 0]; [0; 1]]%Q [[0; 0]]%Q square_cells a c))
          (d_indices grid12_data) (d_positions grid12_data) n i j x) /\
    (forall ax n p, In (ax, n) items -> In p (d_positions grid12_data) ->
      at_most (query_count square_analysis) (within (d_positions grid12_data) (lattice_point 2 [[1; 0]; [0; 1]]%Q p n) ((11000000#10000000) * (11000000#10000000))%Q)) /\
    (forall a c y, a < 1 -> c < 1 -> occurs 2 [[1; 0]; [0; 1]]%Q [[0; 0]]%Q square_cells a c y -> dleb (Fin 6) y = true) /\
    In (0, [mkPN 3 (Fin 1000000) [0; 4]%Z [1; 1]; mkPN 8 (Fin 1000000) [3; 0]%Z [0; 0]]) pd /\
    length pd = 10.
Proof.
  split; [apply inverse2_check; reflexivity|]. split.
  { apply (reachable_in_step brute ex_square). unfold square_plain, run_calls. cbn [fold_left square_calls].
    repeat (apply r_call; [|intro; reflexivity || discriminate]). apply r_new. }
  split; [reflexivity|]. split; [eexists; split; vm_compute; reflexivity|]. split; [vm_compute; reflexivity|]. split; [vm_compute; reflexivity|].
  split; [apply Forall_forall; repeat constructor|]. split; [apply Forall_forall; repeat constructor; cbn; lia|].
  eexists _, _. split; [vm_compute; reflexivity|]. split; [vm_compute; reflexivity|]. split; [|split; [|split; [|split; [cbn; auto|reflexivity]]]].
  2:{ intros ax n p Hn Hp. apply at_most_checked. apply Nat.leb_le. revert p Hp. apply forallb_forall.
      revert ax n Hn. assert (forall L : list (list nat * list Z), forallb (fun it => forallb (fun p =>
        length (filter (fun j => Qle_bool (sqdist (lattice_point 2 [[1; 0]; [0; 1]]%Q p (snd it)) (nth j (d_positions grid12_data) [])) ((11000000#10000000) * (11000000#10000000))%Q)
          (seq 0 (length (d_positions grid12_data)))) <=? query_count square_analysis) (d_positions grid12_data)) L = true ->
        forall ax n, In (ax, n) L -> forallb (fun p =>
        length (filter (fun j => Qle_bool (sqdist (lattice_point 2 [[1; 0]; [0; 1]]%Q p n) (nth j (d_positions grid12_data) [])) ((11000000#10000000) * (11000000#10000000))%Q)
          (seq 0 (length (d_positions grid12_data)))) <=? query_count square_analysis) (d_positions grid12_data) = true) as H.
      { intros L HL ax n Hn. rewrite forallb_forall in HL. exact (HL _ Hn). }
      apply H. vm_compute. reflexivity. }
  2:{ apply (apart_checked 2 [[1; 0]; [0; 1]]%Q [[0; 0]]%Q). vm_compute. reflexivity. }
  intros i j l ax n x El Hj Ht Him.
  revert El Hj Ht. refine (fun El Hj Ht => apart_images_checked 2 [[1; 0]; [0; 1]]%Q (an_distmat square_analysis) grid12_data _ _ i j ax n x l El Hj Ht _); [vm_compute; reflexivity|].
  destruct Him as [p [q [z [Hp [Hq [Ex [Hz Ha]]]]]]]. exists p, q, z. split; auto. split; auto. split; auto. split; auto.
  pose proof (In_distmat brute ex_square [[0; 0]]%Q square_cells [[1]] brute_nearest) as HD.
  assert (analyze_raw (raw_dicts brute ex_square [[0; 0]]%Q (max_connections [[1]]) square_cells) [[1]] 1 = square_analysis) as E by (vm_compute; reflexivity).
  cbn [length] in HD. rewrite E in HD. apply HD.
  - apply inverse2_check; reflexivity.
  - vm_compute. lia.
  - intros r [<-|[]]. reflexivity.
  - vm_compute. reflexivity.
  - assert (forall k, Z.to_nat (last (nth k (d_indices grid12_data) []) 0%Z) = 0) as H0.
    { intro k. destruct (Nat.lt_ge_cases k 12) as [Hk|Hk].
      - do 12 (destruct k as [|k]; [reflexivity|]). lia.
      - rewrite nth_overflow; [reflexivity|]. exact Hk. }
    rewrite !H0 in *. split; [lia|]. split; [lia|]. exact Ha.
Qed.

(** When a neighbour is dropped from the list of sites, its distance, vector and axes are not: in the lattice with
    2 x 4 sites the first and the last site of a column are listed with the vector of the horizontal direction, in both
    directions with the same sign.  Translated by it the site has the squared distance 13 from
    the other one, not 1. *)
Definition strip8 : lattice :=
  Eval vm_compute in fst (build brute dist_argsort [1; 1]%Q (new_lattice square_atom) (ASize [1; 3]%Q) false None true None None None).
Definition strip8_data : data := Eval vm_compute in match lt_data strip8 with Some d => d | None => chain5_data end.

Theorem C58_dropped_refuted :
  exists pd e e',
    compute_pneighbors brute dist_argsort ex_square square_analysis false [0; 1] strip8_data = Some pd /\
    In (0, [e]) pd /\ In (3, [e']) pd /\
    nth 0 (d_positions strip8_data) [] = [0; 0]%Q /\ nth 3 (d_positions strip8_data) [] = [0; 3]%Q /\
    pn_idx e = 3 /\ pn_dist e = Fin 1000000 /\ pn_nvec e = [2; 0]%Z /\
    pn_idx e' = 0 /\ pn_nvec e' = pn_nvec e /\
    (sqdist (lattice_point 2 [[1; 0]; [0; 1]]%Q [0; 0]%Q (pn_nvec e)) [0; 3]%Q == 13)%Q.
Proof.
  eexists _, _, _. split; [vm_compute; reflexivity|]. split; [left; reflexivity|]. split; [right; right; left; reflexivity|].
  repeat (split; [reflexivity|]). reflexivity.
Qed.

(** A site that is its own neighbour has two images at the same distance, of which one is listed. *)
Definition line4 : lattice :=
  Eval vm_compute in fst (build brute dist_argsort [1; 1]%Q (new_lattice square_atom) (ASize [0; 3]%Q) false None true None None None).
Definition line4_data : data := Eval vm_compute in match lt_data line4 with Some d => d | None => chain5_data end.

Theorem C58_own_image_refuted :
  exists pd l items,
    periodic_translation_vectors ex_square false (d_indices line4_data) [0; 1] = Some items /\
    translation_of items [0; 0] [1; 0]%Z /\ translation_of items [0; 0] [-1; 0]%Z /\
    image_sites 2 [[1; 0]; [0; 1]]%Q (fun _ _ x => x = Fin 1000000) (d_indices line4_data) (d_positions line4_data) [1; 0]%Z 1 1 (Fin 1000000) /\
    image_sites 2 [[1; 0]; [0; 1]]%Q (fun _ _ x => x = Fin 1000000) (d_indices line4_data) (d_positions line4_data) [-1; 0]%Z 1 1 (Fin 1000000) /\
    compute_pneighbors brute dist_argsort ex_square square_analysis false [0; 1] line4_data = Some pd /\
    In (1, l) pd /\ l = [mkPN 1 (Fin 1000000) [1; 0]%Z [0; 0]].
Proof.
  eexists _, _, _. split; [vm_compute; reflexivity|]. split; [left; left; reflexivity|]. split; [right; left; reflexivity|].
  split; [|split; [|split; [vm_compute; reflexivity|split; [right; left; reflexivity|reflexivity]]]].
  - exists [0; 1]%Q, [0; 1]%Q, 1000000%Z. repeat (split; [reflexivity|]). split; [|reflexivity].
    exact (sqrt_micro_rounds (sqdist (lattice_point 2 [[1; 0]; [0; 1]]%Q [0; 1]%Q [1; 0]%Z) [0; 1]%Q) (sqdist_nonneg _ _)).
  - exists [0; 1]%Q, [0; 1]%Q, 1000000%Z. repeat (split; [reflexivity|]). split; [|reflexivity].
    exact (sqrt_micro_rounds (sqdist (lattice_point 2 [[1; 0]; [0; 1]]%Q [0; 1]%Q [-1; 0]%Z) [0; 1]%Q) (sqdist_nonneg _ _)).
Qed.

Print Assumptions C58_periodic_neighbors.
Print Assumptions C58_succeeds.
Print Assumptions C58_example.
Print Assumptions C58_dropped_refuted.
Print Assumptions C58_own_image_refuted.
