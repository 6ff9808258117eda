(** * Property C106 (lattpy/lattice.py: build; neighbours up to any distance in lattices with one atom) *)
From Coq Require Import String List ZArith QArith Qabs Bool Arith Lia Lqa Permutation Sorting.Sorted.
From Verif Require Import Np NpFacts LinAlg LinFacts SpecUtils UtilsModel UtilsProofs SpecBasis AtomModel BasisModel BasisProofs
  NeighborCellProofs PropBasis SpatialModel SpecSpatial SpatialProofs KDProofs SpecStructure SpecBuild ShapeModel ShapeProofs PropShape PropSpatial StructureModel KDBrute RoundFacts StructureFacts
  DataModel SpecData DataFacts DataProofs PropData AnalyzeProofs StructureProofs PropStructure PropAnalyze FilterProofs SpecNeighbors
  NeighborProofs RadiusProofs RangeProofs PropNeighbors BuiltProofs BuildProofs PropBuild LatticeModel LatticeExamples PropFailed SpecGrid GridProofs
  PropBuilt PropReciprocal PresetModel PropPreset PropPrimitive PropGrid SpecShell ShellProofs PropShell PropForm.
Import ListNotations.
Open Scope nat_scope.
Open Scope list_scope.

Lemma two_sites d V r n m : length r = d -> length n = d -> length m = d ->
  (sqdist (lattice_point d V r n) (lattice_point d V r m) == cell_sq d V (map2 Z.sub m n))%Q.
Proof.
  intros Hr Hn Hm. unfold sqdist, cell_sq. rewrite lattice_point_length. apply sum_ext. intros i Hi. rewrite !nth_lattice_point by auto. cbv zeta.
  assert (sum_upto d (fun k => entry V i k * inject_Z (nth k (map2 Z.sub m n) 0%Z)) ==
          sum_upto d (fun k => entry V i k * inject_Z (nth k m 0%Z)) + -(1) * sum_upto d (fun k => entry V i k * inject_Z (nth k n 0%Z)))%Q as ->; [|ring].
  rewrite <- sum_scale, <- sum_plus. apply sum_ext. intros k Hk. rewrite nth_zsub by lia. unfold Z.sub. rewrite inject_Z_plus, inject_Z_opp. ring.
Qed.

Lemma cell_sq_inj b n : valid_basis b -> length n = b_dim b -> (cell_sq (b_dim b) (b_mat b) n == 0)%Q -> n = repeat 0%Z (b_dim b).
Proof.
  intros Hb Hn E. set (d := b_dim b) in *. apply (point_injective b (repeat 0%Q d)); auto using repeat_length. fold d.
  intros i Hi. symmetry. apply sqdist_zero; [rewrite !lattice_point_length; auto|].
  rewrite two_sites by auto using repeat_length. fold d. rewrite <- E. unfold cell_sq. apply sum_ext. intros j Hj. cbv zeta.
  assert (forall g h, (g == h -> g * g == h * h)%Q) as Hsq by (intros g h ->; reflexivity). apply Hsq. apply sum_ext. intros k Hk.
  rewrite nth_zsub by (rewrite repeat_length; auto). rewrite nth_repeat, Z.sub_0_r. reflexivity.
Qed.

(** One atom and [k] distances.  [v1] and [vk] are the smallest and the [k]-th value of the form.  However the sites are
    selected, two of them are neighbours exactly if the form of the difference of their cells is at most [vk], at the rounded
    distance -- if no other length lies below the search radius, the [k]-th distance plus a tenth of the first one. *)
Theorem C106_built :
  forall query argsort norms s s' l sh primitive pos check callback I P r0 k f e c u v1 vk,
    correct_tree query -> is_argsort dleb argsort ->
    valid_basis (st_basis s) -> 1 <= b_dim (st_basis s) -> in_step s -> 1 <= k <= 255 ->
    st_positions s = [r0] -> st_connections s = Some [[k]] -> analyze query s = (s', Ok tt) -> lt_structure l = s' ->
    let d := b_dim (st_basis s) in
    let V := b_mat (st_basis s) in
    (* the form *)
    (0 < c)%Z -> length u = d -> (forall j, f (map (Z.mul j) u) = c * (j * j))%Z ->
    (forall n, length n = d -> (cell_sq d V n == e * inject_Z (f n))%Q) ->
    (forall n x, length n = d -> f n <= c * (Z.of_nat k * Z.of_nat k) -> In x n -> Z.abs x <= 2 * Z.of_nat k + 1)%Z ->
    (4 * inject_Z (c * (Z.of_nat k * Z.of_nat k)) + 2 <= e * 1000000000000)%Q ->
    (* the distances *)
    ranked (values d f) 0 v1 -> ranked (values d f) (k - 1) vk ->
    (forall z, rounds_to_micro (e * inject_Z v1)%Q z -> (6 <= z)%Z) ->
    (forall w z1 zk, values d f w -> (vk < w)%Z -> rounds_to_micro (e * inject_Z v1)%Q z1 -> rounds_to_micro (e * inject_Z vk)%Q zk ->
       let r := ((inject_Z zk + (1#10) * inject_Z z1) * (1#1000000))%Q in (r * r < e * inject_Z w)%Q) ->
    (* the sites *)
    (primitive = true -> length norms = d) -> fitting d sh primitive pos ->
    build_indices (st_basis s) norms [r0] (AShape (build_shape (st_basis s) sh primitive pos)) primitive pos check callback = Ok (I, P) ->
    I <> [] ->
    exists l' dt, build query argsort norms l sh primitive pos check None None callback = (l', Ok tt) /\
      lt_structure l' = s' /\ lt_data l' = Some dt /\ wf dt /\ d_indices dt = I /\ d_positions dt = P /\
      forall i n, nth_error I i = Some (n ++ [0%Z]) -> NoDup (map fst (links dt i)) /\
        forall j x, In (j, x) (links dt i) <->
          exists m z, nth_error I j = Some (m ++ [0%Z]) /\ (0 < f (map2 Z.sub m n) <= vk)%Z /\
            rounds_to_micro (e * inject_Z (f (map2 Z.sub m n)))%Q z /\ x = Fin z.
Proof.
  intros query argsort norms s s' l sh primitive pos check callback I P r0 k f e c u v1 vk Hq Harg Hb Hd Hs Hk ER Ec Han El d V
    Hc Hu Hax Hf Hbox HE Hv1 Hvk H6 Hgap Hnorms Hfit EI HI.
  assert (length r0 = d) as Hr0 by (destruct Hs as [_ [Hs _]]; apply Hs; rewrite ER; left; auto).
  set (B := (c * (Z.of_nat k * Z.of_nat k))%Z) in *. assert (0 <= B)%Z as HB by (unfold B; nia).
  assert (0 < e)%Q as He by (rewrite Zle_Qle in HB; change (inject_Z 0) with 0%Q in HB; lra).
  assert (forall n, length n = d -> 0 <= f n)%Z as Hpos by (intros n Hn; exact (form_nonneg d V r0 f e Hr0 He Hf n Hn)).
  assert (forall i v, i < k -> ranked (values d f) i v -> (0 < v <= B)%Z) as Hrank.
  { intros i v Hi Hr. pose proof (axis_bound d f c u i v Hc Hu Hax Hr) as H. destruct Hr as [[Hv [n [Hn En]]] _]. pose proof (Hpos n Hn).
    split; [lia|]. unfold B. pose proof (square_le c (S i) k Hc ltac:(lia)). lia. }
  assert (forall v z z', v = 0%Z \/ (exists i, i < k /\ ranked (values d f) i v) ->
    rounds_to_micro (e * inject_Z v)%Q z -> rounds_to_micro (e * inject_Z (v + 1))%Q z' -> (z < z')%Z) as Hsep.
  { intros v z z' Hv. apply (rounds_step e v z z' B); auto. destruct Hv as [->|[i [Hi Hr]]]; [lia|]. apply Hrank in Hr; auto. lia. }
  assert (forall n i, length n = d -> i < k -> ranked (values d f) i (f n) -> forall x, In x n -> (Z.abs x <= 2 * Z.of_nat k + 1)%Z) as Hbox'.
  { intros n i Hn Hi Hr x Hx. apply (Hbox n x); auto. eapply Hrank; eauto. }
  assert (1 <= k) as Hk1 by lia.
  (* the first k values *)
  assert (forall v, (exists i, i < k /\ ranked (values d f) i v) <-> values d f v /\ (v <= vk)%Z) as Hfirstk.
  { intro v. split.
    - intros [i [Hi Hr]]. pose proof Hr as [Hv _]. split; auto. apply Znot_gt_le. intro G.
      destruct (ranked_filter _ i v vk Hr (proj1 Hvk) ltac:(lia)) as [j [Hj Hrj]]. pose proof (ranked_unique _ _ _ _ Hvk Hrj). lia.
    - intros [Hv Hle]. destruct (Z.eq_dec v vk) as [->|Hne]; [exists (k - 1); split; [lia|auto]|].
      destruct (ranked_filter _ (k - 1) vk v Hvk Hv ltac:(lia)) as [j [Hj Hrj]]. exists j. split; [lia|auto]. }
  assert (0 < v1 /\ 0 < vk)%Z as [Hv1p Hvkp] by (split; [apply (Hrank 0 v1) in Hv1|apply (Hrank (k - 1) vk) in Hvk]; lia).
  assert (forall v, values d f v -> (v1 <= v)%Z) as Hleast.
  { intros v Hv. apply Znot_gt_le. intro G. destruct (ranked_filter _ 0 v1 v Hv1 Hv ltac:(lia)) as [j [Hj _]]. lia. }
  assert (forall v w, (0 <= v)%Z -> (v <= w)%Z -> (root e v <= root e w)%Z) as Rmono by exact (root_mono d r0 e Hr0 He).
  assert (root e 0 = 0%Z) as R0 by exact (root_zero d r0 e Hr0 He).
  assert (forall v w, values d f v -> (v <= vk)%Z -> (v < w)%Z -> (root e v < root e w)%Z) as Rlt.
  { intros v w Hv Hle Hlt. apply (root_lt d r0 f e k Hr0 He Hsep); auto; [destruct Hv as [_ [n [Hn <-]]]; auto|]. right. apply Hfirstk. auto. }
  assert (forall v, (0 <= v)%Z -> rounds_to_micro (e * inject_Z v)%Q (root e v)) as Rr by (intros; apply root_rounds; auto).
  (* the analysis *)
  assert (exists an, st_analysis s' = Some an) as [an Ean].
  { destruct (analysed_table query s s' Hb Hd Hs Han) as [conns' [cells [_ [_ [_ [_ [_ [_ [_ Es]]]]]]]]]. rewrite Es. cbn. eauto. }
  destruct (C70_search_range query s s' [[k]] an Hq Hb Hd Hs Ec Han Ean) as [m [cells [Hm1 [Hm2 [Ecells [Hrad [Hdef [found [Hf1 [Hf2 Hf3]]]]]]]]]].
  rewrite ER in Hrad, Hdef, Hf3. fold d V in Hrad, Hdef, Hf3.
  assert (m = k) as ->.
  { destruct Hm2 as [x [y E]]. specialize (Hm1 0 0). cbn in Hm1. destruct x as [|[|x]], y as [|[|y]]; cbn in E; lia. }
  pose proof (form_true d V r0 f e k Hr0 He Hf Hsep Hk1) as Htrue.
  assert (forall n i, length n = d -> i < k -> ranked (values d f) i (f n) -> In n cells) as Hcells.
  { intros n i Hn Hi Hr. apply (reach_cells (st_basis s) k cells Hb Hd Ecells). fold d V. eapply (form_reach d V r0 f e k Hr0 He Hf Hsep Hk1 Hbox' n (root e (f n))).
    apply (proj2 (Htrue n (root e (f n)))). split; auto. split; auto. eauto. }
  assert (forall r, In r [r0] -> length r = d) as HRl by (intros r' [<-|[]]; auto).
  assert (forall x, among_first k (occurs d V [r0] cells 0 0) x <-> exists v, values d f v /\ (v <= vk)%Z /\ x = Fin (root e v)) as Hfirst.
  { assert (forall n z i, away d V [r0] 0 0 n z -> i < k -> ranked (distance_between d V [r0] 0 0) i z -> In n cells) as Hin.
    { intros n z i H1 H2 H3. assert (true_neighbor d V [r0] [[k]] 0 0 n z) as Ht by (split; auto; exists i; auto).
      apply Htrue in Ht. destruct Ht as [Hn [_ [i' [Hi' Hr']]]]. eapply Hcells; eauto. }
    pose proof (first_distances query (st_basis s) [r0] k Hq Hb Hd HRl cells Ecells 0 0 k ltac:(cbn; lia) ltac:(cbn; lia) Hin) as F. fold d V in F.
    assert (forall x, among_first k (occurs d V [r0] cells 0 0) x -> exists z, x = Fin z) as Hfin.
    { intros x [L [_ [HL [i [_ Ei]]]]]. apply nth_error_In, HL in Ei. destruct Ei as [_ [n [_ [z [-> _]]]]]. eauto. }
    intro x. split.
    - intro H. destruct (Hfin x H) as [z ->]. apply F in H. destruct H as [i [Hi Hr]]. pose proof Hr as [Hbt _].
      apply (form_between d V r0 f e k Hr0 He Hf Hsep Hk1) in Hbt. destruct Hbt as [v [Hv ->]]. exists v. split; auto. split; auto.
      apply (Hfirstk v). exists i. split; auto. eapply form_rank_down; eauto.
    - intros [v [Hv [Hle ->]]]. apply F. destruct (proj2 (Hfirstk v) (conj Hv Hle)) as [i [Hi Hr]]. exists i. split; auto. eapply form_rank_up; eauto. }
  assert (forall x, occurs d V [r0] cells 0 0 x -> exists v, values d f v /\ x = Fin (root e v)) as Hocc.
  { intros x [Hx [n [Hn [z [-> Hz]]]]]. cbn [nth] in Hz.
    assert (length n = d) as Hnl by (apply (cell_length (st_basis s) k Hb Hd cells Ecells); auto).
    assert (z = root e (f n)) as -> by (apply (proj1 (form_away d V r0 f e Hr0 He Hf n z)); split; auto).
    exists (f n). split; auto. split; [|eauto]. intro E0. apply Hx. rewrite E0, R0. reflexivity. }
  assert (forall v, values d f v -> (v <= vk)%Z -> occurs d V [r0] cells 0 0 (Fin (root e v))) as Hocc'.
  { intros v Hv Hle. destruct (proj2 (Hfirst (Fin (root e v))) (ex_intro _ v (conj Hv (conj Hle eq_refl)))) as [L [_ [HL [i [_ Ei]]]]].
    apply HL. eapply nth_error_In; eauto. }
  (* the first k values as a list *)
  assert (exists Lk, NoDup Lk /\ length Lk = k /\ forall v, In v Lk <-> values d f v /\ (v <= vk)%Z) as [Lk [Lk1 [Lk2 Lk3]]].
  { pose proof Hvk as [Hvv [L [N1 [N2 N3]]]]. exists (vk :: L). split; [|split; [cbn; lia|]].
    - constructor; auto. intro H. apply N2 in H. lia.
    - intro v. cbn. rewrite N2. split; [intros [<-|[H1 H2]]; split; auto; lia|]. intros [H1 H2]. destruct (Z.eq_dec vk v); [left; auto|right; split; auto; lia]. }
  (* the radius *)
  destruct (query_radius an) as [r|] eqn:Er.
  2:{ exfalso. apply Hdef; auto. intros [|x] [|y] Hx Hy; cbn in Hx, Hy; try lia. exists (map (fun v => Fin (root e v)) Lk). split; [|split].
      - apply NoDup_map_in; auto. intros a b Ha Hb' E. injection E as E. apply Lk3 in Ha. apply Lk3 in Hb'. destruct Ha as [A1 A2], Hb' as [B1 B2].
        destruct (Z.lt_trichotomy a b) as [C|[C|C]]; auto; [pose proof (Rlt a b A1 A2 C)|pose proof (Rlt b a B1 B2 C)]; lia.
      - rewrite map_length. auto.
      - intros x Hx'. apply in_map_iff in Hx'. destruct Hx' as [v [<- Hv]]. apply Lk3 in Hv. apply Hocc'; apply Hv. }
  assert (forall w, values d f w -> (vk < w)%Z -> (r * r < e * inject_Z w)%Q) as Hr.
  { intros w Hw Hlt. destruct (Hrad r eq_refl) as [mx [mn [E [Hmx [Hmx' [Hmn Hmn']]]]]].
    assert (mx = root e vk) as ->.
    { pose proof (Hmx' 0 0 (root e vk) ltac:(cbn; lia) ltac:(cbn; lia)) as X. cbn [nth] in X.
      assert (root e vk <= mx)%Z as X1 by (apply X, Hfirst; exists vk; split; [apply Hvk|split; [lia|auto]]).
      destruct Hmx as [->|[x [y [Hx [Hy Hxy]]]]].
      - assert (root e 0 <= root e vk)%Z as X2 by (apply Rmono; lia). rewrite R0 in X2. lia.
      - destruct x as [|x], y as [|y]; cbn in Hx, Hy; try lia. cbn [nth] in Hxy. apply Hfirst in Hxy. destruct Hxy as [v [Hv [Hle Ev]]]. injection Ev as ->.
        assert (root e v <= root e vk)%Z by (apply Rmono; auto; destruct Hv as [_ [n [Hn <-]]]; auto). lia. }
    assert (mn = root e v1) as ->.
    { assert (mn <= root e v1)%Z as X1 by (apply (Hmn' 0 0); [cbn; lia|cbn; lia|apply Hocc'; [apply Hv1|apply Hleast, Hvk]]).
      destruct Hmn as [x [y [Hx [Hy Hxy]]]]. destruct x as [|x], y as [|y]; cbn in Hx, Hy; try lia. apply Hocc in Hxy. destruct Hxy as [v [Hv Ev]]. injection Ev as ->.
      assert (root e v1 <= root e v)%Z by (apply Rmono; auto; lia). lia. }
    pose proof (Hgap w (root e v1) (root e vk) Hw Hlt ltac:(apply Rr; lia) ltac:(apply Rr; lia)) as G. cbv zeta in G.
    rewrite E. exact G. }
  (* the sites *)
  destruct (C31_indices_and_positions_aligned _ _ _ _ _ _ _ _ _ _ Hb Hnorms HRl EI) as [Hlen [Hal _]]. fold d V in Hal.
  assert (forall i, i < length P -> exists n p, nth_error I i = Some (n ++ [0%Z]) /\ nth_error P i = Some p /\ length n = d /\
            same p (lattice_point d V r0 n)) as Hsite.
  { intros i Hi. destruct (nth_error_lt I i) as [t Ht]; [lia|]. destruct (nth_error_lt P i) as [p Hp]; [lia|].
    destruct (Hal i t p Ht Hp) as [n [[|[|a]] [r' [-> [Hn [Hr' Hsame]]]]]]; cbn in Hr'; try discriminate.
    injection Hr' as <-. exists n, p. auto. }
  assert (forall i n p, nth_error I i = Some (n ++ [0%Z]) -> nth_error P i = Some p -> length n = d /\ same p (lattice_point d V r0 n)) as Hsite'.
  { intros i n p Hi Hp. destruct (Hsite i (nth_error_length_lt _ _ _ Hp)) as [n' [p' [E1 [E2 [H1 H2]]]]]. rewrite Hi in E1. rewrite Hp in E2.
    injection E1 as E1. injection E2 as <-. apply app_inj_tail in E1. destruct E1 as [<- _]. auto. }
  assert (forall i j n m p q, nth_error I i = Some (n ++ [0%Z]) -> nth_error I j = Some (m ++ [0%Z]) -> nth_error P i = Some p -> nth_error P j = Some q ->
            length (map2 Z.sub m n) = d /\ (sqdist p q == e * inject_Z (f (map2 Z.sub m n)))%Q) as Hsq.
  { intros i j n m p q Hi Hj Hp Hq'. destruct (Hsite' i n p Hi Hp) as [Hn S1], (Hsite' j m q Hj Hq') as [Hm S2].
    assert (length (map2 Z.sub m n) = d) as Hl by (rewrite map2_length; lia). split; auto.
    rewrite (sqdist_veq p q _ _ (proj1 (same_veq _ _) S1) (proj1 (same_veq _ _) S2)), two_sites, Hf by auto. reflexivity. }
  pose proof (C33_no_site_twice _ _ _ _ _ _ _ _ _ _ Hb Hnorms HRl EI) as HNI.
  assert (forall i j n m, nth_error I i = Some (n ++ [0%Z]) -> nth_error I j = Some (m ++ [0%Z]) -> length n = d -> length m = d ->
            f (map2 Z.sub m n) = 0%Z -> i = j) as Hzero.
  { intros i j n m Hi Hj Hn Hm E. assert (length (map2 Z.sub m n) = d) as Hl by (rewrite map2_length; lia).
    assert (map2 Z.sub m n = repeat 0%Z d) as Ez.
    { apply (cell_sq_inj (st_basis s)); auto. fold d V. rewrite Hf, E by auto. change (inject_Z 0) with 0%Q. ring. }
    assert (n = m) as <-.
    { apply (list_eq_nth _ _ 0%Z); [lia|]. intros x Hx. apply (f_equal (fun v => nth x v 0%Z)) in Ez. rewrite nth_repeat, nth_zsub in Ez by lia. lia. }
    rewrite NoDup_nth_error in HNI. apply HNI; [eapply nth_error_length_lt; eauto|congruence]. }
  assert (forall i n p j, nth_error I i = Some (n ++ [0%Z]) -> nth_error P i = Some p -> within P p (r * r)%Q j ->
            exists m, nth_error I j = Some (m ++ [0%Z]) /\ length m = d /\ (f (map2 Z.sub m n) <= vk)%Z) as Hnear.
  { intros i n p j Hi Hp [q [Hq' Hle]]. destruct (Hsite j (nth_error_length_lt _ _ _ Hq')) as [m [q' [Hj [_ [Hm _]]]]]. exists m. split; auto. split; auto.
    destruct (Hsq i j n m p q Hi Hj Hp Hq') as [Hl Hd2]. rewrite Hd2 in Hle. apply Znot_gt_le. intro G.
    assert (values d f (f (map2 Z.sub m n))) as Hw by (split; [lia|eauto]). pose proof (Hr _ Hw ltac:(lia)). lra. }
  (* not too many *)
  assert (forall p, In p P -> at_most (query_count an) (within P p (r * r)%Q)) as Hroom.
  { intros p Hp L HL1 HL2. apply In_nth_error in Hp. destruct Hp as [i Hp]. destruct (Hsite i (nth_error_length_lt _ _ _ Hp)) as [n [_ [Hi [_ [Hn _]]]]].
    set (diff := fun j => (0, 0, map2 Z.sub (removelast (nth j I [])) n)).
    assert (forall j m, nth_error I j = Some (m ++ [0%Z]) -> diff j = (0, 0, map2 Z.sub m n)) as Hdiff.
    { intros j m Hj. unfold diff. rewrite (nth_of_nth_error _ _ _ _ Hj), removelast_last. reflexivity. }
    rewrite Hf2. change (S (length found)) with (length ((0, 0, repeat 0%Z d) :: found)). rewrite <- (map_length diff L). apply NoDup_incl_length.
    - apply NoDup_map_in; auto. intros j j' Hj Hj' E. destruct (Hnear i n p j Hi Hp (HL2 j Hj)) as [m [Em [Hm _]]]. destruct (Hnear i n p j' Hi Hp (HL2 j' Hj')) as [m' [Em' [Hm' _]]].
      rewrite (Hdiff j m Em), (Hdiff j' m' Em') in E. injection E as E.
      assert (m = m') as <-.
      { apply (list_eq_nth _ _ 0%Z); [lia|]. intros x Hx. apply (f_equal (fun v => nth x v 0%Z)) in E. rewrite !nth_zsub in E by lia. lia. }
      rewrite NoDup_nth_error in HNI. apply HNI; [eapply nth_error_length_lt; eauto|congruence].
    - intros t Ht. apply in_map_iff in Ht. destruct Ht as [j [<- Hj]]. destruct (Hnear i n p j Hi Hp (HL2 j Hj)) as [m [Em [Hm Hle]]]. rewrite (Hdiff j m Em).
      assert (length (map2 Z.sub m n) = d) as Hl by (rewrite map2_length; lia). destruct (Z.eq_dec (f (map2 Z.sub m n)) 0) as [E|E].
      + left. f_equal. symmetry. apply (cell_sq_inj (st_basis s)); auto. fold d V. rewrite Hf, E by auto. change (inject_Z 0) with 0%Q. ring.
      + right. assert (values d f (f (map2 Z.sub m n))) as Hw by (split; eauto). apply Hf3. cbn [length]. split; [lia|]. split; [lia|].
        destruct (proj2 (Hfirstk _) (conj Hw Hle)) as [i' [Hi' Hr']]. split; [eapply Hcells; eauto|].
        exists (Fin (root e (f (map2 Z.sub m n)))). split; [|apply Hfirst; eauto]. exists (root e (f (map2 Z.sub m n))). split; auto.
        apply (proj2 (form_away d V r0 f e Hr0 He Hf (map2 Z.sub m n) _)). auto. }
  (* who is connected *)
  set (allowed := fun x y => among_first (nth y (nth x [[k]] []) 0) (occurs d V [r0] cells x y)).
  assert (forall i n, nth_error I i = Some (n ++ [0%Z]) -> atom_of I i = 0) as Hat.
  { intros i n Ei. unfold atom_of. rewrite (nth_of_nth_error _ _ _ _ Ei), last_last. reflexivity. }
  assert (forall i n j x, nth_error I i = Some (n ++ [0%Z]) -> connected_sites allowed I P i j x <->
            exists m z, nth_error I j = Some (m ++ [0%Z]) /\ (0 < f (map2 Z.sub m n) <= vk)%Z /\ rounds_to_micro (e * inject_Z (f (map2 Z.sub m n)))%Q z /\ x = Fin z) as Hconn.
  { intros i n j x Hi. assert (i < length P) as Hil by (rewrite <- Hlen; eapply nth_error_length_lt; eauto).
    destruct (nth_error_lt P i Hil) as [p Hp]. destruct (Hsite' i n p Hi Hp) as [Hn _]. split.
    - intros [Hij [[p' [q [z [Hp' [Hq' [-> Hz]]]]]] Hal']]. assert (p' = p) as -> by (assert (Some p' = Some p) as X by (etransitivity; [symmetry; exact Hp'|exact Hp]); injection X; auto).
      destruct (Hsite j (nth_error_length_lt _ _ _ Hq')) as [m [_ [Hj [_ [Hm _]]]]]. destruct (Hsq i j n m p q Hi Hj Hp Hq') as [Hl Hd2].
      exists m, z. split; auto. rewrite (Hat i n Hi), (Hat j m Hj) in Hal'. unfold allowed in Hal'. cbn [nth] in Hal'. apply Hfirst in Hal'.
      destruct Hal' as [v [Hv [Hle E]]]. injection E as ->. assert (rounds_to_micro (e * inject_Z (f (map2 Z.sub m n)))%Q (root e v)) as Hz' by (eapply rounds_ext; [|exact Hz]; rewrite Hd2; reflexivity).
      split; [|split; auto]. pose proof (Hpos _ Hl) as P0. assert (f (map2 Z.sub m n) <> 0%Z) as Pn by (intro E0; apply Hij; eapply Hzero; eauto).
      split; [lia|]. apply Znot_gt_le. intro G. pose proof (Rlt v (f (map2 Z.sub m n)) Hv Hle ltac:(lia)) as X.
      assert (root e v = root e (f (map2 Z.sub m n))) by (eapply rounds_unique; [exact Hz'|apply Rr; auto|reflexivity]). lia.
    - intros [m [z [Hj [[Hw0 Hle] [Hz ->]]]]]. assert (j < length P) as Hjl by (rewrite <- Hlen; eapply nth_error_length_lt; eauto).
      destruct (nth_error_lt P j Hjl) as [q Hq']. destruct (Hsq i j n m p q Hi Hj Hp Hq') as [Hl Hd2]. split; [|split].
      + intros <-. rewrite Hi in Hj. injection Hj as Hj. apply app_inj_tail in Hj. destruct Hj as [<- _].
        assert (map2 Z.sub n n = map (Z.mul 0) u) as E0.
        { apply (list_eq_nth _ _ 0%Z); [rewrite map_length; lia|]. intros x Hx. rewrite nth_zsub by auto. rewrite (nth_map_in _ _ _ 0%Z) by lia. lia. }
        rewrite E0, Hax in Hw0. lia.
      + exists p, q, z. split; auto. split; auto. split; auto. eapply rounds_ext; [|exact Hz]. rewrite Hd2. reflexivity.
      + rewrite (Hat i n Hi), (Hat j m Hj). unfold allowed. cbn [nth]. apply Hfirst. exists (f (map2 Z.sub m n)). split; [split; [lia|eauto]|]. split; auto.
        f_equal. eapply rounds_unique; [exact Hz|apply Rr; lia|reflexivity]. }
  assert (incongruent d V [r0]) as Hinc by (intros [|x] [|y] n Hx Hy _ _; cbn in Hx, Hy; lia).
  pose proof (C71_build_connects_the_sites query argsort norms s s' [[k]] an l sh primitive pos check callback I P r Hq Harg Hb Hd Hs Ec Han Ean El) as T.
  cbv zeta in T. rewrite ER in T. fold d V in T. destruct (T Hnorms Hfit Hinc EI HI Er Hroom) as [m [cells' [Hm1' [Hm2' [Ecells' C]]]]]. clear T.
  assert (m = k) as ->.
  { destruct Hm2' as [x [y E]]. specialize (Hm1' 0 0). cbn in Hm1'. destruct x as [|[|x]], y as [|[|y]]; cbn in E; lia. }
  rewrite Ecells in Ecells'. injection Ecells' as <-. fold allowed in C.
  destruct C as (l' & dt & C1 & C2 & _ & _ & C3 & C4 & _ & _ & _ & C5 & C6 & _ & C7).
  - intros [|x] [|y] z Hx Hy; cbn in Hx, Hy; try lia. intro H. apply Hocc in H. destruct H as [v [Hv ->]]. apply Z.leb_le.
    pose proof (H6 (root e v1) ltac:(apply Rr; lia)). assert (root e v1 <= root e v)%Z by (apply Rmono; auto; lia). lia.
  - exists (map (fun v => Fin (root e v)) Lk). split; [rewrite map_length; lia|]. intros [|x] [|y] z Hx Hy; cbn in Hx, Hy; try lia. intro H.
    unfold allowed in H. cbn [nth] in H. apply Hfirst in H. destruct H as [v [Hv [Hle ->]]]. apply in_map_iff. exists v. split; auto. apply Lk3. auto.
  - right. intros i j p Hij Hp Hw. destruct (Hsite i (nth_error_length_lt _ _ _ Hp)) as [n [_ [Hi [_ [Hn _]]]]]. destruct (Hnear i n p j Hi Hp Hw) as [m [Hj [Hm Hle]]].
    assert (length (map2 Z.sub m n) = d) as Hl by (rewrite map2_length; lia). pose proof (Hpos _ Hl) as P0.
    assert (f (map2 Z.sub m n) <> 0%Z) as Pn by (intro E0; apply Hij; eapply Hzero; eauto).
    exists (Fin (root e (f (map2 Z.sub m n)))). apply (Hconn i n); auto. exists m, (root e (f (map2 Z.sub m n))). split; auto. split; [lia|]. split; auto.
  - exists l', dt. repeat (split; [auto; fail|]). intros i n Hi. destruct (C7 i) as [D1 D2]; [rewrite <- Hlen; eapply nth_error_length_lt; eauto|].
    split; auto. intros j x. rewrite D2. apply Hconn. auto.
Qed.

(** ** Cubic lattices *)

(** The search radius stays below the next length: [p] and [q] are upper bounds of the roots of [vk] and [v1]. *)
Lemma gap_ok b p q g v1 vk w z1 zk : (0 < b)%Q -> (0 <= p)%Q -> (0 <= q)%Q -> (0 <= g)%Q -> (0 <= v1)%Z -> (0 <= vk)%Z ->
  (inject_Z vk <= p * p)%Q -> (inject_Z v1 <= q * q)%Q -> ((55#100) <= g * (b * 1000000))%Q -> ((p + (1#10) * q + g) * (p + (1#10) * q + g) < inject_Z w)%Q ->
  rounds_to_micro (b * b * inject_Z v1)%Q z1 -> rounds_to_micro (b * b * inject_Z vk)%Q zk ->
  let r := ((inject_Z zk + (1#10) * inject_Z z1) * (1#1000000))%Q in (r * r < b * b * inject_Z w)%Q.
Proof.
  intros Hb Hp Hq Hg V1 Vk Ep Eq Hround Hw H1 Hk r.
  assert (forall v z t, (0 <= t)%Q -> (inject_Z v <= t * t)%Q -> rounds_to_micro (b * b * inject_Z v)%Q z -> (0 <= inject_Z z)%Q /\ (inject_Z z <= t * (b * 1000000) + (1#2))%Q) as Hz.
  { intros v z t Ht Et [Z0 [_ [Hlow _]]]. cbv zeta in Hlow. assert (0 <= inject_Z z)%Q as Z0' by (change 0%Q with (inject_Z 0); rewrite <- Zle_Qle; auto). split; auto.
    destruct (Z.eq_dec z 0) as [->|Hne]; [change (inject_Z 0) with 0%Q; assert (0 <= t * (b * 1000000))%Q by nra; lra|].
    specialize (Hlow ltac:(lia)). set (x := inject_Z z) in *. apply Qnot_lt_le. intro L.
    assert (0 <= t * (b * 1000000))%Q as T0 by nra.
    assert ((t * (b * 1000000)) * (t * (b * 1000000)) < (x - (1#2)) * (x - (1#2)))%Q as L2 by nra.
    assert (b * b * inject_Z v <= b * b * (t * t))%Q as L3 by nra.
    assert ((t * (b * 1000000)) * (t * (b * 1000000)) == b * b * (t * t) * 1000000000000)%Q as L4 by ring. lra. }
  destruct (Hz v1 z1 q Hq Eq H1) as [A0 A1]. destruct (Hz vk zk p Hp Ep Hk) as [B0 B1].
  set (x := inject_Z z1) in *. set (y := inject_Z zk) in *. set (S := (p + (1#10) * q + g)%Q) in *.
  assert (0 <= r)%Q as R0 by (unfold r; lra). assert (0 <= S)%Q as S0 by (unfold S; lra).
  assert (r <= S * b)%Q as R1.
  { assert (r * 1000000 <= (S * b) * 1000000)%Q; [|lra]. assert (r * 1000000 == y + (1#10) * x)%Q as -> by (unfold r; ring).
    assert ((S * b) * 1000000 == p * (b * 1000000) + (1#10) * (q * (b * 1000000)) + g * (b * 1000000))%Q as -> by (unfold S; ring). lra. }
  assert (r * r <= (S * b) * (S * b))%Q as R2 by nra.
  assert ((S * b) * (S * b) == b * b * (S * S))%Q as R3 by ring.
  assert (b * b * (S * S) < b * b * inject_Z w)%Q as R4 by (assert (0 < b * b)%Q by nra; nra). lra.
Qed.

Lemma least_six b v z : ((1#10000) < b)%Q -> (1 <= v)%Z -> rounds_to_micro (b * b * inject_Z v)%Q z -> (6 <= z)%Z.
Proof.
  intros Hb Hv H. assert (10 <= z)%Z; [|lia]. eapply rounds_ten; [|exact H]. rewrite Zle_Qle in Hv. change (inject_Z 1) with 1%Q in Hv.
  assert ((1#100000000) < b * b)%Q by nra. nra.
Qed.

(** The two smallest values of a form. *)
Lemma two_values d f v1 v2 : (0 < v1 < v2)%Z -> (exists n, length n = d /\ f n = v1) -> (exists n, length n = d /\ f n = v2) ->
  (forall n, length n = d -> f n = 0 \/ f n = v1 \/ v2 <= f n)%Z -> ranked (values d f) 0 v1 /\ ranked (values d f) 1 v2.
Proof.
  intros Hv E1 E2 H. split; (split; [split; [lia|auto]|]).
  - exists []. split; [constructor|]. split; [|reflexivity]. intro y. split; [intros []|]. intros [[Hy [n [Hn <-]]] Hlt]. destruct (H n Hn) as [C|[C|C]]; lia.
  - exists [v1]. split; [constructor; [intros []|constructor]|]. split; [|reflexivity]. intro y. split.
    + intros [<-|[]]. split; [split; [lia|auto]|lia].
    + intros [[Hy [n [Hn <-]]] Hlt]. left. destruct (H n Hn) as [C|[C|C]]; lia.
Qed.

(** Nearest and next nearest neighbours of hypercubic lattices in two and more dimensions, of face centred and body centred lattices:
    squared lengths 1 and 2, 2 and 4, 3 and 4 in the units of the forms, whatever sites are selected. *)
Definition second_neighbors (query : list (list Q) -> list Q -> nat -> option Q -> list (nat * option Q)) (argsort : list dist -> list nat)
  (b : basis) (at1 : atom) (f : list Z -> Z) (e : Q) (v1 v2 : Z) : Prop :=
  exists s, preset query b [(None, at1)] 2 = Ok s /\
    forall norms l sh primitive pos check callback I P z1 z2,
      lt_structure l = s -> (primitive = true -> length norms = b_dim b) -> fitting (b_dim b) sh primitive pos ->
      build_indices b norms [repeat 0%Q (b_dim b)] (AShape (build_shape b sh primitive pos)) primitive pos check callback = Ok (I, P) -> I <> [] ->
      rounds_to_micro (e * inject_Z v1)%Q z1 -> rounds_to_micro (e * inject_Z v2)%Q z2 ->
      exists l' dt, build query argsort norms l sh primitive pos check None None callback = (l', Ok tt) /\
        lt_structure l' = s /\ lt_data l' = Some dt /\ wf dt /\ d_indices dt = I /\ d_positions dt = P /\
        forall i n, nth_error I i = Some (n ++ [0%Z]) -> NoDup (map fst (links dt i)) /\
          forall j x, In (j, x) (links dt i) <->
            exists m, nth_error I j = Some (m ++ [0%Z]) /\
              (f (map2 Z.sub m n) = v1 /\ x = Fin z1 \/ f (map2 Z.sub m n) = v2 /\ x = Fin z2).

Lemma second_neighbors_intro query argsort b at1 f g p q h c u v1 v2 :
  correct_tree query -> is_argsort dleb argsort -> valid_basis b -> 1 <= b_dim b -> ((1#10000) < g)%Q ->
  (0 < c <= 3)%Z -> length u = b_dim b -> (forall j, f (map (Z.mul j) u) = c * (j * j))%Z ->
  (forall n, length n = b_dim b -> (cell_sq (b_dim b) (b_mat b) n == g * g * inject_Z (f n))%Q) ->
  (forall n x, length n = b_dim b -> (f n <= c * 4)%Z -> In x n -> (Z.abs x <= 5)%Z) ->
  (0 < v1 < v2)%Z -> (exists n, length n = b_dim b /\ f n = v1) -> (exists n, length n = b_dim b /\ f n = v2) ->
  (forall n, length n = b_dim b -> f n = 0 \/ f n = v1 \/ v2 <= f n)%Z ->
  (forall n, length n = b_dim b -> (v2 < f n)%Z -> ((p + (1#10) * q + h) * (p + (1#10) * q + h) < inject_Z (f n))%Q) ->
  (0 <= p)%Q -> (0 <= q)%Q -> ((1#100) <= h)%Q -> (inject_Z v2 <= p * p)%Q -> (inject_Z v1 <= q * q)%Q ->
  second_neighbors query argsort b at1 f (g * g) v1 v2.
Proof.
  intros Hq Harg Hb Hd Hg Hc Hu Hax Hf Hbox Hv E1 E2 Hall Hw Hp Hq0 Hh Ep Eq.
  destruct (preset_one query b at1 2 Hb Hd ltac:(lia)) as [s [s' [E [Han [Hs [Eb [ER Ec]]]]]]]. exists s'. split; auto.
  intros norms l sh primitive pos check callback I P z1 z2 El Hnorms Hfit EI HI Hz1 Hz2.
  destruct (two_values (b_dim b) f v1 v2 Hv E1 E2 Hall) as [R1 R2].
  pose proof (C106_built query argsort norms s s' l sh primitive pos check callback I P (repeat 0%Q (b_dim b)) 2 f (g * g)%Q c u v1 v2 Hq Harg) as T.
  rewrite Eb in T. specialize (T Hb Hd Hs ltac:(lia) ER Ec Han El). cbv zeta in T. change (Z.of_nat 2 * Z.of_nat 2)%Z with 4%Z in T. change (2 * Z.of_nat 2 + 1)%Z with 5%Z in T.
  destruct T as (l' & dt & C1 & C2 & C3 & C4 & C5 & C6 & C7); auto.
  - lia.
  - assert (inject_Z (c * 4) <= 12)%Q by (change 12%Q with (inject_Z 12); rewrite <- Zle_Qle; lia). assert ((1#100000000) < g * g)%Q by nra. lra.
  - intros z. apply least_six; auto. lia.
  - intros w y1 y2 [_ [n [Hn <-]]] Hlt Y1 Y2. apply (gap_ok g p q h v1 v2 (f n)); auto; try lia; try lra. nra.
  - exists l', dt. repeat (split; [auto; fail|]). intros i n Hi. destruct (C7 i n Hi) as [D1 D2]. split; auto. intros j x. rewrite D2.
    assert (forall m, nth_error I j = Some (m ++ [0%Z]) -> length (map2 Z.sub m n) = b_dim b) as Hl.
    { intros m Hj. assert (forall r, In r [repeat 0%Q (b_dim b)] -> length r = b_dim b) as HR by (intros r [<-|[]]; apply repeat_length).
      destruct (C31_indices_and_positions_aligned _ _ _ _ _ _ _ _ _ _ Hb Hnorms HR EI) as [Hlen [Hal _]].
      destruct (nth_error_lt P i) as [p' Hp']; [rewrite <- Hlen; eapply nth_error_length_lt; eauto|]. destruct (nth_error_lt P j) as [q' Hq']; [rewrite <- Hlen; eapply nth_error_length_lt; eauto|].
      destruct (Hal _ _ _ Hi Hp') as [n0 [a0 [r1 [X1 [X2 _]]]]]. destruct (Hal _ _ _ Hj Hq') as [n1 [a1 [r2 [X3 [X4 _]]]]].
      apply app_inj_tail in X1. apply app_inj_tail in X3. destruct X1 as [-> _], X3 as [-> _]. rewrite map2_length. lia. }
    split.
    + intros [m [z [Hj [Hr [Hz ->]]]]]. exists m. split; auto. destruct (Hall _ (Hl m Hj)) as [C|[C|C]]; [lia| |].
      * left. split; auto. rewrite C in Hz. f_equal. eapply rounds_unique; eauto; reflexivity.
      * right. assert (f (map2 Z.sub m n) = v2) as C' by lia. split; auto. rewrite C' in Hz. f_equal. eapply rounds_unique; eauto; reflexivity.
    + intros [m [Hj [[C ->]|[C ->]]]]; exists m; [exists z1|exists z2]; rewrite C; split; auto; split; auto; lia.
Qed.

Theorem C106_hypercubic :
  forall query argsort inv d a at1, correct_tree query -> is_argsort dleb argsort -> 2 <= d -> valid_basis (hypercubic inv d a) -> ((1#1000) < a)%Q ->
    second_neighbors query argsort (hypercubic inv d a) at1 squares (a * a) 1 2.
Proof.
  intros query argsort inv d a at1 Hq Harg Hd Hb Ha. assert (b_dim (hypercubic inv d a) = d) as Hbd by apply hypercubic_dim.
  assert (cubic_lattice d (b_mat (hypercubic inv d a)) a) as HV by (split; [lra|intros; apply hypercubic_entry; auto]).
  destruct d as [|[|d]]; try lia. set (D := S (S d)) in *.
  assert (forall n, length n = D -> 0 <= squares n)%Z as Hpos by (intros n Hn; rewrite squares_zs; apply zs_nonneg).
  apply (second_neighbors_intro query argsort _ at1 squares a (142#100) 1 (1#100) 1%Z (1%Z :: repeat 0%Z (S d)) 1%Z 2%Z); auto; rewrite ?Hbd; try lia; try lra; try (apply Qle_bool_imp_le; reflexivity).
  - cbn [length]. rewrite repeat_length. reflexivity.
  - intro j. cbn [map]. change (squares (j * 1 :: map (Z.mul j) (repeat 0 (S d))))%Z with (j * 1 * (j * 1) + squares (map (Z.mul j) (repeat 0 (S d))))%Z.
    rewrite squares_zero. ring.
  - intros n Hn. rewrite <- (own_distance D _ (repeat 0%Q D) n (repeat_length _ _)), squares_zs, Hn. apply origin_sq; auto. apply repeat_length.
  - intros n x Hn Hle Hx. apply (In_nth _ _ 0%Z) in Hx. destruct Hx as [j [Hj <-]]. rewrite squares_zs, Hn in Hle.
    pose proof (zs_entry D (fun k => nth k n 0%Z) j ltac:(lia)) as H. cbv beta in H. nia.
  - exists (1%Z :: map (Z.mul 0) (repeat 0%Z (S d))). split; [cbn [length]; rewrite map_length, repeat_length; reflexivity|].
    change (1 * 1 + squares (map (Z.mul 0) (repeat 0 (S d))) = 1)%Z. rewrite squares_zero. reflexivity.
  - exists (1%Z :: 1%Z :: map (Z.mul 0) (repeat 0%Z d)). split; [cbn [length]; rewrite map_length, repeat_length; reflexivity|].
    change (1 * 1 + (1 * 1 + squares (map (Z.mul 0) (repeat 0 d))) = 2)%Z. rewrite squares_zero. reflexivity.
  - intros n Hn. pose proof (Hpos n Hn). lia.
  - intros n Hn Hlt. assert (3 <= inject_Z (squares n))%Q by (change 3%Q with (inject_Z 3); rewrite <- Zle_Qle; lia). lra.
Qed.

Theorem C106_fcc :
  forall query argsort inv a at1, correct_tree query -> is_argsort dleb argsort -> inverts inv 3 -> ((1#1000) < a)%Q ->
    second_neighbors query argsort (fcc inv a) at1 fcc_length (a * (1#2) * (a * (1#2))) 2 4.
Proof.
  intros query argsort inv a at1 Hq Harg I3 Ha. assert (~ (a == 0)%Q) as Ha0 by lra. pose proof (fcc_valid inv a I3 Ha0) as Hb.
  assert (b_dim (fcc inv a) = 3) as Hd by reflexivity.
  apply (second_neighbors_intro query argsort _ at1 fcc_length (a * (1#2)) 2 (142#100) (1#100) 2%Z [1; 0; 0]%Z 2%Z 4%Z); auto; rewrite ?Hd; try lia; try lra; try (apply Qle_bool_imp_le; reflexivity).
  - intro j. unfold fcc_length. cbn [map]. ring.
  - intros n Hn. destruct (three n Hn) as [n1 [n2 [n3 ->]]]. rewrite fcc_sq. cbn [fcc_length]. field.
  - intros n x Hn Hle Hx. destruct (three n Hn) as [n1 [n2 [n3 ->]]]. cbn [fcc_length] in Hle. change 5%Z with (2 * 2 + 1)%Z.
    destruct Hx as [<-|[<-|[<-|[]]]];
      [apply (half_bound (n1 + n2) (n1 + n3) (n2 + n3))|apply (half_bound (n1 + n2) (n2 + n3) (n1 + n3))|apply (half_bound (n1 + n3) (n2 + n3) (n1 + n2))]; lia.
  - exists [1; 0; 0]%Z. split; reflexivity.
  - exists [1; 1; -1]%Z. split; reflexivity.
  - intros n Hn. destruct (three n Hn) as [n1 [n2 [n3 ->]]]. destruct (list_eq_dec Z.eq_dec [n1; n2; n3] [0; 0; 0]%Z) as [E|E]; [injection E as -> -> ->; left; reflexivity|].
    right. cbn [fcc_length]. apply fcc_form. auto.
  - intros n Hn Hlt. destruct (three n Hn) as [n1 [n2 [n3 ->]]]. cbn [fcc_length] in *.
    match goal with |- context[inject_Z ?F] => assert (exists h, F = 2 * h)%Z as [h Eh] by (exists (n1 * n1 + n2 * n2 + n3 * n3 + n1 * n2 + n1 * n3 + n2 * n3)%Z; ring); assert (6 <= inject_Z F)%Q by (change 6%Q with (inject_Z 6); rewrite <- Zle_Qle; lia) end. lra.
Qed.

Theorem C106_bcc :
  forall query argsort inv a at1, correct_tree query -> is_argsort dleb argsort -> inverts inv 3 -> ((1#1000) < a)%Q ->
    second_neighbors query argsort (bcc inv a) at1 bcc_length (a * (1#2) * (a * (1#2))) 3 4.
Proof.
  intros query argsort inv a at1 Hq Harg I3 Ha. assert (~ (a == 0)%Q) as Ha0 by lra. pose proof (bcc_valid inv a I3 Ha0) as Hb.
  assert (b_dim (bcc inv a) = 3) as Hd by reflexivity.
  apply (second_neighbors_intro query argsort _ at1 bcc_length (a * (1#2)) 2 (174#100) (1#100) 3%Z [1; 0; 0]%Z 3%Z 4%Z); auto; rewrite ?Hd; try lia; try lra; try (apply Qle_bool_imp_le; reflexivity).
  - intro j. unfold bcc_length. cbn [map]. ring.
  - intros n Hn. destruct (three n Hn) as [n1 [n2 [n3 ->]]]. rewrite bcc_sq. cbn [bcc_length]. field.
  - intros n x Hn Hle Hx. destruct (three n Hn) as [n1 [n2 [n3 ->]]]. cbn [bcc_length] in Hle. change 5%Z with (2 * 2 + 1)%Z.
    destruct Hx as [<-|[<-|[<-|[]]]];
      [apply (half_bound (n1 + n2 - n3) (n1 - n2 + n3) 0)|apply (half_bound (n1 + n2 + n3) 0 (n1 - n2 + n3))|apply (half_bound (n1 + n2 + n3) 0 (n1 + n2 - n3))]; try lia;
      pose proof (Z.square_nonneg (n1 + n2 - n3)); pose proof (Z.square_nonneg (n1 - n2 + n3)); pose proof (Z.square_nonneg (n1 + n2 + n3)); lia.
  - exists [1; 0; 0]%Z. split; reflexivity.
  - exists [1; -1; 0]%Z. split; reflexivity.
  - intros n Hn. destruct (three n Hn) as [n1 [n2 [n3 ->]]]. destruct (list_eq_dec Z.eq_dec [n1; n2; n3] [0; 0; 0]%Z) as [E|E]; [injection E as -> -> ->; left; reflexivity|].
    right. cbn [bcc_length]. apply bcc_form. auto.
  - intros n Hn Hlt. destruct (three n Hn) as [n1 [n2 [n3 ->]]]. cbn [bcc_length] in *.
    match goal with |- context[inject_Z ?F] => assert (5 <= inject_Z F)%Q by (change 5%Q with (inject_Z 5); rewrite <- Zle_Qle; lia) end. lra.
Qed.

(** ** Examples *)

Definition built_second b size : result lattice :=
  match preset brute b [(None, ex_atom "A")] 2 with
  | Ok s => match build brute dist_argsort [] (new_lattice s) (ASize size) false None true None None None with (l, Ok tt) => Ok l | (_, Raise e) => Raise e end
  | Raise e => Raise e
  end.

Definition sites_built (r : result lattice) : list (list Z) := match r with Ok l => lt_indices l | Raise _ => [] end.

(** Four sites, 2 x 2 with constant 2: the sides and the diagonals. *)
Example C106_hypercubic_example :
  correct_tree brute /\ is_argsort dleb dist_argsort /\ valid_basis (hypercubic diagonal_inverse 2 2) /\ ((1#1000) < 2)%Q /\
  let r := built_second (hypercubic diagonal_inverse 2 2) [2; 2]%Q in
  sites_built r = [[0; 0; 0]; [0; 1; 0]; [1; 0; 0]; [1; 1; 0]]%Z /\
  links_of r = Some [[(1, Fin 2000000); (2, Fin 2000000); (3, Fin 2828427)]; [(0, Fin 2000000); (3, Fin 2000000); (2, Fin 2828427)];
                     [(0, Fin 2000000); (3, Fin 2000000); (1, Fin 2828427)]; [(1, Fin 2000000); (2, Fin 2000000); (0, Fin 2828427)]] /\
  squares (map2 Z.sub [1; 1] [0; 0])%Z = 2%Z /\ rounds_to_micro (2 * 2 * inject_Z 2)%Q 2828427.
Proof.
  split; [exact brute_nearest|]. split; [exact dist_argsort_ok|]. split; [|split; [reflexivity|split; [vm_compute; reflexivity|split; [vm_compute; reflexivity|split; [reflexivity|]]]]].
  - split; [split; [reflexivity|intros r Hr; cbn in Hr; intuition (subst; reflexivity)]|].
    split; [split; [reflexivity|intros r Hr; cbn in Hr; intuition (subst; reflexivity)]|].
    split; intros [|[|i]] [|[|j]] Hi Hj; cbn in Hi, Hj; try lia; reflexivity.
  - change 2828427%Z with (sqrt_micro (2 * 2 * inject_Z 2)). apply sqrt_micro_rounds. vm_compute. discriminate.
Qed.

(** Six sites of the face centred lattice. *)
Example C106_fcc_example :
  inverts inverse_small 3 /\ ((1#1000) < 4)%Q /\
  let r := built_second (fcc inverse_small 4) [4; 2; 2]%Q in
  sites_built r = [[0; 0; 0; 0]; [0; 0; 1; 0]; [0; 1; 0; 0]; [1; 0; 0; 0]; [1; 1; -1; 0]; [1; 1; 0; 0]]%Z /\
  option_map (fun L => nth 0 L []) (links_of r) = Some [(1, Fin 2828427); (2, Fin 2828427); (3, Fin 2828427); (4, Fin 4000000)] /\
  fcc_length (map2 Z.sub [1; 1; -1] [0; 0; 0])%Z = 4%Z /\ fcc_length (map2 Z.sub [1; 1; 0] [0; 0; 0])%Z = 6%Z.
Proof. split; [exact inverse_small_3|]. split; [reflexivity|]. split; [vm_compute; reflexivity|]. split; [vm_compute; reflexivity|]. split; reflexivity. Qed.

(** Three sites of the body centred lattice. *)
Example C106_bcc_example :
  inverts inverse_small 3 /\ ((1#1000) < 4)%Q /\
  let r := built_second (bcc inverse_small 4) [4; 2; 2]%Q in
  sites_built r = [[0; 0; 0; 0]; [1; 0; -1; 0]; [1; 0; 0; 0]]%Z /\
  links_of r = Some [[(2, Fin 3464102); (1, Fin 4000000)]; [(2, Fin 3464102); (0, Fin 4000000)]; [(0, Fin 3464102); (1, Fin 3464102)]] /\
  bcc_length (map2 Z.sub [1; 0; -1] [0; 0; 0])%Z = 4%Z /\ bcc_length (map2 Z.sub [1; 0; 0] [0; 0; 0])%Z = 3%Z.
Proof. split; [exact inverse_small_3|]. split; [reflexivity|]. split; [vm_compute; reflexivity|]. split; [vm_compute; reflexivity|]. split; reflexivity. Qed.

(** The hypotheses of the general theorem in the rectangular lattice with sides 1 and 2: the two distances are 1 and 2, the next one is [sqrt 5]. *)
Example C106_built_example :
  let s := one_atom (mkBasis [[1; 0]; [0; 2]]%Q [[1; 0]; [0; 1#2]]%Q) 2 in
  ranked (values 2 rectangle_length) 0 1 /\ ranked (values 2 rectangle_length) 1 4 /\
  (forall z, rounds_to_micro (1 * inject_Z 1)%Q z -> (6 <= z)%Z) /\
  (forall w z1 zk, values 2 rectangle_length w -> (4 < w)%Z -> rounds_to_micro (1 * inject_Z 1)%Q z1 -> rounds_to_micro (1 * inject_Z 4)%Q zk ->
     let r := ((inject_Z zk + (1#10) * inject_Z z1) * (1#1000000))%Q in (r * r < 1 * inject_Z w)%Q) /\
  exists s' I P l' dt, analyze brute s = (s', Ok tt) /\
    build_indices (st_basis s) [1; 2]%Q [[0; 0]%Q] (AShape (build_shape (st_basis s) (ASize [2; 2]%Q) false None)) false None true None = Ok (I, P) /\
    build brute dist_argsort [1; 2]%Q (new_lattice s') (ASize [2; 2]%Q) false None true None None None = (l', Ok tt) /\ lt_data l' = Some dt /\
    nth_error I 0 = Some [0; 0; 0]%Z /\ map (fun p => nth (fst p) I []) (links dt 0) = [[1; 0; 0]; [0; 1; 0]; [2; 0; 0]]%Z.
Proof.
  intro s. destruct (two_values 2 rectangle_length 1 4) as [R1 R4]; [lia|exists [1; 0]%Z; split; reflexivity|exists [0; 1]%Z; split; reflexivity| |].
  { intros n Hn. destruct n as [|x [|y [|]]]; try discriminate Hn. cbn [rectangle_length]. destruct (Z.eq_dec y 0) as [->|]; [|nia].
    destruct (Z.eq_dec x 0) as [->|]; [lia|]. destruct (Z.eq_dec (Z.abs x) 1); nia. }
  split; auto. split; auto. split; [|split].
  - intros z Hz. apply (least_six 1 1); [reflexivity|lia|]. exact Hz.
  - intros w z1 zk Hw Hlt H1 Hk r. change (r * r < 1 * 1 * inject_Z w)%Q. apply (gap_ok 1 2 1 (1#100) 1 4 w); auto; try lia; try lra; try (vm_compute; discriminate).
    assert (5 <= inject_Z w)%Q by (change 5%Q with (inject_Z 5); rewrite <- Zle_Qle; lia). lra.
  - do 5 eexists. split; [vm_compute; reflexivity|]. split; [vm_compute; reflexivity|]. split; [vm_compute; reflexivity|].
    split; [reflexivity|]. split; [reflexivity|]. vm_compute. reflexivity.
Qed.

Print Assumptions C106_built.
Print Assumptions C106_hypercubic.
Print Assumptions C106_fcc.
Print Assumptions C106_bcc.
