(** * Property C105, continued: lattices with one atom and any number of distances *)
From Coq Require Import String List ZArith QArith Qabs Bool Arith Lia Lqa Permutation Sorting.Sorted.
From Verif Require Import Np NpFacts LinAlg LinFacts SpecUtils UtilsModel UtilsProofs SpecBasis AtomModel BasisModel BasisProofs
  NeighborCellProofs PropBasis SpecSpatial KDProofs SpecStructure StructureModel KDBrute RoundFacts StructureFacts
  AnalyzeProofs StructureProofs PropStructure PropAnalyze SpecShell ShellProofs PropReciprocal PresetModel PropPreset
  SpecGrid GridProofs PropPrimitive PropGrid FilterProofs PropOrder PropShell.
Import ListNotations.
Open Scope nat_scope.
Open Scope list_scope.

(** ** Ranks *)

Lemma ranked_filter A i z y : ranked A i z -> A y -> (y < z)%Z -> exists j, j < i /\ ranked A j y.
Proof.
  intros [Hz [L [Hnd [HL Hi]]]] Hy Hlt. exists (length (filter (fun x => x <? y)%Z L)).
  assert (forall x, In x (filter (fun x => x <? y)%Z L) <-> A x /\ (x < y)%Z) as H.
  { intro x. rewrite filter_In, HL, Z.ltb_lt. split; [tauto|]. intros [H1 H2]. split; auto. split; auto. lia. }
  split.
  - rewrite <- Hi. assert (length (y :: filter (fun x => x <? y)%Z L) <= length L) as H1; [|cbn in H1; lia].
    apply NoDup_incl_length.
    + constructor; [intro Hin; apply H in Hin; lia|apply NoDup_filter; auto].
    + intros x [<-|Hx]; [apply HL; auto|]. apply filter_In in Hx. apply Hx.
  - split; auto. eexists. split; [apply NoDup_filter; exact Hnd|]. split; [exact H|reflexivity].
Qed.

Lemma ranked_unique A i j z : ranked A i z -> ranked A j z -> i = j.
Proof.
  intros [_ [L [N1 [H1 E1]]]] [_ [L' [N2 [H2 E2]]]]. rewrite <- E1, <- E2.
  apply Nat.le_antisymm; apply NoDup_incl_length; auto; intros x Hx; [apply H2, H1|apply H1, H2]; auto.
Qed.

(** Positions in the sorted list of the values of rank below [k]. *)
Lemma sorted_below (D : list Z) i z : StronglySorted Z.lt D -> nth_error D i = Some z ->
  length (filter (fun y => y <? z)%Z D) = i.
Proof.
  intro H. revert i. induction H as [|x D Hs IH Hf]; intros i E; [destruct i; discriminate|]. rewrite Forall_forall in Hf.
  destruct i as [|i].
  - cbn in E. injection E as ->. cbn [filter]. rewrite Z.ltb_irrefl. rewrite filter_none; auto. intros y Hy. apply Hf in Hy. apply Z.ltb_ge. lia.
  - cbn in E. pose proof (Hf z (nth_error_In _ _ E)) as Hx. cbn [filter]. apply Z.ltb_lt in Hx. rewrite Hx. cbn. f_equal. auto.
Qed.

Lemma nth_ranked A k D : StronglySorted Z.lt D -> (forall z, In z D <-> exists i, i < k /\ ranked A i z) ->
  (forall i z, i < k -> ranked A i z -> nth_error D i = Some z) /\ length D <= k.
Proof.
  intros Hs HD.
  assert (forall j z i, nth_error D j = Some z -> i < k -> ranked A i z -> j = i) as Hpos.
  { intros j z i Ej Hi Hr. rewrite <- (sorted_below D j z Hs Ej). pose proof Hr as [_ [L [Hnd [HL <-]]]].
    apply Nat.le_antisymm; apply NoDup_incl_length; auto; try (apply NoDup_filter; clear - Hs; induction Hs as [|x D _ IH Hf]; constructor; auto; intro H; rewrite Forall_forall in Hf; apply Hf in H; lia).
    - intros y Hy. apply filter_In in Hy. destruct Hy as [Hy Hlt]. apply HL. split; [|apply Z.ltb_lt; auto]. apply HD in Hy. destruct Hy as [? [_ [Hy _]]]. auto.
    - intros y Hy. apply HL in Hy. destruct Hy as [Hy Hlt]. apply filter_In. split; [|apply Z.ltb_lt; auto]. apply HD.
      destruct (ranked_filter A _ z y Hr Hy Hlt) as [j' [Hj' Hr']]. exists j'. split; auto. lia. }
  split.
  - intros i z Hi Hr. assert (In z D) as Hin by (apply HD; eauto). apply In_nth_error in Hin. destruct Hin as [j Hj].
    rewrite <- (Hpos j z i Hj Hi Hr). auto.
  - destruct (le_lt_dec (length D) k) as [C|C]; auto. exfalso. destruct (nth_error_lt D k C) as [z Hz].
    destruct (proj1 (HD z) (nth_error_In _ _ Hz)) as [i [Hi Hr]]. rewrite (Hpos k z i Hz Hi Hr) in Hi. lia.
Qed.

(** ** Integer forms *)

Section Form.
  Variables (d : nat) (V : list (list Q)) (r0 : list Q) (f : list Z -> Z) (e : Q) (k : nat).
  Hypothesis Hr0 : length r0 = d.
  Hypothesis He : (0 < e)%Q.
  Hypothesis Hf : forall n, length n = d -> (cell_sq d V n == e * inject_Z (f n))%Q.
  Hypothesis Hsep : forall v z z', v = 0%Z \/ (exists i, i < k /\ ranked (values d f) i v) ->
    rounds_to_micro (e * inject_Z v)%Q z -> rounds_to_micro (e * inject_Z (v + 1))%Q z' -> (z < z')%Z.

  Lemma form_nonneg n : length n = d -> (0 <= f n)%Z.
  Proof.
    intro Hn. pose proof (cell_sq_nonneg d V n) as H. rewrite Hf in H by auto. apply Znot_gt_le. intro G.
    assert (inject_Z (f n) < 0)%Q by (change 0%Q with (inject_Z 0); rewrite <- Zlt_Qlt; lia). nra.
  Qed.

  Definition root (v : Z) : Z := sqrt_micro (e * inject_Z v)%Q.

  Lemma root_rounds v : (0 <= v)%Z -> rounds_to_micro (e * inject_Z v)%Q (root v).
  Proof. intro H. apply sqrt_micro_rounds. rewrite Zle_Qle in H. change (inject_Z 0) with 0%Q in H. nra. Qed.

  Lemma root_mono v w : (0 <= v)%Z -> (v <= w)%Z -> (root v <= root w)%Z.
  Proof. intros H0 H. eapply rounds_mono; [apply root_rounds; auto|apply root_rounds; lia|]. apply scale_le; auto. Qed.

  Lemma root_zero : root 0 = 0%Z.
  Proof. eapply rounds_zero; [|apply root_rounds; lia]. change (inject_Z 0) with 0%Q. ring. Qed.

  (** Values of small rank stay different after rounding. *)
  Lemma root_lt v w : (0 <= v)%Z -> v = 0%Z \/ (exists i, i < k /\ ranked (values d f) i v) -> (v < w)%Z -> (root v < root w)%Z.
  Proof.
    intros H0 Hv Hlt. eapply Z.lt_le_trans; [apply (Hsep v); [exact Hv|apply root_rounds; auto|apply root_rounds; lia]|]. apply root_mono; lia.
  Qed.

  Lemma value_pos v : values d f v -> (0 < v)%Z.
  Proof. intros [Hv [n [Hn E]]]. pose proof (form_nonneg n Hn). lia. Qed.

  Lemma form_away n z : away d V [r0] 0 0 n z <-> length n = d /\ z = root (f n).
  Proof.
    unfold away. cbn [nth]. split.
    - intros [Hn Hz]. split; auto. eapply rounds_unique; [exact Hz|apply root_rounds, form_nonneg; auto|]. rewrite own_distance, Hf by auto. reflexivity.
    - intros [Hn ->]. split; auto. eapply rounds_ext; [|apply root_rounds, form_nonneg; auto]. rewrite own_distance, Hf by auto. reflexivity.
  Qed.

  Hypothesis Hk : 1 <= k.

  Lemma form_between z : distance_between d V [r0] 0 0 z <-> exists v, values d f v /\ z = root v.
  Proof.
    split.
    - intros [Hz [n H]]. apply form_away in H. destruct H as [Hn ->]. exists (f n). split; auto. split; eauto. intro E. apply Hz. rewrite E. apply root_zero.
    - intros [v [Hv ->]]. pose proof (value_pos v Hv) as Hp. destruct Hv as [_ [n [Hn <-]]].
      split; [|exists n; apply form_away; auto]. pose proof (root_lt 0 (f n) ltac:(lia) (or_introl eq_refl) Hp) as H. rewrite root_zero in H. lia.
  Qed.

  Lemma form_rank_up i v : i < k -> ranked (values d f) i v -> ranked (distance_between d V [r0] 0 0) i (root v).
  Proof.
    intros Hi Hr. pose proof Hr as [Hv [L [Hnd [HL HLi]]]]. split; [apply form_between; eauto|].
    assert (forall w, In w L -> (0 <= w)%Z /\ exists j, j < k /\ ranked (values d f) j w) as HLr.
    { intros w Hw. apply HL in Hw. destruct Hw as [Hw Hlt]. split; [apply value_pos in Hw; lia|].
      destruct (ranked_filter _ i v w Hr Hw Hlt) as [j [Hj Hrj]]. exists j. split; auto. lia. }
    exists (map root L). split; [|split; [|rewrite map_length; auto]].
    - apply NoDup_map_in; auto. intros x y Hx Hy E. destruct (HLr x Hx) as [X0 X1], (HLr y Hy) as [Y0 Y1].
      destruct (Z.lt_trichotomy x y) as [C|[C|C]]; auto; [apply (root_lt x y) in C; auto; lia|apply (root_lt y x) in C; auto; lia].
    - intro y. rewrite in_map_iff, form_between. split.
      + intros [w [<- Hw]]. destruct (HLr w Hw) as [W0 W1]. apply HL in Hw. split; [exists w; split; auto; apply Hw|]. apply root_lt; auto. apply Hw.
      + intros [[w [Hw ->]] Hlt]. exists w. split; auto. apply HL. split; auto. apply Znot_ge_lt. intro G.
        pose proof (root_mono v w ltac:(apply value_pos in Hv; lia) ltac:(lia)). lia.
  Qed.

  Lemma form_rank_down v i : values d f v -> i < k -> ranked (distance_between d V [r0] 0 0) i (root v) -> ranked (values d f) i v.
  Proof.
    intros Hv. pose proof (value_pos v Hv) as Hp. revert i Hv.
    assert (0 <= v)%Z as H0 by lia. clear Hp. revert v H0.
    apply (Zlt_0_ind (fun v => forall i, values d f v -> i < k -> ranked (distance_between d V [r0] 0 0) i (root v) -> ranked (values d f) i v)).
    intros v IH H0 i Hv Hi Hr. split; auto. pose proof Hr as [Hd [L [Hnd [HL HLi]]]].
    assert (forall w, values d f w -> (w < v)%Z -> (root w < root v)%Z) as Hlt.
    { intros w Hw Hwv. pose proof (value_pos w Hw) as Wp. pose proof (root_mono w v ltac:(lia) ltac:(lia)) as Hle.
      apply root_lt; auto; [lia|]. right. destruct (Z.eq_dec (root w) (root v)) as [E|E].
      - exists i. split; auto. apply (IH w); auto; [lia|]. rewrite E. auto.
      - destruct (ranked_filter _ i (root v) (root w) Hr) as [j [Hj Hrj]]; [apply form_between; eauto|lia|].
        exists j. split; [lia|]. apply (IH w); auto; lia. }
    assert (exists Lv, Forall2 (fun z w => values d f w /\ z = root w) L Lv) as [Lv HLv].
    { assert (forall z, In z L -> exists w, values d f w /\ z = root w) as H by (intros z Hz; apply form_between, HL; auto).
      clear - H. induction L as [|z L IHL]; [exists []; constructor|]. destruct (H z (or_introl eq_refl)) as [w Hw].
      destruct IHL as [Lv HLv]; [intros y Hy; apply H; right; auto|]. exists (w :: Lv). constructor; auto. }
    exists Lv. split; [|split].
    - assert (map root Lv = L) as E by (clear - HLv; induction HLv as [|z w L Lv [_ ->] _ IHv]; cbn; congruence).
      apply (NoDup_map_inv root). rewrite E. auto.
    - intro w. assert (In w Lv -> values d f w /\ In (root w) L) as Hin.
      { clear - HLv. induction HLv as [|z y L Lv [Hy ->] _ IHv]; [intros []|]. intros [<-|Hw]; [split; [auto|left; auto]|]. destruct (IHv Hw). split; [auto|right; auto]. }
      split.
      + intro Hw. destruct (Hin Hw) as [W1 W2]. split; auto. apply HL in W2. apply Znot_ge_lt. intro G. pose proof (root_mono v w ltac:(lia) ltac:(lia)). lia.
      + intros [Hw Hwv]. pose proof (Hlt w Hw Hwv) as Hrt. assert (In (root w) L) as Hz by (apply HL; split; auto; apply form_between; eauto).
        assert (forall z, In z L -> exists y, In y Lv /\ values d f y /\ z = root y) as Hback.
        { clear - HLv. induction HLv as [|z y L Lv [Hy ->] _ IHv]; intros x [].
          - subst. exists y. split; [left; auto|auto].
          - destruct (IHv x H) as [y' [Hy' ?]]. exists y'. split; [right; auto|auto]. }
        destruct (Hback _ Hz) as [y [Hy [Vy Ey]]].
        assert (y < v)%Z as Hyv by (apply Znot_ge_lt; intro G; pose proof (root_mono v y ltac:(lia) ltac:(lia)); lia).
        assert (forall x, values d f x -> (x < v)%Z -> exists j, j < k /\ ranked (values d f) j x) as Hrank.
        { intros x Hx Hxv. destruct (ranked_filter _ i (root v) (root x) Hr) as [j [Hj Hrj]]; [apply form_between; eauto|apply Hlt; auto|].
          exists j. split; [lia|]. apply (IH x); auto; [apply value_pos in Hx; lia|lia]. }
        destruct (Z.lt_trichotomy w y) as [C|[<-|C]]; auto; exfalso.
        * pose proof (root_lt w y ltac:(apply value_pos in Hw; lia) (or_intror (Hrank w Hw Hwv)) C). lia.
        * pose proof (root_lt y w ltac:(apply value_pos in Vy; lia) (or_intror (Hrank y Vy Hyv)) C). lia.
    - rewrite <- HLi. symmetry. clear - HLv. induction HLv; cbn; congruence.
  Qed.

  Lemma form_true n z : true_neighbor d V [r0] [[k]] 0 0 n z <->
    length n = d /\ z = root (f n) /\ exists i, i < k /\ ranked (values d f) i (f n).
  Proof.
    unfold true_neighbor. cbn [nth]. rewrite form_away. split.
    - intros [[Hn ->] [i [Hi Hr]]]. split; auto. split; auto. exists i. split; auto. apply form_rank_down; auto.
      destruct Hr as [Hb _]. apply form_between in Hb. destruct Hb as [v [Hv E]]. split; [|eauto].
      intro E0. rewrite E0, root_zero in E. pose proof (root_lt 0 v ltac:(lia) (or_introl eq_refl) (value_pos v Hv)) as H. rewrite root_zero in H. lia.
    - intros [Hn [-> [i [Hi Hr]]]]. split; auto. exists i. split; auto. apply form_rank_up; auto.
  Qed.

  Hypothesis Hbox : forall n i, length n = d -> i < k -> ranked (values d f) i (f n) -> forall x, In x n -> (Z.abs x <= 2 * Z.of_nat k + 1)%Z.

  Lemma form_reach n z : true_neighbor d V [r0] [[k]] 0 0 n z -> in_reach d V k n.
  Proof.
    intro H. apply form_true in H. destruct H as [Hn [_ [i [Hi Hr]]]]. apply few_in_reach.
    - split; auto. intros x Hx. specialize (Hbox n i Hn Hi Hr x Hx). lia.
    - intros l Hl Hsmall. destruct (lengths_exist d V) as [lengths Hlen]. exists lengths. split; auto.
      pose proof Hr as [_ [L [_ [HL HLi]]]].
      assert (length l <= length (map (fun v => e * inject_Z v)%Q (0%Z :: L))) as H.
      { apply spread_le; auto. intros x Hx. destruct (Hsmall x Hx) as [n' [[Hn' _] [E Hlt]]]. rewrite Hf in E, Hlt by auto.
        exists (e * inject_Z (f n'))%Q. split; [|exact E]. apply in_map_iff. exists (f n'). split; auto.
        destruct (Z.eq_dec (f n') 0) as [->|Hne]; [left; auto|right]. apply HL. split; [split; eauto|].
        apply Znot_ge_lt. intro G. pose proof (scale_le e (f n) (f n') He ltac:(lia)). rewrite <- E in Hlt. lra. }
      rewrite map_length in H. cbn in H. lia.
  Qed.
End Form.

Lemma form_shells :
  forall query s s' r0 k f e,
    correct_tree query -> valid_basis (st_basis s) -> 1 <= b_dim (st_basis s) -> in_step s -> 1 <= k ->
    st_positions s = [r0] -> st_connections s = Some [[k]] -> analyze query s = (s', Ok tt) ->
    let d := b_dim (st_basis s) in
    let V := b_mat (st_basis s) in
    (0 < e)%Q -> (forall n, length n = d -> (cell_sq d V n == e * inject_Z (f n))%Q) ->
    (forall v z z', v = 0%Z \/ (exists i, i < k /\ ranked (values d f) i v) ->
       rounds_to_micro (e * inject_Z v)%Q z -> rounds_to_micro (e * inject_Z (v + 1))%Q z' -> (z < z')%Z) ->
    (forall n i, length n = d -> i < k -> ranked (values d f) i (f n) -> forall x, In x n -> (Z.abs x <= 2 * Z.of_nat k + 1)%Z) ->
    forall N, length N = d ->
      (forall i v, i < k -> ranked (values d f) i v ->
         exists L, get_neighbors s' N 0 i = Ok L /\ NoDup L /\
           forall t, In t L <-> exists n, length n = d /\ f n = v /\ t = map2 Z.add n N ++ [0%Z]) /\
      (forall i, k <= i -> get_neighbors s' N 0 i = Raise IndexError).
Proof.
  intros query s s' r0 k f e Hq Hb Hd Hs Hk ER Ec Han d V He Hf Hsep Hbox N HN.
  assert (length r0 = d) as Hr0 by (destruct Hs as [_ [Hs _]]; apply Hs; rewrite ER; left; auto).
  pose proof (C105_true_neighbors query s s' [[k]] k Hq Hb Hd Hs Ec Han) as T. cbv zeta in T. fold d V in T. rewrite ER in T.
  assert (forall a c, nth c (nth a [[k]] []) 0 <= k) as Hm1 by (intros [|[|a]] [|[|c]]; cbn; lia).
  destruct (T Hm1 (ex_intro _ 0 (ex_intro _ 0 eq_refl))) with (a := 0) as [Ds [Hsort [HDs Hget]]]; [|cbn; lia|].
  { intros [|a] [|c] n z Ha Hc; cbn in Ha, Hc; try lia. intro H. eapply form_reach; eauto. }
  assert (forall n z, true_neighbor d V [r0] [[k]] 0 0 n z <-> length n = d /\ z = root e (f n) /\ exists i, i < k /\ ranked (values d f) i (f n)) as Htrue
    by (intros; apply form_true; auto).
  destruct (nth_ranked (distance_between d V [r0] 0 0) k Ds Hsort) as [Hpos Hlen].
  { intro z. rewrite HDs. split.
    - intros [[|c] [n [Hc H]]]; cbn in Hc; try lia. apply H.
    - intros [i [Hi Hr]]. pose proof Hr as [[Hz [n Hn]] _]. exists 0, n. split; [cbn; lia|]. split; [auto|]. exists i. cbn. auto. }
  split.
  - intros i v Hi Hr. assert (ranked (distance_between d V [r0] 0 0) i (root e v)) as Hr' by (eapply form_rank_up; eauto).
    specialize (Hget N i HN). rewrite (Hpos i _ Hi Hr') in Hget. destruct Hget as [L [E [Hnd HL]]]. exists L. split; auto. split; auto.
    intro t. rewrite HL. split.
    + intros [n [[|c] [Hc [-> H]]]]; cbn in Hc; try lia. apply Htrue in H. destruct H as [Hn [Ez [j [Hj Hrj]]]]. exists n. split; auto. split; auto.
      assert (ranked (distance_between d V [r0] 0 0) j (root e v)) as Hr'' by (rewrite Ez; eapply form_rank_up; eauto).
      assert (0 <= v)%Z by (destruct Hr as [Hv _]; eapply value_pos in Hv; eauto; lia).
      assert (0 <= f n)%Z by (eapply form_nonneg; eauto).
      destruct (Z.lt_trichotomy (f n) v) as [C|[C|C]]; auto; exfalso.
      * assert (root e (f n) < root e v)%Z; [|lia]. eapply root_lt; eauto.
      * assert (root e v < root e (f n))%Z; [|lia]. eapply root_lt; eauto.
    + intros [n [Hn [Ev ->]]]. exists n, 0. split; [cbn; lia|]. split; auto. apply Htrue. rewrite Ev. split; auto. split; auto. eauto.
  - intros i Hi. specialize (Hget N i HN). rewrite (proj2 (nth_error_None Ds i)) in Hget by lia. exact Hget.
Qed.

(** ** Ranks of the values *)

Lemma square_inj c x y : (0 < c)%Z -> (c * (Z.of_nat x * Z.of_nat x) = c * (Z.of_nat y * Z.of_nat y))%Z -> x = y.
Proof.
  intros Hc E. apply Z.mul_cancel_l in E; [|lia]. destruct (lt_eq_lt_dec x y) as [[H|H]|H]; auto; exfalso;
    [assert (Z.of_nat x < Z.of_nat y)%Z by lia|assert (Z.of_nat y < Z.of_nat x)%Z by lia]; nia.
Qed.

Lemma square_le c x y : (0 < c)%Z -> x <= y -> (c * (Z.of_nat x * Z.of_nat x) <= c * (Z.of_nat y * Z.of_nat y))%Z.
Proof. intros Hc H. apply Z.mul_le_mono_nonneg_l; [lia|]. apply Z.mul_le_mono_nonneg; lia. Qed.

Lemma axis_bound d f c u i v : (0 < c)%Z -> length u = d -> (forall j, f (map (Z.mul j) u) = c * (j * j))%Z ->
  ranked (values d f) i v -> (v <= c * (Z.of_nat (S i) * Z.of_nat (S i)))%Z.
Proof.
  intros Hc Hu Hax [Hv [L [Hnd [HL Hi]]]]. apply Znot_gt_le. intro G.
  set (l := map (fun j => c * (Z.of_nat j * Z.of_nat j))%Z (seq 1 (S i))).
  assert (length l <= length L) as H; [|unfold l in H; rewrite map_length, seq_length in H; lia].
  apply NoDup_incl_length.
  - unfold l. apply NoDup_map_in; [intros x y Hx Hy E; apply (square_inj c); auto|apply seq_NoDup].
  - intros y Hy. unfold l in Hy. apply in_map_iff in Hy. destruct Hy as [j [<- Hj]]. apply in_seq in Hj. apply HL. split; [split|].
    + nia.
    + exists (map (Z.mul (Z.of_nat j)) u). split; [rewrite map_length; auto|apply Hax].
    + pose proof (square_le c j (S i) Hc ltac:(lia)). lia.
Qed.

(** The first [k] values exist. *)
Lemma rank_exists d f c u k : (0 < c)%Z -> length u = d -> (forall j, f (map (Z.mul j) u) = c * (j * j))%Z ->
  (forall n, length n = d -> 0 <= f n)%Z ->
  (forall n x, length n = d -> f n <= c * (Z.of_nat k * Z.of_nat k) -> In x n -> Z.abs x <= 2 * Z.of_nat k + 1)%Z ->
  forall i, i < k -> exists v, ranked (values d f) i v.
Proof.
  intros Hc Hu Hax Hpos Hbox i Hi. set (B := (c * (Z.of_nat k * Z.of_nat k))%Z) in *.
  set (cells := product (repeat (zrange (- (2 * Z.of_nat k + 1)) (2 * Z.of_nat k + 2)) d)).
  set (D := filter (fun v => existsb (fun n => f n =? v)%Z cells) (zrange 1 (B + 1))).
  assert (forall v, In v D <-> values d f v /\ (v <= B)%Z) as HD.
  { intro v. unfold D. rewrite filter_In, In_zrange, existsb_exists. split.
    - intros [Hv [n [Hn E]]]. apply Z.eqb_eq in E. apply In_product_repeat in Hn. split; [split; [lia|exists n; split; [apply Hn|auto]]|lia].
    - intros [[Hv [n [Hn E]]] Hle]. pose proof (Hpos n Hn). split; [lia|]. exists n. split; [|apply Z.eqb_eq; auto].
      apply In_product_repeat. split; auto. intros x Hx. apply In_zrange. specialize (Hbox n x Hn ltac:(lia) Hx). lia. }
  assert (StronglySorted Z.lt D) as Hs by (apply StronglySorted_filter', zrange_sorted).
  assert (k <= length D) as Hlen.
  { set (l := map (fun j => c * (Z.of_nat j * Z.of_nat j))%Z (seq 1 k)).
    assert (length l <= length D) as H; [|unfold l in H; rewrite map_length, seq_length in H; lia].
    apply NoDup_incl_length.
    - unfold l. apply NoDup_map_in; [intros x y Hx Hy E; apply (square_inj c); auto|apply seq_NoDup].
    - intros y Hy. unfold l in Hy. apply in_map_iff in Hy. destruct Hy as [j [<- Hj]]. apply in_seq in Hj. apply HD. split; [split|].
      + nia.
      + exists (map (Z.mul (Z.of_nat j)) u). split; [rewrite map_length; auto|apply Hax].
      + unfold B. apply square_le; auto. lia. }
  destruct (nth_error_lt D i ltac:(lia)) as [v Hv]. exists v. destruct (proj1 (HD v) (nth_error_In _ _ Hv)) as [V1 V2]. split; auto.
  exists (filter (fun y => y <? v)%Z D). split; [apply NoDup_filter, sorted_lt_NoDup; auto|]. split; [|apply sorted_below; auto].
  intro y. rewrite filter_In, HD, Z.ltb_lt. split; [tauto|]. intros [H1 H2]. split; auto. split; auto. lia.
Qed.

(** Rounding separates the values up to [c k^2]. *)
Lemma rounds_step e v z z' B : (0 <= v <= B)%Z -> (4 * inject_Z B + 2 <= e * 1000000000000)%Q ->
  rounds_to_micro (e * inject_Z v)%Q z -> rounds_to_micro (e * inject_Z (v + 1))%Q z' -> (z < z')%Z.
Proof.
  intros [Hv HB] HE [Z0 [_ [H1 _]]] [Z0' [H2 _]]. cbv zeta in *. apply Znot_ge_lt. intro G.
  rewrite inject_Z_plus in H2. change (inject_Z 1) with 1%Q in H2. rewrite Zle_Qle in Hv, HB, Z0'. change (inject_Z 0) with 0%Q in Hv, Z0'.
  assert (inject_Z z' <= inject_Z z)%Q as G' by (rewrite <- Zle_Qle; lia).
  set (E := (e * 1000000000000)%Q) in *. set (b := inject_Z B) in *. set (w := inject_Z v) in *. set (y := inject_Z z') in *.
  assert (E * (w + 1) <= (y + (1#2)) * (y + (1#2)))%Q as U by (unfold E; lra).
  destruct (Z.eq_dec z 0) as [->|Hz].
  - change (inject_Z 0) with 0%Q in G'. assert (y == 0)%Q as Y by lra. rewrite Y in U. nra.
  - specialize (H1 ltac:(lia)). assert (1 <= inject_Z z)%Q as X1 by (change 1%Q with (inject_Z 1); rewrite <- Zle_Qle; lia).
    set (x := inject_Z z) in *. assert ((x - (1#2)) * (x - (1#2)) <= E * w)%Q as W by (unfold E; lra).
    assert ((y + (1#2)) * (y + (1#2)) <= (x + (1#2)) * (x + (1#2)))%Q as Q1 by nra.
    assert (E <= 2 * x)%Q as Q2 by lra.
    assert ((E - 1) * (E - 1) <= 4 * ((x - (1#2)) * (x - (1#2))))%Q as Q3 by nra.
    assert (E * w <= E * b)%Q as Q4 by nra. nra.
Qed.

(** ** One atom and any number of distances *)

(** A lattice with one atom per cell whose squared lengths are [e] times the values of an integer function [f] of the
    cell.  [f] grows like [c j^2] along some direction [u], cells with [f n <= c k^2] have coordinates up to [2 k + 1], and
    [e] is not too small for the rounding.  Then [get_neighbors] with distance index [i < k] returns the sites of the
    infinite lattice at the [i]-th smallest length. *)
Theorem C105_form :
  forall query s s' r0 k f e c u,
    correct_tree query -> valid_basis (st_basis s) -> 1 <= b_dim (st_basis s) -> in_step s -> 1 <= k ->
    st_positions s = [r0] -> st_connections s = Some [[k]] -> analyze query s = (s', Ok tt) ->
    let d := b_dim (st_basis s) in
    let V := b_mat (st_basis s) in
    (0 < c)%Z -> length u = d -> (forall j, f (map (Z.mul j) u) = c * (j * j))%Z ->
    (forall n, length n = d -> (cell_sq d V n == e * inject_Z (f n))%Q) ->
    (forall n x, length n = d -> f n <= c * (Z.of_nat k * Z.of_nat k) -> In x n -> Z.abs x <= 2 * Z.of_nat k + 1)%Z ->
    (4 * inject_Z (c * (Z.of_nat k * Z.of_nat k)) + 2 <= e * 1000000000000)%Q ->
    forall N, length N = d ->
      (forall i, i < k -> exists v L, ranked (values d f) i v /\ get_neighbors s' N 0 i = Ok L /\ NoDup L /\
         forall t, In t L <-> exists n, length n = d /\ f n = v /\ t = map2 Z.add n N ++ [0%Z]) /\
      (forall i, k <= i -> get_neighbors s' N 0 i = Raise IndexError).
Proof.
  intros query s s' r0 k f e c u Hq Hb Hd Hs Hk ER Ec Han d V Hc Hu Hax Hf Hbox HE N HN.
  set (B := (c * (Z.of_nat k * Z.of_nat k))%Z) in *.
  assert (0 <= B)%Z as HB by (unfold B; nia).
  assert (0 < e)%Q as He by (rewrite Zle_Qle in HB; change (inject_Z 0) with 0%Q in HB; lra).
  assert (forall n, length n = d -> 0 <= f n)%Z as Hpos by (intros n Hn; exact (form_nonneg d V (repeat 0%Q d) f e (repeat_length _ _) He Hf n Hn)).
  assert (forall i v, i < k -> ranked (values d f) i v -> (0 <= v <= B)%Z) as Hrank.
  { intros i v Hi Hr. pose proof (axis_bound d f c u i v Hc Hu Hax Hr) as H. destruct Hr as [[Hv [n [Hn En]]] _]. pose proof (Hpos n Hn).
    split; [lia|]. unfold B. pose proof (square_le c (S i) k Hc ltac:(lia)). lia. }
  destruct (form_shells query s s' r0 k f e Hq Hb Hd Hs Hk ER Ec Han He Hf) with (N := N) as [H1 H2]; auto.
  - intros v z z' Hv. apply (rounds_step e v z z' B); auto. destruct Hv as [->|[i [Hi Hr]]]; [lia|]. eapply Hrank; eauto.
  - intros n i Hn Hi Hr x Hx. apply (Hbox n x); auto. eapply Hrank; eauto.
  - split; auto. intros i Hi. destruct (rank_exists d f c u k Hc Hu Hax Hpos Hbox i Hi) as [v Hv]. exists v.
    destruct (H1 i v Hi Hv) as [L HL]. exists L. auto.
Qed.

(** Simple cubic lattices: the distances are [a] times the roots of the sums of [d] squares. *)
Lemma squares_zs n : squares n = zs (length n) (fun k => nth k n 0%Z).
Proof.
  induction n as [|x n IH] using rev_ind; [reflexivity|]. rewrite app_length, Nat.add_1_r. cbn [zs].
  rewrite app_nth2, Nat.sub_diag by lia. cbn [nth]. transitivity (squares n + x * x)%Z.
  - clear IH. unfold squares. induction n as [|y n IH]; cbn [app fold_right]; [lia|]. rewrite IH. lia.
  - rewrite IH. assert (forall k, k < length n -> nth k n 0%Z = nth k (n ++ [x]) 0%Z) as H by (intros k Hk; rewrite app_nth1; auto).
    rewrite (zs_ext _ _ _ H). lia.
Qed.

Lemma squares_zero j m : squares (map (Z.mul j) (repeat 0%Z m)) = 0%Z.
Proof. unfold squares. induction m as [|m IH]; cbn [repeat map fold_right]; auto. rewrite IH. ring. Qed.

Theorem C105_hypercubic_shells :
  forall query inv d a at1 k, correct_tree query -> 1 <= d -> valid_basis (hypercubic inv d a) -> 1 <= k -> (0 < a)%Q ->
    (4 * inject_Z (Z.of_nat k * Z.of_nat k) + 2 <= a * a * 1000000000000)%Q ->
    exists s, preset query (hypercubic inv d a) [(None, at1)] k = Ok s /\
      forall N, length N = d ->
        (forall i, i < k -> exists v L, ranked (values d squares) i v /\ get_neighbors s N 0 i = Ok L /\ NoDup L /\
           forall t, In t L <-> exists M, length M = d /\ squares (map2 Z.sub M N) = v /\ t = M ++ [0%Z]) /\
        (forall i, k <= i -> get_neighbors s N 0 i = Raise IndexError).
Proof.
  intros query inv d a at1 k Hq Hd Hb Hk Ha HE. assert (b_dim (hypercubic inv d a) = d) as Hbd by apply hypercubic_dim.
  destruct (preset_one query (hypercubic inv d a) at1 k Hb ltac:(lia) ltac:(lia)) as [s [s' [E [Han [Hs [Eb [Ep Ec]]]]]]].
  exists s'. split; auto. intros N HN.
  pose proof (C105_form query s s' _ k squares (a * a)%Q 1%Z (1%Z :: repeat 0%Z (d - 1)) Hq ltac:(rewrite Eb; auto) ltac:(rewrite Eb, Hbd; lia) Hs Hk Ep Ec Han) as T.
  cbv zeta in T. rewrite Eb, Hbd in T. set (V := b_mat (hypercubic inv d a)) in *.
  assert (cubic_lattice d V a) as HV by (split; [lra|intros; apply hypercubic_entry; auto]).
  destruct T with (N := N) as [T1 T2]; auto.
  - lia.
  - cbn [length]. rewrite repeat_length. lia.
  - intro j. cbn [map]. change (squares (j * 1 :: map (Z.mul j) (repeat 0 (d - 1))))%Z with (j * 1 * (j * 1) + squares (map (Z.mul j) (repeat 0 (d - 1))))%Z.
    rewrite squares_zero. ring.
  - intros n Hn. rewrite <- (own_distance d V (repeat 0%Q d) n (repeat_length _ _)), squares_zs, Hn. apply origin_sq; auto. apply repeat_length.
  - intros n x Hn Hle Hx. apply (In_nth _ _ 0%Z) in Hx. destruct Hx as [j [Hj <-]]. rewrite squares_zs, Hn in Hle.
    pose proof (zs_entry d (fun k => nth k n 0%Z) j ltac:(lia)) as H. cbv beta in H. nia.
  - rewrite Z.mul_1_l. exact HE.
  - split; auto. intros i Hi. destruct (T1 i Hi) as [v [L [Hv [E1 [Hnd HL]]]]]. exists v, L. split; auto. split; auto. split; auto.
    intro t. rewrite HL. split.
    + intros [n [Hn [En ->]]]. exists (map2 Z.add n N). split; [rewrite map2_length; lia|]. split; auto. rewrite <- En. f_equal.
      apply (list_eq_nth _ _ 0%Z); [rewrite !map2_length; lia|]. intros j Hj. rewrite !map2_length in Hj. rewrite !(nth_map2 _ _ _ _ 0%Z 0%Z) by (rewrite ?map2_length; lia). lia.
    + intros [M [HM [EM ->]]]. exists (map2 Z.sub M N). split; [rewrite map2_length; lia|]. split; auto. f_equal.
      apply (list_eq_nth _ _ 0%Z); [rewrite !map2_length; lia|]. intros j Hj. rewrite !(nth_map2 _ _ _ _ 0%Z 0%Z) by (rewrite ?map2_length; lia). lia.
Qed.

Lemma half_bound x y z w k : (2 * w = x + y - z)%Z -> (x * x + y * y + z * z <= 3 * (k * k))%Z -> (0 <= k)%Z -> (Z.abs w <= 2 * k + 1)%Z.
Proof.
  intros E H Hk. assert ((x + y - z) * (x + y - z) <= 3 * (x * x + y * y + z * z))%Z as H1.
  { pose proof (Z.square_nonneg (x - y)). pose proof (Z.square_nonneg (x + z)). pose proof (Z.square_nonneg (y + z)). lia. }
  rewrite <- E in H1. nia.
Qed.

(** Face centred cubic. *)
Theorem C105_fcc_shells :
  forall query inv a at1 k, correct_tree query -> inverts inv 3 -> 1 <= k ->
    (4 * inject_Z (2 * (Z.of_nat k * Z.of_nat k)) + 2 <= a * a / 4 * 1000000000000)%Q ->
    exists s, preset query (fcc inv a) [(None, at1)] k = Ok s /\
      forall N, length N = 3 ->
        (forall i, i < k -> exists v L, ranked (values 3 fcc_length) i v /\ get_neighbors s N 0 i = Ok L /\ NoDup L /\
           forall t, In t L <-> exists n, length n = 3 /\ fcc_length n = v /\ t = map2 Z.add n N ++ [0%Z]) /\
        (forall i, k <= i -> get_neighbors s N 0 i = Raise IndexError).
Proof.
  intros query inv a at1 k Hq I3 Hk HE.
  assert (~ (a == 0)%Q) as Ha0.
  { intro E. rewrite E in HE. assert (0 <= 2 * (Z.of_nat k * Z.of_nat k))%Z as H by nia. rewrite Zle_Qle in H. change (inject_Z 0) with 0%Q in H.
    assert (0 * 0 / 4 * 1000000000000 == 0)%Q by reflexivity. lra. }
  pose proof (fcc_valid inv a I3 Ha0) as Hb. assert (b_dim (fcc inv a) = 3) as Hd by reflexivity.
  destruct (preset_one query (fcc inv a) at1 k Hb ltac:(lia) ltac:(lia)) as [s [s' [E [Han [Hs [Eb [Ep Ec]]]]]]].
  exists s'. split; auto. intros N HN.
  pose proof (C105_form query s s' _ k fcc_length (a * a / 4)%Q 2%Z [1; 0; 0]%Z Hq ltac:(rewrite Eb; auto) ltac:(rewrite Eb, Hd; lia) Hs Hk Ep Ec Han) as T.
  cbv zeta in T. rewrite Eb, Hd in T. apply T; auto.
  - lia.
  - intro j. unfold fcc_length. cbn [map]. ring.
  - intros n Hn. destruct (three n Hn) as [n1 [n2 [n3 ->]]]. apply fcc_sq.
  - intros n x Hn Hle Hx. destruct (three n Hn) as [n1 [n2 [n3 ->]]]. cbn [fcc_length] in Hle.
    destruct Hx as [<-|[<-|[<-|[]]]];
      [apply (half_bound (n1 + n2) (n1 + n3) (n2 + n3))|apply (half_bound (n1 + n2) (n2 + n3) (n1 + n3))|apply (half_bound (n1 + n3) (n2 + n3) (n1 + n2))]; try lia; nia.
Qed.

(** Body centred cubic. *)
Theorem C105_bcc_shells :
  forall query inv a at1 k, correct_tree query -> inverts inv 3 -> 1 <= k ->
    (4 * inject_Z (3 * (Z.of_nat k * Z.of_nat k)) + 2 <= a * a / 4 * 1000000000000)%Q ->
    exists s, preset query (bcc inv a) [(None, at1)] k = Ok s /\
      forall N, length N = 3 ->
        (forall i, i < k -> exists v L, ranked (values 3 bcc_length) i v /\ get_neighbors s N 0 i = Ok L /\ NoDup L /\
           forall t, In t L <-> exists n, length n = 3 /\ bcc_length n = v /\ t = map2 Z.add n N ++ [0%Z]) /\
        (forall i, k <= i -> get_neighbors s N 0 i = Raise IndexError).
Proof.
  intros query inv a at1 k Hq I3 Hk HE.
  assert (~ (a == 0)%Q) as Ha0.
  { intro E. rewrite E in HE. assert (0 <= 3 * (Z.of_nat k * Z.of_nat k))%Z as H by nia. rewrite Zle_Qle in H. change (inject_Z 0) with 0%Q in H.
    assert (0 * 0 / 4 * 1000000000000 == 0)%Q by reflexivity. lra. }
  pose proof (bcc_valid inv a I3 Ha0) as Hb. assert (b_dim (bcc inv a) = 3) as Hd by reflexivity.
  destruct (preset_one query (bcc inv a) at1 k Hb ltac:(lia) ltac:(lia)) as [s [s' [E [Han [Hs [Eb [Ep Ec]]]]]]].
  exists s'. split; auto. intros N HN.
  pose proof (C105_form query s s' _ k bcc_length (a * a / 4)%Q 3%Z [1; 0; 0]%Z Hq ltac:(rewrite Eb; auto) ltac:(rewrite Eb, Hd; lia) Hs Hk Ep Ec Han) as T.
  cbv zeta in T. rewrite Eb, Hd in T. apply T; auto.
  - lia.
  - intro j. unfold bcc_length. cbn [map]. ring.
  - intros n Hn. destruct (three n Hn) as [n1 [n2 [n3 ->]]]. apply bcc_sq.
  - intros n x Hn Hle Hx. destruct (three n Hn) as [n1 [n2 [n3 ->]]]. cbn [bcc_length] in Hle.
    destruct Hx as [<-|[<-|[<-|[]]]];
      [apply (half_bound (n1 + n2 - n3) (n1 - n2 + n3) 0)|apply (half_bound (n1 + n2 + n3) 0 (n1 - n2 + n3))|apply (half_bound (n1 + n2 + n3) 0 (n1 + n2 - n3))]; try lia;
      pose proof (Z.square_nonneg (n1 + n2 - n3)); pose proof (Z.square_nonneg (n1 - n2 + n3)); pose proof (Z.square_nonneg (n1 + n2 + n3)); lia.
Qed.

(** ** Examples *)

(** The square lattice with three distances: [a], [sqrt 2 a], [2 a]. *)
Example C105_hypercubic_shells_example :
  (4 * inject_Z (3 * 3) + 2 <= 2 * 2 * 1000000000000)%Q /\
  ranked (values 2 squares) 1 2 /\
  exists s, preset brute (hypercubic diagonal_inverse 2 2) [(None, ex_atom "A")] 3 = Ok s /\
    get_neighbors s [1; 1]%Z 0 1 = Ok [[0; 0; 0]; [0; 2; 0]; [2; 0; 0]; [2; 2; 0]]%Z /\
    get_neighbors s [1; 1]%Z 0 2 = Ok [[-1; 1; 0]; [1; -1; 0]; [1; 3; 0]; [3; 1; 0]]%Z /\
    get_neighbors s [1; 1]%Z 0 3 = Raise IndexError.
Proof.
  split; [discriminate|]. split.
  - split; [split; [discriminate|exists [1; 1]%Z; split; reflexivity]|]. exists [1%Z]. split; [repeat constructor; intros []|]. split; [|reflexivity].
    intro y. split.
    + intros [<-|[]]. split; [split; [discriminate|exists [1; 0]%Z; split; reflexivity]|reflexivity].
    + intros [[Hy [n [Hn <-]]] Hlt]. destruct n as [|x [|y [|]]]; try discriminate Hn. unfold squares in *. cbn [fold_right] in *. left. nia.
  - eexists. split; [vm_compute; reflexivity|]. split; [|split]; vm_compute; reflexivity.
Qed.

(** The second neighbours in the face centred lattice: the 6 sites at distance [a]. *)
Example C105_fcc_shells_example :
  (4 * inject_Z (2 * (2 * 2)) + 2 <= 4 * 4 / 4 * 1000000000000)%Q /\
  exists s, preset brute (fcc inverse_small 4) [(None, ex_atom "Al")] 2 = Ok s /\
    get_neighbors s [0; 0; 0]%Z 0 1 =
      Ok [[-1; -1; 1; 0]; [-1; 1; -1; 0]; [-1; 1; 1; 0]; [1; -1; -1; 0]; [1; -1; 1; 0]; [1; 1; -1; 0]]%Z.
Proof. split; [discriminate|]. eexists. split; vm_compute; reflexivity. Qed.

(** The second neighbours in the body centred lattice: the 6 sites at distance [a]. *)
Example C105_bcc_shells_example :
  (4 * inject_Z (3 * (2 * 2)) + 2 <= 4 * 4 / 4 * 1000000000000)%Q /\
  exists s, preset brute (bcc inverse_small 4) [(None, ex_atom "Fe")] 2 = Ok s /\
    exists L, get_neighbors s [0; 0; 0]%Z 0 1 = Ok L /\ length L = 6 /\ forall t, In t L -> bcc_length (removelast t) = 4%Z.
Proof.
  split; [discriminate|]. eexists. split; [vm_compute; reflexivity|]. eexists. split; [vm_compute; reflexivity|]. split; [reflexivity|].
  intros t Ht. repeat destruct Ht as [<-|Ht]; try reflexivity. destruct Ht.
Qed.

(** The hypotheses of the general theorem in a rectangular lattice with sides 1 and 2: squared lengths [x^2 + 4 y^2]. *)
Definition rectangle_length (n : list Z) : Z := match n with [x; y] => (x * x + 4 * (y * y))%Z | _ => 0%Z end.

Example C105_form_example :
  let s := one_atom (mkBasis [[1; 0]; [0; 2]]%Q [[1; 0]; [0; 1#2]]%Q) 2 in
  valid_basis (st_basis s) /\ in_step s /\ st_positions s = [[0; 0]%Q] /\ st_connections s = Some [[2]] /\
  (forall j, rectangle_length (map (Z.mul j) [1; 0]%Z) = 1 * (j * j))%Z /\
  (forall n, length n = 2 -> (cell_sq 2 (b_mat (st_basis s)) n == 1 * inject_Z (rectangle_length n))%Q) /\
  (forall n x, length n = 2 -> (rectangle_length n <= 1 * (2 * 2))%Z -> In x n -> (Z.abs x <= 2 * 2 + 1)%Z) /\
  (4 * inject_Z (1 * (2 * 2)) + 2 <= 1 * 1000000000000)%Q /\
  exists s', analyze brute s = (s', Ok tt) /\
    get_neighbors s' [0; 0]%Z 0 0 = Ok [[-1; 0; 0]; [1; 0; 0]]%Z /\
    get_neighbors s' [0; 0]%Z 0 1 = Ok [[-2; 0; 0]; [0; -1; 0]; [0; 1; 0]; [2; 0; 0]]%Z.
Proof.
  intro s.
  split.
  { split; [split; [reflexivity|intros r Hr; cbn in Hr; intuition (subst; reflexivity)]|].
    split; [split; [reflexivity|intros r Hr; cbn in Hr; intuition (subst; reflexivity)]|].
    split; intros [|[|i]] [|[|j]] Hi Hj; cbn in Hi, Hj; try lia; reflexivity. }
  split; [apply one_atom_in_step|]. split; [reflexivity|]. split; [reflexivity|].
  split; [intro j; unfold rectangle_length; cbn [map]; ring|]. split.
  { intros n Hn. destruct n as [|x [|y [|]]]; try discriminate Hn. cbn -[Z.mul Z.add]. repeat rewrite ?inject_Z_plus, ?inject_Z_mult. change (inject_Z 4) with 4%Q. ring. }
  split.
  { intros n x Hn Hle Hx. destruct n as [|y [|w [|]]]; try discriminate Hn. cbn [rectangle_length] in Hle. destruct Hx as [<-|[<-|[]]]; nia. }
  split; [discriminate|]. eexists. split; [vm_compute; reflexivity|]. split; vm_compute; reflexivity.
Qed.

Print Assumptions C105_form.
Print Assumptions C105_hypercubic_shells.
Print Assumptions C105_fcc_shells.
Print Assumptions C105_bcc_shells.
