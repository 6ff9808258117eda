(** * Building sites *)
From Coq Require Import List ZArith QArith Qround Bool Arith Lia Lqa Permutation Sorting.Sorted.
From Verif Require Import Np NpFacts UtilsModel UtilsProofs LinAlg LinFacts SpecUtils SpecBasis SpecSpatial BasisModel BasisProofs
  NeighborCellProofs SpatialModel SpatialProofs PropSpatial ShapeModel SpecStructure SpecBuild StructureModel StructureFacts AnalyzeProofs.
Import ListNotations.
Open Scope nat_scope.
Open Scope list_scope.

(** ** The index vectors *)

Lemma wrap_mod_inj p i j : (0 < p -> 0 <= i < 2 * p -> 0 <= j < 2 * p ->
  (i + p) mod (2 * p) - p = (j + p) mod (2 * p) - p -> i = j)%Z.
Proof.
  intros Hp Hi Hj E.
  assert (forall x, (0 <= x < 2 * p -> (x + p) mod (2 * p) = if x <? p then x + p else x - p)%Z) as H.
  { intros x Hx. destruct (Z.ltb_spec x p); [apply Z.mod_small; lia|].
    replace (x + p)%Z with (x - p + 1 * (2 * p))%Z by lia. rewrite Z.mod_add by lia. apply Z.mod_small. lia. }
  rewrite !H in E by auto. destruct (Z.ltb_spec i p), (Z.ltb_spec j p); lia.
Qed.

Lemma wrap_dtype_inj m i j :
  (0 <= m -> 0 <= i <= 2 * m -> 0 <= j <= 2 * m ->
   wrap_dtype (min_scalar_type (- m - 1)) i = wrap_dtype (min_scalar_type (- m - 1)) j -> i = j)%Z.
Proof.
  intros Hm Hi Hj. unfold min_scalar_type.
  replace (0 <=? - m - 1)%Z with false by (symmetry; apply Z.leb_gt; lia).
  destruct (Z.leb_spec (- 2 ^ 7) (- m - 1)).
  { cbn [wrap_dtype dt_signed dt_bits]. unfold wrap_signed. apply (wrap_mod_inj (2 ^ 7)); lia. }
  destruct (Z.leb_spec (- 2 ^ 15) (- m - 1)).
  { cbn [wrap_dtype dt_signed dt_bits]. unfold wrap_signed. apply (wrap_mod_inj (2 ^ 15)); lia. }
  destruct (Z.leb_spec (- 2 ^ 31) (- m - 1)).
  { cbn [wrap_dtype dt_signed dt_bits]. unfold wrap_signed. apply (wrap_mod_inj (2 ^ 31)); lia. }
  destruct (Z.leb_spec (- 2 ^ 63) (- m - 1)).
  { cbn [wrap_dtype dt_signed dt_bits]. unfold wrap_signed. apply (wrap_mod_inj (2 ^ 63)); lia. }
  auto.
Qed.

Lemma F2_len {A B} (R : A -> B -> Prop) l m : Forall2 R l m -> length l = length m.
Proof. induction 1; cbn; auto. Qed.

Lemma NoDup_map_in {A B} (f : A -> B) l :
  (forall x y, In x l -> In y l -> f x = f y -> x = y) -> NoDup l -> NoDup (map f l).
Proof.
  intros H Hn. induction Hn as [|x l Hx Hn IH]; cbn; constructor.
  - intro Hin. apply in_map_iff in Hin. destruct Hin as [y [E Hy]]. apply Hx. rewrite (H x y); cbn; auto.
  - apply IH. intros. apply H; cbn; auto.
Qed.

Lemma vindices_any limits axis vs :
  vindices limits axis = Some vs -> NoDup vs /\ (forall v, In v vs -> length v = length limits) /\
    (forall a, axis = Some a -> lex_sorted a vs).
Proof.
  unfold vindices. destruct (min_dtype (flat_map (fun l => [fst l; snd l]) limits) true) as [t|] eqn:Et; [|discriminate].
  destruct (existsb _ limits) eqn:Ee; [discriminate|].
  set (grid := product _).
  assert (NoDup grid) as Hnd.
  { apply NoDup_product. apply Forall_forall. intros vals Hin. apply in_map_iff in Hin. destruct Hin as [l [<- Hl]].
    unfold min_dtype in Et. destruct (np_max (map Z.abs _)) as [m|] eqn:Em; [|discriminate]. injection Et as <-.
    apply np_max_is_max in Em. destruct Em as [Hm Hle].
    assert (0 <= m)%Z as Hm0. { apply in_map_iff in Hm. destruct Hm as [x [<- _]]. lia. }
    assert (Z.abs (fst l) <= m /\ Z.abs (snd l) <= m)%Z as [H1 H2].
    { split; apply Hle, in_map, in_flat_map; exists l; split; cbn; auto. }
    apply NoDup_map_in; [|apply NoDup_zrange]. intros i j Hi Hj E. apply In_zrange in Hi. apply In_zrange in Hj.
    apply (wrap_dtype_inj m); lia. }
  assert (forall v, In v grid -> length v = length limits) as Hlen.
  { intros v Hv. unfold grid in Hv. apply In_product_values in Hv. apply F2_len in Hv. lia. }
  destruct axis as [a|].
  - destruct (a <? length limits); [|discriminate]. intro E. injection E as <-. split; [|split].
    + eapply Permutation_NoDup; [symmetry; apply sort_stable_perm|exact Hnd].
    + intros v Hv. apply (proj1 (In_sort_stable _ _ _)) in Hv. auto.
    + intros a' E. injection E as <-.
      pose proof (sort_stable_sorted (axis_leb a) (axis_leb_total a) (axis_leb_trans a) grid) as H.
      unfold lex_sorted. induction H as [|u l H IH Hf]; constructor; auto.
      eapply Forall_impl; [|exact Hf]. intros v Hv. apply Z.leb_le. exact Hv.
  - intro E. injection E as <-. split; auto. split; auto. discriminate.
Qed.

(** ** Corners *)

Lemma combinations_filter {A} (p : A -> bool) (l : list A) : In (filter p l) (combinations l (length (filter p l))).
Proof.
  induction l as [|x l IH]; cbn; auto. destruct (p x); cbn [length combinations].
  - apply in_or_app. left. apply in_map. exact IH.
  - destruct (length (filter p l)) eqn:E.
    + destruct (filter p l); [left; reflexivity|discriminate].
    + cbn [combinations]. apply in_or_app. right. exact IH.
Qed.

Lemma zero_at_length idx v : length (zero_at idx v) = length v.
Proof. unfold zero_at. revert v. induction idx; intro v; cbn; auto. rewrite IHidx. apply set_nth_length. Qed.

Lemma nth_zero_at idx : forall v j, j < length v ->
  nth j (zero_at idx v) 0%Q = if existsb (Nat.eqb j) idx then 0%Q else nth j v 0%Q.
Proof.
  unfold zero_at. induction idx as [|i idx IH]; intros v j Hj; cbn [fold_left existsb]; auto.
  rewrite IH by (rewrite set_nth_length; auto). rewrite nth_set_nth' by auto.
  destruct (existsb (Nat.eqb j) idx); [rewrite orb_true_r; auto|]. rewrite orb_false_r. destruct (j =? i); auto.
Qed.

(** The corner where the coordinates selected by [z] are zero is probed. *)
Lemma probe_exists d end_ (z : nat -> bool) :
  length end_ = d -> 1 <= length (filter z (seq 0 d)) <= d - 1 ->
  exists v, In v (probes d end_) /\ length v = d /\ forall j, j < d -> nth j v 0%Q = if z j then 0%Q else nth j end_ 0%Q.
Proof.
  intros Hl Hc. exists (zero_at (filter z (seq 0 d)) end_). split; [|split].
  - unfold probes. apply in_flat_map. exists (length (filter z (seq 0 d))). split; [apply in_seq; lia|].
    apply (in_map (fun idx => zero_at idx end_)), combinations_filter.
  - rewrite zero_at_length. auto.
  - intros j Hj. rewrite nth_zero_at by lia. destruct (z j) eqn:E.
    + replace (existsb (Nat.eqb j) (filter z (seq 0 d))) with true; auto. symmetry. apply existsb_exists. exists j.
      split; [apply filter_In; split; [apply in_seq; lia|auto]|apply Nat.eqb_refl].
    + replace (existsb (Nat.eqb j) (filter z (seq 0 d))) with false; auto. symmetry. apply not_true_iff_false. intro H.
      apply existsb_exists in H. destruct H as [k [Hk Ek]]. apply Nat.eqb_eq in Ek. subst k. apply filter_In in Hk. destruct Hk. congruence.
Qed.

Lemma probes_length d end_ v : In v (probes d end_) -> length v = length end_.
Proof.
  unfold probes. intro H. apply in_flat_map in H. destruct H as [i [_ H]]. apply in_map_iff in H. destruct H as [idx [<- _]].
  apply zero_at_length.
Qed.

(** ** The range of cell indices *)

(** Coordinate [i] of [p] in the basis. *)
Definition coord (b : basis) (p : list Q) (i : nat) : Q := coordinate (b_dim b) (b_inv b) p i.

Lemma nth_index b p i : valid_basis b -> length p = b_dim b -> i < b_dim b ->
  nth i (fst (itranslate b p)) 0%Z = Qfloor (coord b p i).
Proof.
  intros Hb Hp Hi. unfold itranslate. cbn [fst]. rewrite nth_vfloor. apply Qfloor_comp. unfold itransform.
  apply nth_matvec_sum; auto. apply Hb.
Qed.

Lemma index_length b p : valid_basis b -> length (fst (itranslate b p)) = b_dim b.
Proof. intro Hb. unfold itranslate. cbn [fst]. rewrite vfloor_length. apply itransform_length. exact Hb. Qed.

Lemma sum_le n f g : (forall k, k < n -> (f k <= g k)%Q) -> (sum_upto n f <= sum_upto n g)%Q.
  Proof.
    induction n as [|n IH]; intro H; cbn; [apply Qle_refl|]. apply Qplus_le_compat; [apply IH; intros; apply H; lia|apply H; lia].
  Qed.

Section Range.
  Variable b : basis.
  Hypothesis Hb : valid_basis b.
  Let d := b_dim b.

  Lemma range_fold ps : forall lo hi, length lo = d -> length hi = d -> (forall p, In p ps -> length p = d) ->
    let r := fold_left (fun acc p => let index := fst (itranslate b p) in
               (map2 Z.min index (fst acc), map2 Z.max index (snd acc))) ps (lo, hi) in
    length (fst r) = d /\ length (snd r) = d /\
    (forall i, i < d -> (nth i (fst r) 0 <= nth i lo 0)%Z /\ (nth i hi 0 <= nth i (snd r) 0)%Z) /\
    (forall p i, In p ps -> i < d ->
       (nth i (fst r) 0 <= Qfloor (coord b p i) <= nth i (snd r) 0)%Z).
  Proof.
    induction ps as [|p ps IH]; intros lo hi Hlo Hhi Hps; cbn [fold_left].
    - cbn. split; auto. split; auto. split; [intros; lia|]. intros p i [].
    - assert (length p = d) as Hp by (apply Hps; left; auto).
      pose proof (index_length b p Hb) as Hil. fold d in Hil. cbn [fst snd].
      destruct (IH (map2 Z.min (fst (itranslate b p)) lo) (map2 Z.max (fst (itranslate b p)) hi)) as [H1 [H2 [H3 H4]]].
      { rewrite map2_length. lia. } { rewrite map2_length. lia. } { intros. apply Hps. right. auto. }
      split; auto. split; auto.
      assert (forall i, i < d -> (nth i (map2 Z.min (fst (itranslate b p)) lo) 0 = Z.min (Qfloor (coord b p i)) (nth i lo 0))%Z) as Emin.
      { intros i Hi. rewrite (nth_map2 _ _ _ _ 0%Z 0%Z) by lia. rewrite nth_index by auto. reflexivity. }
      assert (forall i, i < d -> (nth i (map2 Z.max (fst (itranslate b p)) hi) 0 = Z.max (Qfloor (coord b p i)) (nth i hi 0))%Z) as Emax.
      { intros i Hi. rewrite (nth_map2 _ _ _ _ 0%Z 0%Z) by lia. rewrite nth_index by auto. reflexivity. }
      split.
      + intros i Hi. destruct (H3 i Hi) as [K1 K2]. rewrite Emin in K1 by auto. rewrite Emax in K2 by auto.
        split; [eapply Z.le_trans; [exact K1|]; lia|eapply Z.le_trans; [|exact K2]; lia].
      + intros q i [<-|Hq] Hi; [|apply H4; auto]. destruct (H3 i Hi) as [K1 K2]. rewrite Emin in K1 by auto. rewrite Emax in K2 by auto.
        split; [eapply Z.le_trans; [exact K1|]; lia|eapply Z.le_trans; [|exact K2]; lia].
  Qed.

  Lemma range_spec pos end_ : length pos = d -> length end_ = d ->
    let (lo, hi) := nvec_range b pos end_ in
    length lo = d /\ length hi = d /\
    forall i, i < d ->
      (nth i lo 0 <= Qfloor (coord b pos i))%Z /\ (Qfloor (coord b end_ i) <= nth i hi 0)%Z /\
      forall p, In p (probes d end_) -> (nth i lo 0 <= Qfloor (coord b p i) <= nth i hi 0)%Z.
  Proof.
    intros Hp He. unfold nvec_range.
    destruct (range_fold (probes (b_dim b) end_) (fst (itranslate b pos)) (fst (itranslate b end_))) as [H1 [H2 [H3 H4]]].
    { apply index_length; auto. } { apply index_length; auto. } { intros p Hin. apply probes_length in Hin. lia. }
    destruct (fold_left _ _ _) as [lo hi]. cbn [fst snd] in *. split; auto. split; auto. intros i Hi.
    destruct (H3 i Hi) as [K1 K2]. rewrite nth_index in K1, K2 by auto. split; auto.
  Qed.

  Lemma range_covers pos size : length pos = d -> length size = d ->
    (forall j, j < d -> (0 <= nth j size 0)%Q) ->
    let (lo, hi) := nvec_range b pos (vadd pos size) in
    forall i p, i < d -> reaches d (b_inv b) pos i ->
      (forall j, j < d -> (nth j pos 0 <= nth j p 0 <= nth j pos 0 + nth j size 0)%Q) ->
      (nth i lo 0 <= Qfloor (coord b p i) <= nth i hi 0)%Z.
  Proof.
    intros Hpos Hsize H0. set (end_ := vadd pos size).
    assert (length end_ = d) as Hend by (unfold end_; rewrite vadd_length; lia).
    assert (forall j, j < d -> (nth j end_ 0 == nth j pos 0 + nth j size 0)%Q) as Eend.
    { intros j Hj. unfold end_. rewrite nth_vadd by lia. reflexivity. }
    pose proof (range_spec pos end_ Hpos Hend) as H. destruct (nvec_range b pos end_) as [lo hi].
    destruct H as [Hlo [Hhi H]]. intros i p Hi Hrow Hp. destruct (H i Hi) as [L1 [U1 LU]].
    assert (forall v, (forall j, j < d -> (entry (b_inv b) i j * nth j p 0 <= entry (b_inv b) i j * nth j v 0)%Q) ->
              (Qfloor (coord b p i) <= Qfloor (coord b v i))%Z) as Hup.
    { intros v Hv. apply Qfloor_resp_le. apply sum_le. exact Hv. }
    assert (forall v, (forall j, j < d -> (entry (b_inv b) i j * nth j v 0 <= entry (b_inv b) i j * nth j p 0)%Q) ->
              (Qfloor (coord b v i) <= Qfloor (coord b p i))%Z) as Hdown.
    { intros v Hv. apply Qfloor_resp_le. apply sum_le. exact Hv. }
    destruct Hrow as [Hrow|[Hz [j0 [Hj0 Hw0]]]].
    - split.
      + eapply Z.le_trans; [exact L1|]. apply Hdown. intros j Hj. specialize (Hrow j Hj). specialize (Hp j Hj).
        rewrite !(Qmult_comm (entry _ _ _)). apply Qmult_le_compat_r; [apply Hp|auto].
      + eapply Z.le_trans; [|exact U1]. apply Hup. intros j Hj. specialize (Hrow j Hj). specialize (Hp j Hj).
        rewrite !(Qmult_comm (entry _ _ _)). apply Qmult_le_compat_r; [rewrite Eend by auto; apply Hp|auto].
    - set (W := fun j => entry (b_inv b) i j) in *.
      assert (forall j, j < d -> (0 <= nth j p 0 <= nth j end_ 0)%Q) as Hp'.
      { intros j Hj. rewrite Eend by auto. specialize (Hp j Hj). specialize (Hz j Hj). lra. }
      assert (forall j x y, (0 <= W j)%Q -> (x <= y)%Q -> (W j * x <= W j * y)%Q) as Mp by (intros; nra).
      assert (forall j x y, (W j < 0)%Q -> (y <= x)%Q -> (W j * x <= W j * y)%Q) as Mn by (intros; nra).
      set (neg := fun j => negb (Qle_bool 0 (W j))). set (pos' := fun j => Qle_bool 0 (W j)).
      assert (forall z : nat -> bool, length (filter z (seq 0 d)) + length (filter (fun j => negb (z j)) (seq 0 d)) = d) as Hsplit.
      { intro z. rewrite <- (seq_length d 0) at 3. generalize (seq 0 d). induction l as [|x l IH]; cbn; auto. destruct (z x); cbn; lia. }
      assert (1 <= length (filter pos' (seq 0 d))) as Hcount.
      { assert (In j0 (filter pos' (seq 0 d))) as Hin by (apply filter_In; split; [apply in_seq; lia|apply Qle_bool_iff; exact Hw0]).
        destruct (filter pos' (seq 0 d)); [destruct Hin|cbn; lia]. }
      pose proof (Hsplit pos') as Hs. fold neg in Hs. unfold pos' in Hs at 2. fold neg in Hs.
      change (fun j => negb (Qle_bool 0 (W j))) with neg in Hs.
      split.
      + (* lower bound: the corner with the coordinates of non-negative coefficients zero *)
        destruct (Nat.eq_dec (length (filter pos' (seq 0 d))) d) as [Hall|Hnot].
        * eapply Z.le_trans; [exact L1|]. apply Hdown. intros j Hj. fold (W j).
          assert (0 <= W j)%Q as HW.
          { assert (length (filter neg (seq 0 d)) = 0) as E by lia. apply Qle_bool_iff. destruct (Qle_bool 0 (W j)) eqn:Ej; auto.
            assert (In j (filter neg (seq 0 d))) as Hin by (apply filter_In; split; [apply in_seq; lia|unfold neg; rewrite Ej; auto]).
            destruct (filter neg (seq 0 d)); [destruct Hin|discriminate]. }
          apply Mp; auto. rewrite (Hz j Hj). apply Hp'. auto.
        * destruct (probe_exists d end_ pos' Hend) as [v [Hv [_ Hnth]]]; [lia|].
          eapply Z.le_trans; [apply (LU v Hv)|]. apply Hdown. intros j Hj. fold (W j). rewrite (Hnth j Hj).
          unfold pos'. destruct (Qle_bool 0 (W j)) eqn:Ej.
          -- apply Mp; [apply Qle_bool_iff; auto|apply Hp'; auto].
          -- apply Mn; [apply Qle_bool_false_iff; auto|apply Hp'; auto].
      + destruct (Nat.eq_dec (length (filter neg (seq 0 d))) 0) as [Hnone|Hsome].
        * eapply Z.le_trans; [|exact U1]. apply Hup. intros j Hj. fold (W j).
          assert (0 <= W j)%Q as HW.
          { apply Qle_bool_iff. destruct (Qle_bool 0 (W j)) eqn:Ej; auto.
            assert (In j (filter neg (seq 0 d))) as Hin by (apply filter_In; split; [apply in_seq; lia|unfold neg; rewrite Ej; auto]).
            destruct (filter neg (seq 0 d)); [destruct Hin|discriminate]. }
          apply Mp; auto. apply Hp'. auto.
        * destruct (probe_exists d end_ neg Hend) as [v [Hv [_ Hnth]]]; [lia|].
          eapply Z.le_trans; [|apply (LU v Hv)]. apply Hup. intros j Hj. fold (W j). rewrite (Hnth j Hj).
          unfold neg. destruct (Qle_bool 0 (W j)) eqn:Ej; cbn [negb].
          -- apply Mp; [apply Qle_bool_iff; auto|apply Hp'; auto].
          -- apply Mn; [apply Qle_bool_false_iff; auto|apply Hp'; auto].
  Qed.
End Range.

Lemma Qtrunc_Z q z : (q == inject_Z z)%Q -> Qtrunc q = z.
Proof.
  intro H. unfold Qtrunc. destruct (Qle_bool 0 q).
  - rewrite (Qfloor_comp _ _ H). apply Qfloor_Z.
  - rewrite (Qceiling_comp _ _ H). apply Qceiling_Z.
Qed.

Lemma nvec_limits_length b pos size o : valid_basis b -> length pos = b_dim b -> length size = b_dim b ->
  length (nvec_limits b pos size o) = b_dim b.
Proof.
  intros Hb Hp Hs. unfold nvec_limits. pose proof (range_spec b Hb pos (vadd pos size) Hp) as H.
  destruct (nvec_range b pos (vadd pos size)) as [lo hi].
  destruct H as [Hlo [Hhi _]]; [rewrite vadd_length; lia|].
  rewrite combine_length, !map2_length, !map_length. lia.
Qed.

Lemma nth_nvec_limits b pos size i lo hi : valid_basis b -> length pos = b_dim b -> length size = b_dim b -> i < b_dim b ->
  nvec_range b pos (vadd pos size) = (lo, hi) ->
  nth i (nvec_limits b pos size 0) (0, 0)%Z = (nth i lo 0 - 1, nth i hi 0 + 1)%Z.
Proof.
  intros Hb Hp Hs Hi E. unfold nvec_limits. rewrite E. pose proof (range_spec b Hb pos (vadd pos size) Hp) as H. rewrite E in H.
  destruct H as [Hlo [Hhi _]]; [rewrite vadd_length; lia|].
  rewrite combine_nth by (rewrite !map2_length, map_length; lia). f_equal.
  - rewrite (nth_map2 _ _ _ _ 0%Z 0%Q) by (rewrite ?map_length; lia). apply Qtrunc_Z.
    rewrite (nth_map_in _ _ _ 0%Q) by lia. unfold Z.sub. rewrite inject_Z_plus. change (inject_Z (- (1))) with (- (1))%Q. ring.
  - rewrite (nth_map2 _ _ _ _ 0%Z 0%Q) by (rewrite ?map_length; lia). apply Qtrunc_Z.
    rewrite (nth_map_in _ _ _ 0%Q) by lia. rewrite inject_Z_plus. change (inject_Z 1) with 1%Q. ring.
Qed.

(** Every bound is the index of one of the points. *)
Lemma range_fold_attained b ps : valid_basis b -> forall lo hi, length lo = b_dim b -> length hi = b_dim b ->
  (forall p, In p ps -> length p = b_dim b) ->
  let r := fold_left (fun acc p => let index := fst (itranslate b p) in
             (map2 Z.min index (fst acc), map2 Z.max index (snd acc))) ps (lo, hi) in
  forall i, i < b_dim b ->
    (nth i (fst r) 0%Z = nth i lo 0%Z \/ exists p, In p ps /\ nth i (fst r) 0%Z = Qfloor (coord b p i)) /\
    (nth i (snd r) 0%Z = nth i hi 0%Z \/ exists p, In p ps /\ nth i (snd r) 0%Z = Qfloor (coord b p i)).
Proof.
  intro Hb. induction ps as [|p ps IH]; intros lo hi Hlo Hhi Hps; cbv zeta; cbn [fold_left].
  - cbn. auto.
  - assert (length p = b_dim b) as Hp by (apply Hps; left; auto).
    pose proof (index_length b p Hb) as Hil. cbn [fst snd]. intros i Hi.
    destruct (IH (map2 Z.min (fst (itranslate b p)) lo) (map2 Z.max (fst (itranslate b p)) hi)) with (i := i) as [H1 H2]; auto.
    { rewrite map2_length. lia. } { rewrite map2_length. lia. } { intros. apply Hps. right. auto. }
    rewrite (nth_map2 _ _ _ _ 0%Z 0%Z) in H1 by lia. rewrite (nth_map2 _ _ _ _ 0%Z 0%Z) in H2 by lia.
    rewrite nth_index in H1 by auto. rewrite nth_index in H2 by auto. cbv zeta in H1, H2. split.
    + destruct H1 as [E|[q [Hq E]]]; [|right; exists q; split; [right; auto|exact E]].
      destruct (Z.min_spec (Qfloor (coord b p i)) (nth i lo 0%Z)) as [[_ Em]|[_ Em]]; rewrite Em in E.
      * right. exists p. split; [left; auto|exact E].
      * left. exact E.
    + destruct H2 as [E|[q [Hq E]]]; [|right; exists q; split; [right; auto|exact E]].
      destruct (Z.max_spec (Qfloor (coord b p i)) (nth i hi 0%Z)) as [[_ Em]|[_ Em]]; rewrite Em in E.
      * left. exact E.
      * right. exists p. split; [left; auto|exact E].
Qed.

Lemma probe_entries d end_ v j : In v (probes d end_) -> j < length end_ -> nth j v 0%Q = 0%Q \/ nth j v 0%Q = nth j end_ 0%Q.
Proof.
  unfold probes. intros H Hj. apply in_flat_map in H. destruct H as [i [_ H]]. apply in_map_iff in H. destruct H as [idx [<- _]].
  rewrite nth_zero_at by auto. destruct (existsb _ _); auto.
Qed.

Lemma range_attained b lower size lo hi : valid_basis b -> length lower = b_dim b -> length size = b_dim b ->
  nvec_range b lower (vadd lower size) = (lo, hi) ->
  forall i, i < b_dim b ->
    let reached z := exists p, length p = b_dim b /\ z = Qfloor (coord b p i) /\
      ((forall j, j < b_dim b -> (nth j p 0 == nth j lower 0)%Q) \/
       (forall j, j < b_dim b -> (nth j p 0 == 0 \/ nth j p 0 == nth j lower 0 + nth j size 0)%Q)) in
    reached (nth i lo 0%Z) /\ reached (nth i hi 0%Z).
Proof.
  intros Hb Hl Hs E i Hi reached.
  assert (length (vadd lower size) = b_dim b) as He by (rewrite vadd_length; lia).
  pose proof (range_fold_attained b (probes (b_dim b) (vadd lower size)) Hb (fst (itranslate b lower)) (fst (itranslate b (vadd lower size)))
    (index_length b lower Hb) (index_length b _ Hb)) as H.
  cbv zeta in H. unfold nvec_range in E. rewrite E in H. cbn [fst snd] in H.
  destruct (H (fun p Hp => eq_trans (probes_length _ _ _ Hp) He) i Hi) as [H1 H2].
  rewrite nth_index in H1 by auto. rewrite nth_index in H2 by auto.
  assert (forall p, In p (probes (b_dim b) (vadd lower size)) -> reached (Qfloor (coord b p i))) as Hprobe.
  { intros p Hp. exists p. split; [rewrite (probes_length _ _ _ Hp); auto|]. split; auto. right. intros j Hj.
    destruct (probe_entries _ _ _ j Hp) as [->| ->]; [lia| |]; [left; reflexivity|right; apply nth_vadd; lia]. }
  split.
  - destruct H1 as [->|[p [Hp ->]]]; auto. exists lower. split; auto. split; auto. left. reflexivity.
  - destruct H2 as [->|[p [Hp ->]]]; auto. exists (vadd lower size). split; auto. split; auto. right. intros j Hj. right. apply nth_vadd. lia.
Qed.

(** ** Coordinates of lattice points *)

Lemma coord_ext b p q i : (forall j, j < b_dim b -> (nth j p 0 == nth j q 0)%Q) -> (coord b p i == coord b q i)%Q.
Proof. intro H. unfold coord, coordinate. apply sum_ext. intros j Hj. rewrite (H j Hj). reflexivity. Qed.

Lemma coord_point b r n i : valid_basis b -> length n = b_dim b -> length r = b_dim b -> i < b_dim b ->
  (coord b (lattice_point (b_dim b) (b_mat b) r n) i == coord b r i + inject_Z (nth i n 0%Z))%Q.
Proof.
  intros Hb Hn Hr Hi. unfold coord, coordinate.
  rewrite (sum_ext _ _ (fun j => entry (b_inv b) i j * nth j r 0 +
     sum_upto (b_dim b) (fun k => (entry (b_inv b) i j * entry (b_mat b) j k) * inject_Z (nth k n 0%Z)))%Q).
  2:{ intros j Hj. rewrite nth_lattice_point by auto. rewrite Qmult_plus_distr_r. apply Qplus_comp; [reflexivity|].
      rewrite <- sum_scale. apply sum_ext. intros. ring. }
  rewrite sum_plus. apply Qplus_comp; [reflexivity|]. rewrite sum_swap.
  rewrite <- (sum_delta (b_dim b) i (fun k => inject_Z (nth k n 0%Z)) Hi). apply sum_ext. intros k Hk.
  destruct Hb as [_ [_ [_ H]]]. rewrite <- (H i k Hi Hk).
  rewrite (Qmult_comm (sum_upto _ _)), <- sum_scale. apply sum_ext. intros. ring.
Qed.

(** ** Selection *)

Lemma select_selected {A} mask : forall (l : list A), length mask = length l ->
  selected (fun k => nth k mask false = true) l (select mask l).
Proof.
  intros l Hl. exists (where_ mask). split; [apply where_sorted|]. split.
  - intro k. rewrite In_where. split; [|tauto]. intro H. split; auto. rewrite <- Hl.
    destruct (Nat.lt_ge_cases k (length mask)); auto. rewrite nth_overflow in H by auto. discriminate.
  - destruct l as [|x0 l0] eqn:El.
    { destruct mask; [|discriminate]. constructor. }
    rewrite <- El in *. rewrite (select_where mask l x0) by lia.
    assert (forall k, In k (where_ mask) -> k < length l) as Hlt.
    { intros k Hk. apply In_where in Hk. rewrite <- Hl. destruct (Nat.lt_ge_cases k (length mask)); auto.
      rewrite nth_overflow in Hk by auto. discriminate. }
    revert Hlt. generalize (where_ mask). clear. intro ks. induction ks as [|k ks IH]; intro H; cbn; constructor.
    + apply nth_error_nth'. apply H. left. auto.
    + apply IH. intros. apply H. right. auto.
Qed.

Lemma selected_all {A} (l : list A) : selected (fun _ => True) l l.
Proof.
  exists (seq 0 (length l)). split; [|split].
  - generalize 0. induction (length l) as [|n IH]; intro k; cbn; constructor; auto.
    apply Forall_forall. intros x Hx. apply in_seq in Hx. lia.
  - intro k. rewrite in_seq. lia.
  - clear. assert (forall (m p : list A), Forall2 (fun k x => nth_error (p ++ m) k = Some x) (seq (length p) (length m)) m) as H.
    { induction m as [|x m IH]; intro p; cbn; constructor.
      - rewrite nth_error_app2, Nat.sub_diag by lia. reflexivity.
      - specialize (IH (p ++ [x])). rewrite app_length in IH. cbn in IH. rewrite Nat.add_1_r in IH.
        rewrite <- app_assoc in IH. exact IH. }
    exact (H l []).
Qed.

(** ** The sites before filtering *)

Lemma all_sites b (R : list (list Q)) nvecs positions :
  valid_basis b -> (forall r, In r R -> length r = b_dim b) -> (forall n, In n nvecs -> length n = b_dim b) ->
  interweave (map (fun r => map (fun n => translate b n r) nvecs) R)
     (repeat [] (length (concat (map (fun r => map (fun n => translate b n r) nvecs) R)))) = Some positions ->
  length positions = length (cell_sites (length R) nvecs) /\
  forall k s p, nth_error (cell_sites (length R) nvecs) k = Some s -> nth_error positions k = Some p ->
    exists n a r, s = n ++ [Z.of_nat a] /\ In n nvecs /\ nth_error R a = Some r /\
      veq p (lattice_point (b_dim b) (b_mat b) r n).
Proof.
  intros Hb HR Hn E. set (arrays := map (fun r => map (fun n => translate b n r) nvecs) R) in *.
  assert (arrays <> []) as Hne by (intro H; rewrite H in E; discriminate).
  assert (length arrays = length R) as HlR by (unfold arrays; rewrite map_length; auto).
  assert (forall arr, In arr arrays -> length arr = length nvecs) as Hm.
  { intros arr Ha. apply in_map_iff in Ha. destruct Ha as [r [<- _]]. apply map_length. }
  assert (length (concat arrays) = length nvecs * length arrays) as Hc.
  { clear -Hm. induction arrays as [|a l IH]; cbn; [lia|]. rewrite app_length, IH, (Hm a) by (intros; try apply Hm; cbn; auto). lia. }
  destruct (C17_interweave_equal_lengths vec arrays (repeat [] (length (concat arrays))) (length nvecs) Hne Hm) as [res [E' [Hl H]]].
  { rewrite repeat_length. exact Hc. }
  unfold vec in *. assert (res = positions) by congruence. subst res.
  assert (length positions = length nvecs * length R) as Hlp by lia.
  change (cell_sites (length R) nvecs) with (sites_of (length R) nvecs). rewrite sites_of_length. split; auto.
  intros k s p Hs Hp. pose proof (nth_error_length_lt _ _ _ Hp) as Hk. rewrite Hlp in Hk.
  assert (length R <> 0) as HR0 by lia.
  set (c := k / length R). set (a := k mod length R).
  assert (k = c * length R + a) as Ek by (unfold c, a; rewrite (Nat.div_mod k (length R) HR0) at 1; lia).
  assert (a < length R) as Ha by (apply Nat.mod_upper_bound; auto).
  assert (c < length nvecs) as Hcl by (apply Nat.div_lt_upper_bound; lia).
  destruct (nth_error_lt R a Ha) as [r Hr]. exists (nth c nvecs []), a, r.
  split; [|split; [apply nth_In; auto|split; [exact Hr|]]].
  - rewrite <- (nth_sites_of (length R) nvecs c a) by auto. rewrite <- Ek. symmetry. apply nth_error_nth. exact Hs.
  - assert (nth_error arrays a = Some (map (fun n => translate b n r) nvecs)) as Harr.
    { unfold arrays. rewrite nth_error_map', Hr. reflexivity. }
    specialize (H a c _ Harr Hcl). rewrite HlR, <- Ek, Hp in H. rewrite nth_error_map' in H.
    rewrite (nth_error_nth' nvecs [] Hcl) in H. cbn in H. injection H as ->. apply translate_point; auto.
    + apply Hn, nth_In; auto.
    + apply HR. apply (nth_error_In _ _ Hr).
Qed.

(** ** Coverage *)

Lemma in_limits_nth limits v : in_limits limits v <->
  length v = length limits /\ forall i, i < length limits -> (fst (nth i limits (0, 0)) <= nth i v 0 < snd (nth i limits (0, 0)))%Z.
Proof.
  unfold in_limits. revert v. induction limits as [|l limits IH]; intro v.
  - split.
    + intro H. inversion H. split; auto. cbn. intros; lia.
    + intros [H _]. destruct v; [constructor|discriminate].
  - split.
    + intro H. inversion H as [|? x ? v' Hx Hv]; subst. apply IH in Hv. destruct Hv as [Hl Hv]. split; [cbn; lia|].
      intros [|i] Hi; cbn; auto. apply Hv. cbn in Hi. lia.
    + intros [Hl H]. destruct v as [|x v]; [discriminate|]. constructor.
      * apply (H 0). cbn. lia.
      * apply IH. split; [cbn in Hl; lia|]. intros i Hi. apply (H (S i)). cbn. lia.
Qed.

Lemma limits_ordered b lower size p : valid_basis b -> length lower = b_dim b -> length size = b_dim b ->
  (forall i, i < b_dim b -> reaches (b_dim b) (b_inv b) lower i) -> inside (b_dim b) lower size 0 p ->
  forall l, In l (nvec_limits b lower size 0) -> (fst l <= snd l)%Z.
Proof.
  intros Hb Hl Hs Hr Hp l Hin. destruct (In_nth _ _ (0, 0)%Z Hin) as [i [Hi <-]].
  rewrite nvec_limits_length in Hi by auto.
  destruct (nvec_range b lower (vadd lower size)) as [lo hi] eqn:E.
  rewrite (nth_nvec_limits b lower size i lo hi) by auto. cbn [fst snd].
  pose proof (range_covers b Hb lower size Hl Hs) as H. rewrite E in H.
  assert (nth i lo 0 <= Qfloor (coord b p i) <= nth i hi 0)%Z; [|lia].
  apply H; auto.
  - intros j Hj. specialize (Hp j Hj). lra.
  - intros j Hj. specialize (Hp j Hj). lra.
Qed.

Lemma cells_cover b lower size cells n r :
  valid_basis b -> 1 <= b_dim b -> length lower = b_dim b -> length size = b_dim b ->
  (forall i, i < b_dim b -> reaches (b_dim b) (b_inv b) lower i) -> no_wrap (nvec_limits b lower size 0) ->
  vindices (nvec_limits b lower size 0) (Some 0) = Some cells ->
  length n = b_dim b -> length r = b_dim b ->
  (forall i, i < b_dim b -> (0 <= coordinate (b_dim b) (b_inv b) r i < 2)%Q) ->
  inside (b_dim b) lower size 0 (lattice_point (b_dim b) (b_mat b) r n) -> In n cells.
Proof.
  intros Hb Hd Hl Hs Hreach [w [Hw Hext]] Hcells Hn Hr Hcoord Hin.
  pose proof (nvec_limits_length b lower size 0 Hb Hl Hs) as Hlen.
  assert (nvec_limits b lower size 0 <> []) as Hne by (intro E; rewrite E in Hlen; cbn in Hlen; lia).
  destruct (C16_vindices_enumerates_the_grid (nvec_limits b lower size 0) (Some 0) w Hne
              (limits_ordered b lower size _ Hb Hl Hs Hreach Hin)) as [vs [E [_ [Hvs _]]]]; auto.
  { intros a Ea. injection Ea as <-. lia. }
  rewrite Hcells in E. injection E as <-. apply Hvs. apply in_limits_nth. rewrite Hlen. split; auto. intros i Hi.
  destruct (nvec_range b lower (vadd lower size)) as [lo hi] eqn:E.
  rewrite (nth_nvec_limits b lower size i lo hi) by auto. cbn [fst snd].
  pose proof (range_covers b Hb lower size Hl Hs) as H. rewrite E in H.
  assert (nth i lo 0 <= Qfloor (coord b (lattice_point (b_dim b) (b_mat b) r n) i) <= nth i hi 0)%Z as Hf.
  { apply H; auto.
    - intros j Hj. specialize (Hin j Hj). lra.
    - intros j Hj. specialize (Hin j Hj). lra. }
  rewrite (Qfloor_comp _ _ (coord_point b r n i Hb Hn Hr Hi)) in Hf.
  assert (nth i n 0 <= Qfloor (coord b r i + inject_Z (nth i n 0)) <= nth i n 0 + 1)%Z; [|lia].
  specialize (Hcoord i Hi). fold (coord b r i) in Hcoord. split.
  - rewrite <- (Qfloor_Z (nth i n 0%Z)) at 1. apply Qfloor_resp_le. lra.
  - assert (Qfloor (coord b r i + inject_Z (nth i n 0)) < nth i n 0 + 2)%Z; [|lia].
    rewrite Zlt_Qlt. eapply Qle_lt_trans; [apply Qfloor_le|]. rewrite inject_Z_plus. change (inject_Z 2) with 2%Q. lra.
Qed.

(** ** Ranges that do not wrap *)

Lemma limits_in b lower size l : valid_basis b -> length lower = b_dim b -> length size = b_dim b ->
  In l (nvec_limits b lower size 0) -> exists i lo hi, i < b_dim b /\ nvec_range b lower (vadd lower size) = (lo, hi) /\
    l = (nth i lo 0 - 1, nth i hi 0 + 1)%Z.
Proof.
  intros Hb Hl Hs Hin. destruct (In_nth _ _ (0, 0)%Z Hin) as [i [Hi <-]]. rewrite nvec_limits_length in Hi by auto.
  destruct (nvec_range b lower (vadd lower size)) as [lo hi] eqn:E. exists i, lo, hi. split; auto. split; auto.
  apply nth_nvec_limits; auto.
Qed.

(** If the bounds reach from -1 upwards nothing wraps. *)
Lemma no_wrap_from limits : (exists M, (forall l, In l limits -> Z.abs (fst l) <= M /\ Z.abs (snd l) <= M) /\ 0 <= M < 2 ^ 63)%Z ->
  (forall l, In l limits -> fst l = -1 /\ -1 <= snd l)%Z -> limits <> [] -> no_wrap limits.
Proof.
  intros [M [HM HM63]] Hfrom Hne.
  assert (exists w, width_of (flat_map (fun l => [fst l; snd l]) limits) w) as [w Hw].
  { assert (forall w, (forall l, In l limits -> Z.abs (fst l) < 2 ^ (w - 1) /\ Z.abs (snd l) < 2 ^ (w - 1))%Z ->
       forall x, In x (flat_map (fun l => [fst l; snd l]) limits) -> fits_signed w x /\ fits_signed w (- x)) as Hfits.
    { intros w H x Hx. apply in_flat_map in Hx. destruct Hx as [l [Hl [<-|[<-|[]]]]]; specialize (H l Hl); unfold fits_signed; lia. }
    assert (forall w, {forall l, In l limits -> (Z.abs (fst l) < 2 ^ (w - 1) /\ Z.abs (snd l) < 2 ^ (w - 1))%Z} +
                      {exists l, In l limits /\ ~ (Z.abs (fst l) < 2 ^ (w - 1) /\ Z.abs (snd l) < 2 ^ (w - 1))%Z}) as Hdec.
    { intro w. destruct (forallb (fun l => (Z.abs (fst l) <? 2 ^ (w - 1)) && (Z.abs (snd l) <? 2 ^ (w - 1)))%Z limits) eqn:E.
      - left. intros l Hl. rewrite forallb_forall in E. specialize (E l Hl). lia.
      - right. apply not_true_iff_false in E. destruct (existsb (fun l => negb ((Z.abs (fst l) <? 2 ^ (w - 1)) && (Z.abs (snd l) <? 2 ^ (w - 1))))%Z limits) eqn:E2.
        + apply existsb_exists in E2. destruct E2 as [l [Hl Hb]]. exists l. split; auto. lia.
        + exfalso. apply E. apply forallb_forall. intros l Hl. apply negb_false_iff. apply not_true_iff_false. intro Hn.
          apply not_true_iff_false in E2. apply E2. apply existsb_exists. exists l. split; auto. }
    assert (forall w l, In l limits -> ~ (Z.abs (fst l) < 2 ^ (w - 1) /\ Z.abs (snd l) < 2 ^ (w - 1))%Z ->
       ~ (forall x, In x (flat_map (fun l => [fst l; snd l]) limits) -> fits_signed w x /\ fits_signed w (- x))) as Hnot.
    { intros w l Hl Hn H. apply Hn.
      assert (In (fst l) (flat_map (fun l => [fst l; snd l]) limits)) as H1 by (apply in_flat_map; exists l; cbn; auto).
      assert (In (snd l) (flat_map (fun l => [fst l; snd l]) limits)) as H2 by (apply in_flat_map; exists l; cbn; auto).
      apply H in H1. apply H in H2. unfold fits_signed in *. lia. }
    destruct (Hdec 8%Z) as [H8|[l8 [Hl8 Hn8]]].
    { exists 8%Z. split; [left; reflexivity|]. split; [apply Hfits; auto|]. intros w' Hw' _. unfold machine_width in Hw'. cbn in Hw'. lia. }
    destruct (Hdec 16%Z) as [H16|[l16 [Hl16 Hn16]]].
    { exists 16%Z. split; [right; left; reflexivity|]. split; [apply Hfits; auto|]. intros w' Hw' Hf. unfold machine_width in Hw'. cbn in Hw'.
      destruct Hw' as [<-|Hw']; [exfalso; apply (Hnot _ _ Hl8 Hn8 Hf)|lia]. }
    destruct (Hdec 32%Z) as [H32|[l32 [Hl32 Hn32]]].
    { exists 32%Z. split; [right; right; left; reflexivity|]. split; [apply Hfits; auto|]. intros w' Hw' Hf. unfold machine_width in Hw'. cbn in Hw'.
      destruct Hw' as [<-|[<-|Hw']]; [exfalso; apply (Hnot _ _ Hl8 Hn8 Hf)|exfalso; apply (Hnot _ _ Hl16 Hn16 Hf)|lia]. }
    exists 64%Z. split; [right; right; right; left; reflexivity|]. split.
    { apply Hfits. intros l Hl. specialize (HM l Hl). cbn [Z.sub]. change (64 - 1)%Z with 63%Z. lia. }
    intros w' Hw' Hf. unfold machine_width in Hw'. cbn in Hw'.
    destruct Hw' as [<-|[<-|[<-|Hw']]]; [exfalso; apply (Hnot _ _ Hl8 Hn8 Hf)|exfalso; apply (Hnot _ _ Hl16 Hn16 Hf)|exfalso; apply (Hnot _ _ Hl32 Hn32 Hf)|lia]. }
  exists w. split; auto. intros l Hl. destruct Hw as [_ [Hfit _]].
  assert (In (snd l) (flat_map (fun l => [fst l; snd l]) limits)) as H2 by (apply in_flat_map; exists l; cbn; auto).
  apply Hfit in H2. destruct (Hfrom l Hl) as [E _]. unfold fits_signed in H2. lia.
Qed.
