(** * C86: lengths and scales of the edges of a dispersion path *)
From Coq Require Import String List ZArith QArith Reals Qreals Bool Arith Lia Lra.
From Verif Require Import Np NpFacts LinAlg LinFacts SpecBasis SpecSpatial SpecUtils UtilsModel UtilsProofs PathModel RealModel PathScaleModel PropPath.
Import ListNotations.
Open Scope nat_scope.
Open Scope list_scope.

(** [d] is the euclidean distance of two points. *)
Definition euclid (a b : list Q) (d : R) : Prop := (0 <= d /\ d * d = Q2R (sqdist a b))%R.

(** The points of a path, scaled by [c]. *)
Definition scaled_points (c : Q) (p q : path) : Prop :=
  pa_points q = map (map (Qmult c)) (pa_points p).

Fixpoint total (l : list R) : R := match l with [] => 0%R | x :: r => (x + total r)%R end.

(** ** The length of a vector *)

Fixpoint sq_sum (u : list R) : R := match u with [] => 0%R | x :: r => (x * x + sq_sum r)%R end.

Lemma sq_sum_nonneg u : (0 <= sq_sum u)%R.
Proof. induction u as [|x u IH]; cbn; [lra|]. pose proof (Rle_0_sqr x) as H. unfold Rsqr in H. lra. Qed.

Lemma fold_plus l : forall acc, (fold_left Rplus l acc = acc + fold_left Rplus l 0)%R.
Proof.
  induction l as [|x l IH]; intro acc; cbn; [lra|]. rewrite (IH (acc + x)%R), (IH (0 + x)%R). lra.
Qed.

Lemma fold_sq u : (fold_left Rplus (map (fun x => x * x) u) 0 = sq_sum u)%R.
Proof. induction u as [|x u IH]; cbn; [reflexivity|]. rewrite fold_plus, IH. lra. Qed.

(** Difference of two vectors. *)
Definition diff (a b : list Q) : list R := map2 Rminus (map Q2R a) (map Q2R b).

Lemma sqdist_diff a b : length a = length b -> Q2R (sqdist a b) = sq_sum (diff a b).
Proof.
  revert b. induction a as [|x a IH]; intros [|y b] L; try discriminate L.
  - unfold sqdist. cbn. unfold Q2R. cbn. lra.
  - unfold sqdist. cbn [length]. rewrite (Qeq_eqR _ _ (sum_shift _ _)). rewrite Q2R_plus. cbn [nth].
    specialize (IH b (eq_add_S _ _ L)). unfold sqdist, diff in IH. unfold diff. cbn [map map2 sq_sum]. rewrite <- IH.
    rewrite Q2R_mult, !Q2R_minus. reflexivity.
Qed.

Lemma sum_square_spec a b : length a = length b -> sum_square a b = Q2R (sqdist a b).
Proof. intro L. rewrite sqdist_diff by auto. unfold sum_square, diff. apply fold_sq. Qed.

Lemma euclid_sqrt a b : length a = length b -> euclid a b (sqrt (sum_square a b)).
Proof.
  intro L. rewrite sum_square_spec by auto. split; [apply sqrt_pos|]. apply sqrt_sqrt. rewrite sqdist_diff by auto. apply sq_sum_nonneg.
Qed.

Lemma euclid_unique a b d e : euclid a b d -> euclid a b e -> d = e.
Proof.
  intros [H1 E1] [H2 E2]. apply Rsqr_inj; auto. unfold Rsqr. congruence.
Qed.

Lemma distance_same a b : length a = length b -> exists d, distance a b = Some d /\ euclid a b d.
Proof.
  intro L. exists (sqrt (sum_square a b)). split; [|apply euclid_sqrt; auto].
  unfold distance, broadcast. unfold vec in *. rewrite L, Nat.eqb_refl. reflexivity.
Qed.

(** ** Edges *)

Lemma chain_open {A} (l : list A) : chain l false = Some (chain_base l).
Proof. reflexivity. Qed.

Lemma loop_total dim : forall pairs, (forall a b, In (a, b) pairs -> length a = dim /\ length b = dim) ->
  exists ds, distances_loop pairs = Some ds /\ length ds = length pairs /\
    forall i a b, nth_error pairs i = Some (a, b) -> euclid a b (nth i ds 0%R).
Proof.
  induction pairs as [|[a b] pairs IH]; intro H.
  - exists []. split; [reflexivity|]. split; [reflexivity|]. intros [|i]; discriminate.
  - destruct IH as [ds [E [L Hd]]]; [intros; apply H; right; auto|]. destruct (H a b (or_introl eq_refl)) as [La Lb].
    destruct (distance_same a b) as [d [Ed Hdd]]; [congruence|]. exists (d :: ds). cbn [distances_loop]. rewrite Ed, E.
    split; [reflexivity|]. split; [cbn; lia|]. intros [|i] a' b' Hi; cbn in Hi |- *; [|eauto]. injection Hi as <- <-. exact Hdd.
Qed.

Lemma chain_base_length {A} (l : list A) : length (chain_base l) = length l - 1.
Proof.
  induction l as [|a l IH]; [reflexivity|]. destruct l as [|b l]; [reflexivity|]. rewrite chain_base_cons. cbn [length] in *. lia.
Qed.

Lemma chain_base_in {A} (l : list A) a b : In (a, b) (chain_base l) -> In a l /\ In b l.
Proof.
  intro H. apply In_nth_error in H. destruct H as [i H]. apply nth_error_chain_base in H. cbn [fst snd] in H. destruct H as [H1 H2].
  split; eapply nth_error_In; eassumption.
Qed.

Lemma distances_spec p : (forall pt, In pt (pa_points p) -> length pt = pa_dim p) ->
  exists ds, path_distances p = Some ds /\ distances_loop (chain_base (pa_points p)) = Some ds /\ length ds = length (pa_points p) - 1 /\
    forall i a b, nth_error (pa_points p) i = Some a -> nth_error (pa_points p) (S i) = Some b -> euclid a b (nth i ds 0%R).
Proof.
  intro H. destruct (loop_total (pa_dim p) (chain_base (pa_points p))) as [ds [E [L Hd]]].
  { intros a b Hin. apply chain_base_in in Hin. split; apply H; tauto. }
  exists ds. split; [|split; [exact E|split]].
  - unfold path_distances, edges. rewrite chain_open. exact E.
  - rewrite L. apply chain_base_length.
  - intros i a b Ha Hb. apply Hd. apply nth_error_chain_base. cbn [fst snd]. auto.
Qed.

Theorem C86_distances :
  forall p, (forall pt, In pt (pa_points p) -> length pt = pa_dim p) ->
    exists ds, path_distances p = Some ds /\ length ds = length (pa_points p) - 1 /\
      forall i a b, nth_error (pa_points p) i = Some a -> nth_error (pa_points p) (S i) = Some b -> euclid a b (nth i ds 0%R).
Proof. intros p H. destruct (distances_spec p H) as [ds [E [_ HH]]]. eauto. Qed.

(** The computation fails exactly if two consecutive points cannot be subtracted. *)
Theorem C86_fails :
  forall p, path_distances p = None <->
    exists i a b, nth_error (pa_points p) i = Some a /\ nth_error (pa_points p) (S i) = Some b /\
      length a <> length b /\ length a <> 1 /\ length b <> 1.
Proof.
  intro p. unfold path_distances, edges. rewrite chain_open.
  assert (forall a b, distance a b = None <-> length a <> length b /\ length a <> 1 /\ length b <> 1) as HD.
  { intros a b. unfold distance, broadcast. destruct (Nat.eqb_spec (length a) (length b)); [split; [discriminate|tauto]|].
    destruct (Nat.eqb_spec (length a) 1); [split; [discriminate|tauto]|].
    destruct (Nat.eqb_spec (length b) 1); [split; [discriminate|tauto]|tauto]. }
  assert (forall pairs, distances_loop pairs = None <-> exists i a b, nth_error pairs i = Some (a, b) /\ distance a b = None) as HL.
  { induction pairs as [|[a b] pairs IH]; cbn [distances_loop].
    - split; [discriminate|]. intros [[|i] [a [b [H _]]]]; discriminate.
    - destruct (distance a b) as [d|] eqn:E.
      + destruct (distances_loop pairs) as [ds|].
        * split; [discriminate|]. intros [[|i] [a' [b' [H1 H2]]]]; cbn in H1; [congruence|].
          assert (None = None :> option (list R)) as _ by auto. destruct IH as [_ IH]. discriminate IH. eauto.
        * split; auto. intros _. destruct IH as [IH _]. destruct (IH eq_refl) as [i [a' [b' H]]]. exists (S i), a', b'. exact H.
      + split; auto. intros _. exists 0, a, b. auto. }
  rewrite HL. split.
  - intros [i [a [b [H1 H2]]]]. apply nth_error_chain_base in H1. cbn [fst snd] in H1. apply HD in H2. exists i, a, b. tauto.
  - intros [i [a [b [H1 [H2 H3]]]]]. exists i, a, b. split; [|apply HD; exact H3]. apply nth_error_chain_base. cbn [fst snd]. auto.
Qed.

(** ** No path is shorter than the straight line *)

Lemma hyp_le x y a b c : (0 <= a -> 0 <= b -> 0 <= c <= a + b -> sqrt ((x + y) * (x + y) + c * c) <= sqrt (x * x + a * a) + sqrt (y * y + b * b))%R.
Proof.
  intros Ha Hb [Hc Hcab]. pose proof (sqrt_cauchy x a y b) as HC. unfold Rsqr in HC.
  set (u := sqrt (x * x + a * a)) in *. set (v := sqrt (y * y + b * b)) in *.
  assert (0 <= u /\ 0 <= v)%R as [Hu Hv] by (split; apply sqrt_pos).
  assert (u * u = x * x + a * a)%R as Eu by (apply sqrt_sqrt, Rplus_le_le_0_compat; apply Rle_0_sqr). assert (v * v = y * y + b * b)%R as Ev by (apply sqrt_sqrt, Rplus_le_le_0_compat; apply Rle_0_sqr).
  apply Rsqr_incr_0_var; [|lra]. rewrite Rsqr_sqrt by (apply Rplus_le_le_0_compat; apply Rle_0_sqr). unfold Rsqr.
  assert (c * c <= (a + b) * (a + b))%R as Hcc by (apply Rmult_le_compat; lra).
  replace ((u + v) * (u + v))%R with (u * u + v * v + 2 * (u * v))%R by ring. rewrite Eu, Ev. lra.
Qed.

Lemma norm_triangle : forall u v, length u = length v ->
  (sqrt (sq_sum (map2 Rplus u v)) <= sqrt (sq_sum u) + sqrt (sq_sum v))%R.
Proof.
  induction u as [|x u IH]; intros [|y v] L; try discriminate L; cbn [map2 sq_sum].
  - rewrite sqrt_0. lra.
  - specialize (IH v (eq_add_S _ _ L)).
    assert (forall w, (sq_sum w = sqrt (sq_sum w) * sqrt (sq_sum w))%R) as E by (intro w; symmetry; apply sqrt_sqrt, sq_sum_nonneg).
    rewrite (E (map2 Rplus u v)), (E u), (E v). apply hyp_le; try apply sqrt_pos. split; [apply sqrt_pos|exact IH].
Qed.

Lemma diff_split a b c : length a = length b -> length b = length c -> diff a c = map2 Rplus (diff a b) (diff b c).
Proof.
  revert b c. induction a as [|x a IH]; intros [|y b] [|z c] L1 L2; try discriminate; [reflexivity|].
  unfold diff in *. cbn. f_equal; [lra|]. apply IH; cbn in *; lia.
Qed.

Lemma diff_length a b : length a = length b -> length (diff a b) = length a.
Proof. intro L. unfold diff. rewrite map2_length, !map_length. lia. Qed.

Lemma euclid_triangle a b c x y z : length a = length b -> length b = length c ->
  euclid a c x -> euclid a b y -> euclid b c z -> (x <= y + z)%R.
Proof.
  intros L1 L2 [Hx Ex] [Hy Ey] [Hz Ez]. rewrite sqdist_diff in Ex, Ey, Ez by congruence.
  assert (forall w s, (0 <= w -> w * w = s -> w = sqrt s)%R) as HS by (intros w s H <-; symmetry; apply sqrt_square; auto).
  rewrite (HS _ _ Hx Ex), (HS _ _ Hy Ey), (HS _ _ Hz Ez). rewrite (diff_split a b c) by auto. apply norm_triangle. rewrite !diff_length by auto. auto.
Qed.

Theorem C86_straight_line :
  forall p ds first rest D, (forall pt, In pt (pa_points p) -> length pt = pa_dim p) ->
    path_distances p = Some ds -> pa_points p = first :: rest -> euclid first (last rest first) D ->
    (D <= total ds)%R.
Proof.
  intros p ds first rest D H E Ep HD. destruct (distances_spec p H) as [ds' [E' [EL _]]]. assert (ds' = ds) by congruence. subst ds'. clear E E'.
  rewrite Ep in EL, H. clear Ep. revert first ds D H EL HD. induction rest as [|b rest IH]; intros a ds D H EL HD.
  - cbn in EL. injection EL as <-. cbn in HD |- *. destruct HD as [HD1 HD2]. rewrite sqdist_diff in HD2 by reflexivity.
    assert (sq_sum (diff a a) = 0)%R as E.
    { clear. induction a as [|x a IH]; [reflexivity|]. unfold diff in *. cbn. rewrite IH. ring. }
    rewrite E in HD2. nra.
  - rewrite chain_base_cons in EL. cbn [distances_loop] in EL.
    assert (length a = pa_dim p /\ length b = pa_dim p) as [La Lb] by (split; apply H; cbn; auto).
    destruct (distance_same a b) as [d [Ed Hd]]; [congruence|]. rewrite Ed in EL.
    destruct (distances_loop (chain_base (b :: rest))) as [ds0|] eqn:E0; [|discriminate]. injection EL as <-. cbn [total].
    assert (length (last rest b) = pa_dim p) as Ll.
    { apply H. right. destruct rest as [|c rest] using rev_ind; [left; reflexivity|]. rewrite last_last. right. apply in_app_iff. right. left. reflexivity. }
    assert (euclid b (last rest b) (sqrt (sum_square b (last rest b)))) as HE by (apply euclid_sqrt; unfold vec in *; congruence).
    assert (forall pt, In pt (b :: rest) -> length pt = pa_dim p) as H' by (intros; apply H; right; auto).
    specialize (IH b ds0 _ H' E0 HE).
    assert (last (b :: rest) a = last rest b) as EX.
    { clear. destruct rest as [|c rest] using rev_ind; [reflexivity|]. rewrite app_comm_cons, !last_last. reflexivity. }
    rewrite EX in HD. pose proof (euclid_triangle a b (last rest b) D d _ ltac:(congruence) ltac:(unfold vec in *; congruence) HD Hd HE). lra.
Qed.

(** ** Scales *)

Theorem C86_scales :
  forall p, (forall pt, In pt (pa_points p) -> length pt = pa_dim p) ->
    (path_scales p = None <-> length (pa_points p) < 2) /\
    forall a b rest, pa_points p = a :: b :: rest ->
      exists ds d0 ss, path_distances p = Some (d0 :: ds) /\ path_scales p = Some ss /\ length ss = length (pa_points p) - 1 /\
        (* the first edge has the scale 1, the others their length in units of the first *)
        (~ same a b -> nth_error ss 0 = Some (Some 1%R) /\
           forall i, i < length ss -> exists s, nth_error ss i = Some (Some s) /\ (s * d0 = nth i (d0 :: ds) 0)%R) /\
        (* nothing is finite if the path starts with the same point twice *)
        (same a b -> forall x, In x ss -> x = None).
Proof.
  intros p H. destruct (distances_spec p H) as [ds [E [_ [L Hd]]]]. unfold path_scales. rewrite E. split.
  - destruct ds as [|d0 ds]; split; intro H'; try discriminate; auto; cbn in L; lia.
  - intros a b rest Ep. rewrite Ep in L, Hd. cbn [length Nat.sub] in L. destruct ds as [|d0 ds]; [cbn in L; lia|].
    exists ds, d0. eexists. split; [reflexivity|]. split; [reflexivity|]. rewrite map_length. split; [rewrite Ep; cbn in *; lia|].
    assert (length a = length b) as Lab by (rewrite !H; auto; rewrite Ep; cbn; auto).
    specialize (Hd 0 a b eq_refl eq_refl). cbn [nth] in Hd.
    assert (d0 = 0%R <-> same a b) as HZ.
    { destruct Hd as [Hd1 Hd2]. rewrite sqdist_diff in Hd2 by auto. split.
      - intros ->. rewrite Rmult_0_l in Hd2. symmetry in Hd2. apply same_veq. clear - Hd2 Lab. revert b Lab Hd2. induction a as [|x a IH]; intros [|y b] L E; try discriminate; constructor.
        + unfold diff in E. cbn in E. pose proof (sq_sum_nonneg (map2 Rminus (map Q2R a) (map Q2R b))) as HN.
          pose proof (Rle_0_sqr (Q2R x - Q2R y)) as HR. unfold Rsqr in HR. apply eqR_Qeq. apply Rminus_diag_uniq, Rsqr_0_uniq. unfold Rsqr. lra.
        + apply IH; [cbn in L; lia|]. unfold diff in *. cbn in E. pose proof (sq_sum_nonneg (map2 Rminus (map Q2R a) (map Q2R b))) as HN.
          pose proof (Rle_0_sqr (Q2R x - Q2R y)) as HR. unfold Rsqr in HR. lra.
      - intro HS. apply same_veq in HS. assert (sq_sum (diff a b) = 0)%R as Z; [|rewrite Z in Hd2; apply Rsqr_0_uniq; exact Hd2]. clear - HS. induction HS as [|x y a b E HS IH]; [reflexivity|].
        unfold diff in *. cbn. rewrite IH, (Qeq_eqR _ _ E). ring. }
    split.
    + intro HN. assert (d0 <> 0)%R as N by (rewrite HZ; auto). assert (forall d, np_div d d0 = Some (d / d0)%R) as HV.
      { intro d. unfold np_div. destruct (Req_EM_T d0 0); [contradiction|reflexivity]. }
      split.
      * cbn. rewrite HV. do 2 f_equal. field. auto.
      * intros i Hi. exists (nth i (d0 :: ds) 0 / d0)%R. rewrite nth_error_map. rewrite (nth_error_nth' _ 0%R) by auto. cbn [option_map]. rewrite HV.
        split; auto. field. auto.
    + intros HS x Hx. apply HZ in HS. apply in_map_iff in Hx. destruct Hx as [d [<- _]]. unfold np_div. destruct (Req_EM_T d0 0); [reflexivity|contradiction].
Qed.

(** The scales do not depend on the unit of length. *)
Lemma loop_scaled c : (0 < Q2R c)%R -> forall pairs ds,
  (forall a b, In (a, b) pairs -> length a = length b) -> distances_loop pairs = Some ds ->
  distances_loop (map (fun ab => (map (Qmult c) (fst ab), map (Qmult c) (snd ab))) pairs) = Some (map (Rmult (Q2R c)) ds).
Proof.
  intro Hc. induction pairs as [|[a b] pairs IH]; intros ds H E.
  - cbn in *. injection E as <-. reflexivity.
  - cbn [distances_loop] in E. destruct (distance_same a b (H a b (or_introl eq_refl))) as [d [Ed Hd]]. rewrite Ed in E.
    destruct (distances_loop pairs) as [ds0|] eqn:E0; [|discriminate]. injection E as <-. cbn [map distances_loop fst snd].
    rewrite (IH ds0); auto; [|intros; apply H; right; auto]. pose proof (H a b (or_introl eq_refl)) as L.
    destruct (distance_same (map (Qmult c) a) (map (Qmult c) b)) as [e [Ee He]]; [rewrite !map_length; auto|]. unfold vec in *. rewrite Ee. cbn [map]. do 2 f_equal.
    apply (euclid_unique _ _ _ _ He). destruct Hd as [Hd1 Hd2]. split; [nra|].
    assert (Q2R (sqdist (map (Qmult c) a) (map (Qmult c) b)) = Q2R c * Q2R c * Q2R (sqdist a b))%R as ES.
    { rewrite !sqdist_diff by (rewrite ?map_length; auto). clear - L. revert b L. induction a as [|x a IH]; intros [|y b] L; try discriminate.
      - cbn. lra.
      - unfold diff in *. cbn. rewrite (IH b) by (cbn in L; lia). rewrite !Q2R_mult. ring. }
    rewrite ES, <- Hd2. ring.
Qed.

Lemma chain_base_map {A B} (f : A -> B) l : chain_base (map f l) = map (fun ab => (f (fst ab), f (snd ab))) (chain_base l).
Proof. induction l as [|a l IH]; [reflexivity|]. destruct l as [|b l]; [reflexivity|]. cbn [map] in *. rewrite !chain_base_cons. cbn [map fst snd]. f_equal. apply IH. Qed.

Theorem C86_unit_of_length :
  forall c p q, (0 < c)%Q -> (forall pt, In pt (pa_points p) -> length pt = pa_dim p) -> scaled_points c p q ->
    (forall ds, path_distances p = Some ds -> path_distances q = Some (map (Rmult (Q2R c)) ds)) /\
    path_scales q = path_scales p.
Proof.
  intros c p q Hc H HS. assert (0 < Q2R c)%R as Hc' by (apply Qlt_Rlt in Hc; unfold Q2R in Hc at 1; cbn in Hc; lra).
  destruct (distances_spec p H) as [ds [E [EL _]]].
  assert (path_distances q = Some (map (Rmult (Q2R c)) ds)) as Eq.
  { unfold path_distances, edges. rewrite chain_open, HS, chain_base_map. apply loop_scaled; auto.
    intros a b Hin. apply chain_base_in in Hin. rewrite !H; tauto. }
  split; [congruence|]. unfold path_scales. rewrite E, Eq. destruct ds as [|d0 ds]; [reflexivity|]. cbn [map].
  assert (forall d, np_div (Q2R c * d) (Q2R c * d0) = np_div d d0) as HV.
  { intro d. unfold np_div. destruct (Req_EM_T d0 0) as [->|N].
    - destruct (Req_EM_T (Q2R c * 0) 0); [reflexivity|lra].
    - destruct (Req_EM_T (Q2R c * d0) 0) as [Z|N']; [nra|]. f_equal. field. lra. }
  f_equal. rewrite map_map. f_equal; [apply HV|]. apply map_ext. exact HV.
Qed.

(** The ready-made paths. *)
Lemma presets_distance a b s (x : R) : length a = length b -> (0 <= x)%R -> (sqdist a b == s)%Q -> (Q2R s = x * x)%R -> distance a b = Some x.
Proof.
  intros L Hx E1 E2. destruct (distance_same a b L) as [d [Ed Hd]]. rewrite Ed. f_equal. apply (euclid_unique _ _ _ _ Hd).
  split; auto. rewrite (Qeq_eqR _ _ E1). auto.
Qed.

Theorem C86_preset_scales :
  forall v, (0 < v)%Q ->
    (exists p, chain_path v = Some p /\ path_scales p = Some [Some 1; Some 1]%R) /\
    (exists p, square_path v = Some p /\ path_scales p = Some [Some 1; Some 1; Some (sqrt 2)]%R) /\
    path_scales (cubic_path v) = Some [Some 1; Some 1; Some (sqrt 2); Some (sqrt 3)]%R.
Proof.
  intros v Hv. assert (0 < Q2R v)%R as Hv' by (apply Qlt_Rlt in Hv; unfold Q2R in Hv at 1; cbn in Hv; lra).
  assert (forall x, np_div (x * Q2R v) (Q2R v) = Some x) as HV.
  { intro x. unfold np_div. destruct (Req_EM_T (Q2R v) 0); [lra|]. f_equal. field. lra. }
  pose proof (HV 1%R) as HV1. rewrite Rmult_1_l in HV1.
  pose proof (sqrt_sqrt 2 ltac:(lra)) as S2. pose proof (sqrt_sqrt 3 ltac:(lra)) as S3. pose proof (sqrt_pos 2) as P2. pose proof (sqrt_pos 3) as P3.
  assert (forall a b, length a = length b -> (sqdist a b == v * v)%Q -> distance a b = Some (Q2R v)) as D1.
  { intros a b L E. apply (presets_distance a b (v * v)); auto; [lra|]. rewrite Q2R_mult. reflexivity. }
  assert (forall a b, length a = length b -> (sqdist a b == 2 * (v * v))%Q -> distance a b = Some (sqrt 2 * Q2R v)%R) as D2.
  { intros a b L E. apply (presets_distance a b (2 * (v * v))); auto; [nra|]. rewrite !Q2R_mult. replace (Q2R 2) with 2%R by (unfold Q2R; cbn; lra). nra. }
  assert (forall a b, length a = length b -> (sqdist a b == 3 * (v * v))%Q -> distance a b = Some (sqrt 3 * Q2R v)%R) as D3.
  { intros a b L E. apply (presets_distance a b (3 * (v * v))); auto; [nra|]. rewrite !Q2R_mult. replace (Q2R 3) with 3%R by (unfold Q2R; cbn; lra). nra. }
  split; [|split].
  - eexists. split; [reflexivity|]. unfold path_scales, path_distances. cbn [edges pa_points chain]. cbn -[distance].
    rewrite !D1 by (try reflexivity; unfold sqdist; cbn; ring). cbn. rewrite HV1. reflexivity.
  - eexists. split; [reflexivity|]. unfold path_scales, path_distances. cbn -[distance].
    rewrite (D1 [0;0]%Q), (D1 [v; 0]%Q), (D2 [v; v]%Q) by (try reflexivity; unfold sqdist; cbn; ring). cbn -[sqrt]. rewrite HV1, HV. reflexivity.
  - unfold path_scales, path_distances. cbn -[distance].
    rewrite (D1 [0;0;0]%Q), (D1 [v; 0; 0]%Q), (D2 [v; v; 0]%Q), (D3 [0;0;0]%Q) by (try reflexivity; unfold sqdist; cbn; ring). cbn -[sqrt].
    rewrite HV1, !HV. reflexivity.
Qed.

Example C86_example :
  let p := add (add (add (new_path 2) [0; 0]%Q "A") [3; 4]%Q "B") [3; 14]%Q "C" in
  (forall pt, In pt (pa_points p) -> length pt = pa_dim p) /\ path_distances p = Some [5; 10]%R /\ path_scales p = Some [Some 1; Some 2]%R /\
  ~ same [0; 0]%Q [3; 4]%Q /\
  path_distances (add (add (new_path 3) [0; 0; 0]%Q "A") [3; 4]%Q "B") = None /\
  path_scales (add (new_path 2) [1; 1]%Q "A") = None /\
  scaled_points 2 p (add (add (add (new_path 2) [0; 0]%Q "A") [6; 8]%Q "B") [6; 28]%Q "C").
Proof.
  set (p := add (add (add (new_path 2) [0; 0]%Q "A") [3; 4]%Q "B") [3; 14]%Q "C"). cbv zeta.
  assert (path_distances p = Some [5; 10]%R) as E.
  { unfold path_distances. cbn -[distance]. rewrite (presets_distance [0; 0]%Q [3; 4]%Q 25 5), (presets_distance [3; 4]%Q [3; 14]%Q 100 10);
      try reflexivity; try lra; unfold Q2R; cbn; lra. }
  split; [intros pt [<-|[<-|[<-|[]]]]; reflexivity|]. split; [exact E|]. split.
  { unfold path_scales. rewrite E. cbn. unfold np_div. destruct (Req_EM_T 5 0); [lra|]. do 2 f_equal; [f_equal; lra|f_equal; f_equal; lra]. }
  split; [|split; [reflexivity|split; reflexivity]].
  intro HS. apply same_veq in HS. inversion HS as [|? ? ? ? HQ]. discriminate HQ.
Qed.

Print Assumptions C86_distances.
Print Assumptions C86_fails.
Print Assumptions C86_straight_line.
Print Assumptions C86_scales.
Print Assumptions C86_unit_of_length.
Print Assumptions C86_preset_scales.
Print Assumptions C86_example.
