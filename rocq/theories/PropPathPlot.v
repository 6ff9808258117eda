(** * Property C104 (lattpy/disptools.py: dispersion plots of paths) *)
From Coq Require Import String List ZArith QArith Reals Qreals Bool Arith Lia Lra.
From Verif Require Import Np NpFacts LinAlg LinFacts SpecBasis SpecSpatial SpecUtils UtilsModel UtilsProofs StructureFacts PathModel RealModel PathScaleModel
  PropPath PropPathScale DispPlotModel PropDispPlot PathPlotModel.
Import ListNotations.
Open Scope nat_scope.
Open Scope list_scope.

(** ** Distances of the samples *)

Lemma sqdist_scaled a b u v (m : Q) : length u = length a -> (forall c, (m * (nth c u 0 - nth c v 0) == nth c a 0 - nth c b 0)%Q) ->
  (m * m * sqdist u v == sqdist a b)%Q.
Proof.
  intros L H. unfold sqdist. rewrite L, <- sum_scale. apply sum_ext. intros k _. rewrite <- (H k). ring.
Qed.

Lemma euclid_scaled a b u v m d e : length u = length a -> length v = length a -> (0 < m)%R ->
  (forall c, (m * (Q2R (nth c u 0%Q) - Q2R (nth c v 0%Q)) = Q2R (nth c a 0%Q) - Q2R (nth c b 0%Q))%R) ->
  (exists q, m = Q2R q) -> euclid a b d -> euclid u v e -> (m * e = d)%R.
Proof.
  intros L L' Hm H [q Eq] [Hd Ed] [He Ee].
  assert (q * q * sqdist u v == sqdist a b)%Q as E.
  { apply sqdist_scaled; [exact L|]. intro c. apply eqR_Qeq. rewrite Q2R_mult, !Q2R_minus, <- Eq. apply H. }
  apply Qeq_eqR in E. rewrite !Q2R_mult, <- Eq, <- Ed, <- Ee in E.
  apply Rsqr_inj; [apply Rmult_le_pos; lra|exact Hd|]. unfold Rsqr. lra.
Qed.

Lemma steps_on_way n j a b u v d e : 2 <= n -> length a = length b -> on_way n j a b u -> on_way n (S j) a b v -> euclid a b d -> euclid u v e ->
  (INR (n - 1) * e = d)%R.
Proof.
  intros Hn Lab [Lu Hu] [Lv Hv] Hd He.
  assert (INR (n - 1) = Q2R (inject_Z (Z.of_nat (n - 1)))) as EI by (rewrite INR_IZR_INZ; unfold Q2R; cbn; lra).
  apply (euclid_scaled a b u v); auto; [apply lt_0_INR; lia| |eauto].
  intro c. specialize (Hu c). specialize (Hv c). apply Qeq_eqR in Hu. apply Qeq_eqR in Hv.
  rewrite !Q2R_plus, !Q2R_mult, !Q2R_minus in Hu, Hv. rewrite <- EI in Hu, Hv.
  assert (Q2R (inject_Z (Z.of_nat (S j))) = Q2R (inject_Z (Z.of_nat j)) + 1)%R as Ej.
  { rewrite Nat2Z.inj_succ. unfold Q2R. cbn. rewrite succ_IZR. lra. }
  rewrite Ej in Hv. lra.
Qed.

Lemma euclid_same a u v e : same u a -> same v a -> euclid u v e -> (e = 0)%R.
Proof.
  intros [Lu Hu] [Lv Hv] [He Ee].
  assert (sqdist u v == 0)%Q as E.
  { unfold sqdist. rewrite (sum_ext _ _ (fun _ => 0%Q)).
    - clear. induction (length u) as [|n IH]; cbn; [reflexivity|]. rewrite IH. reflexivity.
    - intros k _. rewrite (Hu k), (Hv k). ring. }
  apply Qeq_eqR in E. rewrite <- Ee in E. replace (Q2R 0) with 0%R in E by (unfold Q2R; cbn; lra). nra.
Qed.

(** ** The axis *)

(** Position of the points of the path for sections of [n] samples. *)
Fixpoint rtick (n : nat) (scales : list R) (i : nat) : R :=
  match i, scales with
  | S i', s :: rest => (INR (n - 1) * s + rtick n rest i')%R
  | _, _ => 0%R
  end.

Lemma rscale_loop_spec n scales k0 k ticks : 1 <= n ->
  exists k' ticks', rscale_loop n scales k0 k ticks = Some (k ++ k', ticks ++ ticks') /\
    length k' = length scales * n /\ length ticks' = length scales /\
    (forall i j, i < length scales -> j < n -> (nth (i * n + j) k' 0 = k0 + rtick n scales i + INR j * nth i scales 0)%R) /\
    (forall i, i < length scales -> (nth i ticks' 0 = k0 + rtick n scales (S i))%R).
Proof.
  intro Hn. revert k0 k ticks. induction scales as [|s scales IH]; intros k0 k ticks.
  - exists [], []. rewrite !app_nil_r. cbn. repeat split; auto; intros; lia.
  - cbn [rscale_loop]. set (sec := map (fun i => (k0 + INR i * s)%R) (seq 0 n)).
    assert (length sec = n) as Ls by (unfold sec; rewrite map_length, seq_length; auto).
    assert (forall j, j < n -> nth j sec 0%R = (k0 + INR j * s)%R) as Hsec.
    { intros j Hj. unfold sec. rewrite (nth_map_in _ _ _ 0) by (rewrite seq_length; auto). rewrite seq_nth; auto. }
    destruct (k ++ sec) as [|e r] eqn:Ek. { apply (f_equal (@length _)) in Ek. rewrite app_length in Ek. cbn in Ek. lia. }
    rewrite <- Ek. set (k1 := last (k ++ sec) 0%R).
    assert (k1 = (k0 + INR (n - 1) * s)%R) as Ek1.
    { unfold k1. rewrite <- Hsec by lia. destruct (exists_last (l := sec)) as [q [z E]]; [intro E; rewrite E in Ls; cbn in Ls; lia|].
      rewrite E, app_assoc, last_last. rewrite E, app_length in Ls. cbn in Ls. rewrite app_nth2 by lia. replace (n - 1 - length q) with 0 by lia. reflexivity. }
    destruct (IH k1 (k ++ sec) (ticks ++ [k1])) as [k' [t' [E [Lk [Lt [Hk Ht]]]]]].
    exists (sec ++ k'), (k1 :: t'). split; [rewrite E, <- !app_assoc; reflexivity|]. split; [rewrite app_length; cbn; lia|]. split; [cbn; lia|].
    split.
    + intros [|i] j Hi Hj.
      * cbn [Nat.mul Nat.add]. rewrite app_nth1 by lia. rewrite Hsec by auto. cbn [rtick nth]. lra.
      * cbn [length] in Hi. rewrite app_nth2 by (cbn; lia). rewrite Ls. replace (S i * n + j - n) with (i * n + j) by (cbn; lia).
        rewrite Hk by lia. rewrite Ek1. cbn [rtick nth]. lra.
    + intros [|i] Hi.
      * cbn [nth rtick]. rewrite Ek1. destruct scales; cbn [rtick]; lra.
      * cbn [length] in Hi. cbn [nth]. rewrite Ht by lia. rewrite Ek1. cbn [rtick]. lra.
Qed.

Lemma rtick_succ n scales : forall i, i < length scales -> rtick n scales (S i) = (rtick n scales i + INR (n - 1) * nth i scales 0)%R.
Proof.
  induction scales as [|s scales IH]; intros i Hi; [cbn in Hi; lia|]. destruct i as [|i].
  - cbn [rtick nth]. destruct scales; cbn [rtick]; lra.
  - cbn [length] in Hi. cbn [nth]. specialize (IH i ltac:(lia)). change (rtick n (s :: scales) (S (S i))) with (INR (n - 1) * s + rtick n scales (S i))%R. rewrite IH. cbn [rtick]. lra.
Qed.

Lemma finite_all l s : finite_scales l = Some s -> l = map Some s.
Proof.
  revert s. induction l as [|[x|] l IH]; intros s H; cbn in H; [injection H as <-; reflexivity| |discriminate].
  destruct (finite_scales l) as [r|]; [|discriminate]. injection H as <-. cbn. rewrite (IH r) by reflexivity. reflexivity.
Qed.

Lemma finite_some l : (forall i, i < length l -> exists s, nth_error l i = Some (Some s)) -> exists s, finite_scales l = Some s.
Proof.
  induction l as [|x l IH]; intro H; [exists []; reflexivity|].
  destruct (H 0 ltac:(cbn; lia)) as [s0 E]. injection E as ->. destruct IH as [s Es]; [intros i Hi; apply (H (S i)); cbn; lia|].
  exists (s0 :: s). cbn. rewrite Es. reflexivity.
Qed.

(** The scales of a path. *)
Lemma scales_of p a b rest : (forall pt, In pt (pa_points p) -> length pt = pa_dim p) -> pa_points p = a :: b :: rest -> ~ same a b ->
  exists s e0, path_scales p = Some (map Some s) /\ finite_scales (map Some s) = Some s /\ length s = length (pa_points p) - 1 /\
    euclid a b e0 /\ (0 < e0)%R /\
    forall i u v, nth_error (pa_points p) i = Some u -> nth_error (pa_points p) (S i) = Some v -> euclid u v (nth i s 0 * e0)%R.
Proof.
  intros Hdim E Hab. destruct (C86_scales p Hdim) as [_ H]. destruct (H a b rest E) as [ds [d0 [ss [Ed [Es [Ls [H1 _]]]]]]].
  destruct (H1 Hab) as [_ Hs]. destruct (finite_some ss) as [s Ef]; [intros i Hi; destruct (Hs i Hi) as [x [Hx _]]; eauto|].
  pose proof (finite_all ss s Ef) as ->. rewrite map_length in Ls, Hs. exists s, d0.
  destruct (C86_distances p Hdim) as [ds' [Ed' [Lds Hd]]]. rewrite Ed in Ed'. injection Ed' as <-.
  assert (euclid a b d0) as He0 by (apply (Hd 0 a b); rewrite E; reflexivity).
  split; [exact Es|]. split; [exact Ef|]. split; [exact Ls|]. split; [exact He0|]. split.
  - destruct He0 as [Hp Hsq]. destruct (Rle_lt_or_eq_dec _ _ Hp) as [Hlt|Heq]; [exact Hlt|]. exfalso. apply Hab.
    assert (length a = length b) as Lab by (rewrite !Hdim; auto; rewrite E; cbn; auto).
    assert (sqdist a b == 0)%Q as E0 by (apply eqR_Qeq; rewrite <- Hsq, <- Heq; unfold Q2R; cbn; lra).
    split; [exact Lab|]. intro i. destruct (lt_dec i (length a)) as [Hi|Hi]; [|rewrite !nth_overflow by lia; reflexivity].
    apply eqR_Qeq. apply Qeq_eqR in E0. rewrite (sqdist_diff a b Lab) in E0. replace (Q2R 0) with 0%R in E0 by (unfold Q2R; cbn; lra).
    clear -E0 Hi Lab. revert b i E0 Hi Lab. induction a as [|x a IH]; intros [|y b] i E0 Hi Lab; try discriminate Lab; [cbn in Hi; lia|].
    unfold diff in E0. cbn [map map2 sq_sum] in E0. pose proof (sq_sum_nonneg (map2 Rminus (map Q2R a) (map Q2R b))) as Hn.
    pose proof (Rle_0_sqr (Q2R x - Q2R y)) as Hx. unfold Rsqr in Hx. destruct i as [|i]; cbn [nth].
    + assert ((Q2R x - Q2R y) * (Q2R x - Q2R y) = 0)%R as H0 by lra. apply Rmult_integral in H0. lra.
    + apply IH; [unfold diff; lra|cbn in Hi; lia|injection Lab; auto].
  - intros i u v Hu Hv. assert (S i < length (pa_points p)) as Hi by (apply nth_error_Some; congruence).
    destruct (Hs i ltac:(lia)) as [x [Hx Ex]]. assert (nth i s 0%R = x) as ->.
    { rewrite nth_error_map in Hx. destruct (nth_error s i) as [z|] eqn:Ez; [|discriminate]. injection Hx as <-. apply nth_error_nth with (d := 0%R) in Ez. exact Ez. }
    rewrite Ex. apply Hd; auto.
Qed.

(** ** Theorems *)

(** The plot of samples along the path is drawn against the length of the path: the steps on the axis are the distances
    of the samples, all multiplied by the same number, and the ticks are at the points. *)
Theorem C104_arc_length :
  forall p P n p' K nb disp a b rest,
    (forall pt, In pt (pa_points p) -> length pt = pa_dim p) ->
    pa_points p = a :: b :: rest -> length (pa_points p) = S P -> length (pa_labels p) = S P -> ~ same a b ->
    2 <= n -> build p n = Some (p', K) -> length disp = length K ->
    exists pic c, path_plot p nb disp = Some pic /\ (0 < c)%R /\ (forall e, euclid a b e -> (c * e = INR (n - 1))%R) /\
      pp_labels pic = pa_labels p /\ length (pp_ticks pic) = S P /\
      (forall i u v e, nth_error (pa_points p) i = Some u -> nth_error (pa_points p) (S i) = Some v -> euclid u v e ->
         (nth (S i) (pp_ticks pic) 0 - nth i (pp_ticks pic) 0 = c * e)%R) /\
      length (pp_curves pic) = nb /\
      forall band curve, nth_error (pp_curves pic) band = Some curve ->
        length curve = length K /\
        let x r := fst (nth r curve (0%R, 0%Q)) in
        (forall r, r < length K -> snd (nth r curve (0%R, 0%Q)) = nth band (nth r disp []) 0%Q) /\
        x 0 = 0%R /\
        (forall r e, S r < length K -> euclid (nth r K []) (nth (S r) K []) e -> (x (S r) - x r = c * e)%R) /\
        (forall i, i < P -> nth i (pp_ticks pic) 0%R = x (i * n) /\ nth (S i) (pp_ticks pic) 0%R = x (i * n + (n - 1))).
Proof.
  intros p P n p' K nb disp a b rest Hdim Epts LP Ll Hab Hn EK Ld.
  assert (1 <= P) as HP by (rewrite Epts in LP; cbn in LP; lia).
  destruct (C63_build p n Hdim) as [p1 [l1 [E1 [_ [_ [LK [Hway [_ [Htick _]]]]]]]]]. rewrite EK in E1. injection E1 as <- <-.
  rewrite LP in LK, Htick. replace (S P - 1) with P in LK by lia.
  destruct (scales_of p a b rest Hdim Epts Hab) as [s [e0 [Es [Ef [Ls [He0 [H0 Hs]]]]]]]. rewrite LP in Ls. replace (S P - 1) with P in Ls by lia.
  destruct (rscale_loop_spec n s 0%R [] [0%R] ltac:(lia)) as [k [t [El [Lk [Lt [Hk Ht]]]]]]. cbn [app] in El. rewrite Ls in Lk, Lt, Hk, Ht.
  exists (mkPicture (map (fun i => combine k (band disp i)) (seq 0 nb)) (0%R :: t) (pa_labels p)), (INR (n - 1) / e0)%R.
  assert (path_plot p nb disp = Some (mkPicture (map (fun i => combine k (band disp i)) (seq 0 nb)) (0%R :: t) (pa_labels p))) as Epic.
  { unfold path_plot. rewrite Es, Ef. unfold rscale_xaxis. rewrite Ll. destruct (Nat.leb_spec (S P) 1); [lia|]. replace (S P - 1) with P by lia.
    rewrite Ld, LK, sect_size_exact by exact HP. rewrite El, Lk, Nat.eqb_refl. reflexivity. }
  split; [exact Epic|]. assert (0 < INR (n - 1))%R as Hn1 by (apply lt_0_INR; lia).
  split; [apply Rdiv_lt_0_compat; assumption|].
  split; [intros e He; rewrite (euclid_unique a b e e0 He He0); field; lra|]. cbv beta iota delta [pp_labels pp_ticks pp_curves].
  split; [reflexivity|]. split; [cbn; rewrite Lt; reflexivity|].
  split.
  { intros i u v e Hu Hv He. assert (S i < length (pa_points p)) as Hi by (apply nth_error_Some; congruence).
    rewrite (euclid_unique u v e _ He (Hs i u v Hu Hv)). 
    replace (nth i (0%R :: t) 0%R) with (rtick n s i).
    { change (nth (S i) (0%R :: t) 0%R) with (nth i t 0%R). rewrite (Ht i), rtick_succ by lia. field. lra. }
    destruct i as [|i]; cbn [nth]; [destruct s; reflexivity|]. rewrite (Ht i) by lia. lra. }
  split; [rewrite map_length, seq_length; reflexivity|].
  intros bd curve Hc. rewrite nth_error_map in Hc. destruct (nth_error (seq 0 nb) bd) as [z|] eqn:Ez; [|discriminate]. injection Hc as <-.
  assert (z = bd) as -> by (apply (nth_error_nth _ _ 0) in Ez as Ez'; rewrite seq_nth in Ez'; [exact (eq_sym Ez')|rewrite <- (seq_length nb 0); apply nth_error_Some; congruence]).
  assert (length k = length (band disp bd)) as Lkb by (rewrite band_length, Ld, LK; exact Lk).
  split; [rewrite combine_length, <- Lkb, Nat.min_id, LK; exact Lk|]. intro x.
  assert (forall r, r < length K -> nth r (combine k (band disp bd)) (0%R, 0%Q) = (nth r k 0%R, nth bd (nth r disp []) 0%Q)) as Hnth.
  { intros r Hr. rewrite combine_nth by exact Lkb. rewrite nth_band by lia. reflexivity. }
  assert (forall r, r < length K -> x r = nth r k 0%R) as Hx by (intros r Hr; unfold x; rewrite Hnth by exact Hr; reflexivity).
  assert (forall i j, i < P -> j < n -> i * n + j < length K) as Hlt by (intros i j Hi Hj; rewrite LK; nia).
  split; [intros r Hr; rewrite Hnth by exact Hr; reflexivity|].
  split. { rewrite Hx by (apply (Hlt 0 0); lia). change (nth 0 k 0%R) with (nth (0 * n + 0) k 0%R). rewrite (Hk 0 0) by lia. cbn [INR]. destruct s; cbn [rtick nth]; lra. }
  assert (forall i, i <= P -> exists u, nth_error (pa_points p) i = Some u /\ length u = pa_dim p) as Hpt.
  { intros i Hi. destruct (nth_error (pa_points p) i) as [u|] eqn:Eu; [exists u; split; [reflexivity|apply Hdim; eapply nth_error_In; exact Eu]|]. apply nth_error_None in Eu. lia. }
  split.
  - intros r e Hr He. rewrite !Hx by lia. set (i := r / n). set (j := r mod n). assert (r = i * n + j) as Er by (unfold i, j; rewrite (Nat.div_mod r n) at 1 by lia; lia).
    assert (j < n) as Hj by (apply Nat.mod_upper_bound; lia). assert (i < P) as Hi by (apply Nat.div_lt_upper_bound; [lia|]; rewrite LK in Hr; lia).
    destruct (Hpt i ltac:(lia)) as [u [Eu Lu]]. destruct (Hpt (S i) ltac:(lia)) as [v [Ev Lv]].
    destruct (Nat.eq_dec (S j) n) as [Ejn|Ejn].
    + assert (S r = S i * n + 0) as Er' by (cbn; lia). assert (S i < P) as Hi' by (rewrite LK in Hr; nia).
      rewrite Er', (Hk (S i) 0), Er, (Hk i j) by lia. rewrite rtick_succ by lia. replace (n - 1) with j by lia.
      assert (e = 0%R) as ->; [|cbn [INR]; lra].
      destruct (Htick (S i) v Ev ltac:(lia) ltac:(lia)) as [_ Hv]. apply (euclid_same v (nth r K []) (nth (S r) K [])); [|rewrite Er', Nat.add_0_r; exact Hv|exact He].
      rewrite Er. destruct (Hway i j u v Eu Ev Hn Hj) as [W1 W2]. split; [congruence|]. intro c. specialize (W2 c). replace j with (n - 1) in W2 |- * by lia.
      apply Qmult_inj_r with (z := inject_Z (Z.of_nat (n - 1))); [intro Hz; apply Qeq_eqR in Hz; unfold Q2R in Hz; cbn in Hz; rewrite Rinv_1, Rmult_1_r, Rmult_0_l in Hz; apply eq_IZR in Hz; lia|].
      rewrite W2. ring.
    + assert (S r = i * n + S j) as Er' by lia. rewrite Er', (Hk i (S j)), Er, (Hk i j) by lia. rewrite S_INR.
      assert (INR (n - 1) * e = nth i s 0 * e0)%R as Estep.
      { apply (steps_on_way n j u v (nth r K []) (nth (S r) K [])); auto; [congruence|rewrite Er; apply Hway; auto|rewrite Er'; apply Hway; auto; lia]. }
      assert (INR (n - 1) / e0 * e = nth i s 0)%R as -> by (replace (INR (n - 1) / e0 * e)%R with (INR (n - 1) * e / e0)%R by (field; lra); rewrite Estep; field; lra). lra.
  - intros i Hi. rewrite !Hx by (try (apply (Hlt i (n - 1)); lia); rewrite <- (Nat.add_0_r (i * n)); apply (Hlt i 0); lia).
    rewrite (Hk i (n - 1)) by lia. replace (i * n) with (i * n + 0) by lia. rewrite (Hk i 0) by lia.
    cbn [nth]. rewrite (Ht i) by exact Hi. rewrite rtick_succ by lia. split; [|lra].
    destruct i as [|i]; cbn [nth INR]; [destruct s; cbn [rtick]; lra|]. rewrite (Ht i) by lia. lra.
Qed.

(** Which paths and samples can be drawn. *)
Theorem C104_drawn :
  forall p nb disp,
    (forall pt, In pt (pa_points p) -> length pt = pa_dim p) -> length (pa_labels p) = length (pa_points p) ->
    path_plot p nb disp <> None <->
    exists a b rest n, pa_points p = a :: b :: rest /\ ~ same a b /\ 1 <= n /\ length disp = (length (pa_points p) - 1) * n.
Proof.
  intros p nb disp Hdim Ll. split.
  - intro H. destruct (pa_points p) as [|a [|b rest]] eqn:Epts.
    + exfalso. apply H. destruct (C86_scales p) as [Hn _]; [rewrite Epts; exact Hdim|]. unfold path_plot. rewrite (proj2 Hn); [reflexivity|rewrite Epts; cbn; lia].
    + exfalso. apply H. destruct (C86_scales p) as [Hn _]; [rewrite Epts; exact Hdim|]. unfold path_plot. rewrite (proj2 Hn); [reflexivity|rewrite Epts; cbn; lia].
    + rewrite <- Epts in Hdim. exists a, b, rest.
      assert (~ same a b) as Hab.
      { intro Hsame. apply H. destruct (C86_scales p Hdim) as [_ Hsc]. destruct (Hsc a b rest Epts) as [ds [d0 [ss [_ [Es [Lss [_ Hnone]]]]]]].
        unfold path_plot. rewrite Es. rewrite Epts in Lss. destruct ss as [|x ss]; [cbn in Lss; lia|]. rewrite (Hnone Hsame x (or_introl eq_refl)). reflexivity. }
      destruct (scales_of p a b rest Hdim Epts Hab) as [s [e0 [Es [Ef [Ls _]]]]]. rewrite Epts in Ls.
      unfold path_plot in H. rewrite Es, Ef in H. unfold rscale_xaxis in H. rewrite Ll in H.
      destruct (Nat.leb_spec (length (a :: b :: rest)) 1) as [Hle|_]; [cbn in Hle; lia|].
      set (P := length (a :: b :: rest) - 1) in *. set (n := sect_size (length disp) P) in *. exists n. split; [reflexivity|]. split; [exact Hab|].
      destruct n as [|n'] eqn:En.
      * exfalso. apply H. destruct s as [|s0 s]; [cbn in Ls; lia|]. reflexivity.
      * rewrite <- En in *. assert (1 <= n) as Hn by lia. destruct (rscale_loop_spec n s 0%R [] [0%R] Hn) as [k [t [El [Lk _]]]]. cbn [app] in El. rewrite El in H.
        split; [exact Hn|]. destruct (Nat.eqb_spec (length k) (length disp)) as [E|_]; [|congruence]. rewrite <- E, Lk, Ls. reflexivity.
  - intros [a [b [rest [n [Epts [Hab [Hn Ld]]]]]]]. destruct (scales_of p a b rest Hdim Epts Hab) as [s [e0 [Es [Ef [Ls _]]]]].
    unfold path_plot. rewrite Es, Ef. unfold rscale_xaxis. rewrite Ll, Ld.
    assert (2 <= length (pa_points p)) as H2 by (rewrite Epts; cbn; lia). destruct (Nat.leb_spec (length (pa_points p)) 1); [lia|].
    rewrite sect_size_exact by lia. destruct (rscale_loop_spec n s 0%R [] [0%R] Hn) as [k [t [El [Lk _]]]]. cbn [app] in El. rewrite El, Lk, Ls, Nat.eqb_refl. discriminate.
Qed.

(** ** Example: a path with a corner *)

Definition corner : path := mkPath 2 ["A"; "B"; "C"]%string [[0; 0]; [3; 4]; [3; 16]]%Q 0.
Definition corner_disp : list (list Q) := [[0; 1]; [1; 2]; [2; 3]; [3; 4]; [4; 5]; [5; 6]]%Q.

(** Edges of length 5 and 12, three samples each: the samples of the second edge are 12/5 apart. *)
Example C104_example :
  (forall pt, In pt (pa_points corner) -> length pt = pa_dim corner) /\ ~ same [0; 0]%Q [3; 4]%Q /\
  (exists p' K, build corner 3 = Some (p', K) /\ length corner_disp = length K /\ same (nth 4 K []) [3; 10]%Q) /\
  euclid [0; 0]%Q [3; 4]%Q 5%R /\ euclid [3; 4]%Q [3; 16]%Q 12%R /\
  exists pic, path_plot corner 2 corner_disp = Some pic /\ pp_labels pic = ["A"; "B"; "C"]%string /\
    (nth 1 (pp_ticks pic) 0 = 2)%R /\ (nth 2 (pp_ticks pic) 0 = 2 + 24 / 5)%R /\
    exists curve, nth_error (pp_curves pic) 1 = Some curve /\ nth 2 curve (0%R, 0%Q) = (2%R, 3%Q) /\ snd (nth 4 curve (0%R, 0%Q)) = 5%Q.
Proof.
  assert (forall pt, In pt (pa_points corner) -> length pt = pa_dim corner) as Hdim by (intros pt [<-|[<-|[<-|[]]]]; reflexivity).
  assert (~ same [0; 0]%Q [3; 4]%Q) as Hab by (intros [_ H]; specialize (H 0); discriminate H).
  assert (exists p' K, build corner 3 = Some (p', K) /\ length corner_disp = length K /\ same (nth 4 K []) [3; 10]%Q) as HK.
  { eexists. eexists. split; [vm_compute; reflexivity|]. split; [reflexivity|]. split; [reflexivity|]. intros [|[|i]]; [reflexivity|reflexivity|destruct i; reflexivity]. }
  assert (euclid [0; 0]%Q [3; 4]%Q 5%R) as H5 by (split; [lra|unfold sqdist, Q2R; cbn; lra]).
  assert (euclid [3; 4]%Q [3; 16]%Q 12%R) as H12 by (split; [lra|unfold sqdist, Q2R; cbn; lra]).
  split; [exact Hdim|]. split; [exact Hab|]. split; [exact HK|]. split; [exact H5|]. split; [exact H12|].
  destruct HK as [p' [K [EK [Ld _]]]].
  destruct (C104_arc_length corner 2 3 p' K 2 corner_disp [0; 0]%Q [3; 4]%Q [[3; 16]]%Q Hdim eq_refl eq_refl eq_refl Hab ltac:(lia) EK Ld)
    as [pic [c [E [Hc [Hce [El [Lt [Htk [Lc Hcv]]]]]]]]].
  assert (c = 2 / 5)%R as -> by (specialize (Hce 5%R H5); cbn in Hce; lra).
  assert (length K = 6) as LK by (rewrite <- Ld; reflexivity). rewrite LK in Hcv.
  assert (exists curve, nth_error (pp_curves pic) 1 = Some curve) as [curve Ecv].
  { destruct (nth_error (pp_curves pic) 1) eqn:E1; [eauto|]. apply nth_error_None in E1. lia. }
  destruct (Hcv 1 curve Ecv) as [_ [Hy [Hx0 [_ Ht]]]].
  pose proof (proj1 (Ht 0 ltac:(lia))) as T0. cbn [Nat.mul] in T0. rewrite Hx0 in T0.
  pose proof (Htk 0 _ _ _ eq_refl eq_refl H5) as T1. pose proof (Htk 1 _ _ _ eq_refl eq_refl H12) as T2.
  exists pic. split; [exact E|]. split; [exact El|]. split; [lra|]. split; [lra|].
  exists curve. split; [exact Ecv|]. split.
  - pose proof (proj2 (Ht 0 ltac:(lia))) as X2. change (0 * 3 + (3 - 1)) with 2 in X2. pose proof (Hy 2 ltac:(lia)) as Y2.
    destruct (nth 2 curve (0%R, 0%Q)) as [x y]. cbn [fst snd] in X2, Y2. rewrite Y2. f_equal. lra.
  - exact (Hy 4 ltac:(lia)).
Qed.

(** Samples that do not fill the sections, and a path that starts with the same point twice. *)
Example C104_drawn_example :
  path_plot corner 1 [[0%Q]; [1%Q]; [2%Q]] = None /\
  path_plot (mkPath 1 ["A"; "A"; "B"]%string [[0]; [0]; [1]]%Q 0) 1 [[0%Q]; [1%Q]; [2%Q]; [3%Q]] = None /\
  path_plot corner 1 [[0%Q]; [1%Q]] <> None.
Proof.
  assert (forall pt, In pt (pa_points corner) -> length pt = pa_dim corner) as Hdim by (intros pt [<-|[<-|[<-|[]]]]; reflexivity).
  split; [|split].
  - destruct (path_plot corner 1 [[0%Q]; [1%Q]; [2%Q]]) eqn:E; [|reflexivity]. exfalso.
    destruct (proj1 (C104_drawn corner 1 [[0%Q]; [1%Q]; [2%Q]] Hdim eq_refl)) as [a [b [rest [n [_ [_ [_ H]]]]]]]; [congruence|]. cbn in H. lia.
  - set (q := mkPath 1 ["A"; "A"; "B"]%string [[0]; [0]; [1]]%Q 0). destruct (path_plot q 1 _) eqn:E; [|reflexivity]. exfalso.
    destruct (proj1 (C104_drawn q 1 [[0%Q]; [1%Q]; [2%Q]; [3%Q]] ltac:(intros pt [<-|[<-|[<-|[]]]]; reflexivity) eq_refl)) as [a [b [rest [n [Ep [H _]]]]]]; [congruence|].
    injection Ep as <- <- _. apply H. split; [reflexivity|]. intro i. reflexivity.
  - apply C104_drawn; [exact Hdim|reflexivity|]. exists [0; 0]%Q, [3; 4]%Q, [[3; 16]]%Q, 1. split; [reflexivity|].
    split; [intros [_ H]; specialize (H 0); discriminate H|]. split; [lia|reflexivity].
Qed.

Print Assumptions C104_arc_length.
Print Assumptions C104_drawn.
