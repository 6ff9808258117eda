(** * Proofs about the lattice data: periodic neighbours of all sites, append *)
From Coq Require Import List ZArith QArith Bool Arith Lia Permutation Sorting.Sorted.
From Verif Require Import Np NpFacts LinAlg LinFacts UtilsModel SpecUtils UtilsProofs PropUtils NeighborCellProofs
  DataModel SpecData DataFacts DataProofs DataOps.
Import ListNotations.
Open Scope nat_scope.

(** The periodic neighbours given for site [i]. *)
Definition given (entries : list (nat * list pneighbor)) (i : nat) : list pneighbor :=
  flat_map (fun e => if fst e =? i then snd e else []) entries.

Lemma given_notin entries i : ~ In i (map fst entries) -> given entries i = [].
Proof.
  induction entries as [|[k pn] es IH]; intro H; simpl in *; auto.
  rewrite (proj2 (Nat.eqb_neq k i)) by tauto. simpl. apply IH. tauto.
Qed.

Lemma given_in entries i pn : NoDup (map fst entries) -> In (i, pn) entries -> given entries i = pn.
Proof.
  induction entries as [|[k q] es IH]; intros Hn Hin; simpl in *; [tauto|].
  inversion Hn; subst. destruct Hin as [E|Hin].
  - injection E as -> ->. rewrite Nat.eqb_refl. rewrite (given_notin es) by assumption. apply app_nil_r.
  - assert (k <> i) as Hne.
    { intros ->. apply H1. change i with (fst (i, pn)). apply in_map. auto. }
    rewrite (proj2 (Nat.eqb_neq k i)) by assumption. simpl. auto.
Qed.

Lemma set_periodic_loop_spec entries : forall d (m : nat -> nat),
  wf d -> NoDup (map fst entries) ->
  (forall i pn, In (i, pn) entries -> i < nsites d /\ fresh d i (m i) /\ m i + length pn <= d_cols d /\
     Forall (pn_ok d) pn) ->
  exists d', set_periodic_loop d entries = Some d' /\ wf d' /\
    d_dim d' = d_dim d /\ d_cols d' = d_cols d /\ d_indices d' = d_indices d /\ d_positions d' = d_positions d /\
    d_distvals d' = d_distvals d /\ d_invalid_distidx d' = d_invalid_distidx d /\ d_dmap d' = d_dmap d /\
    (forall i, i < nsites d ->
       slots d' i = slots d i ++ map (pslot (d_dim d)) (given entries i) /\
       (~ In i (map fst entries) -> forall c, c < d_cols d ->
          slot_at d' i c = slot_at d i c /\ valid d' i c = valid d i c) /\
       (In i (map fst entries) -> forall c, c < d_cols d ->
          valid d' i c = (c <? m i + length (given entries i)) /\
          pm d' i c = (m i <=? c) && (c <? m i + length (given entries i))) /\
       (forall c, c < d_cols d -> valid d' i c = false -> nb d' i c = nb d i c)).
Proof.
  induction entries as [|[i pn] es IH]; intros d m W Hn H;
    cbn [set_periodic_loop map fst given flat_map snd In].
  - exists d. split; auto. split; auto. repeat (split; [reflexivity|]). intros i Hi.
    rewrite app_nil_r. split; auto. split; auto. split; [simpl; tauto|auto].
  - inversion Hn; subst. rename H2 into Hni. rename H3 into Hnd.
    destruct (H i pn (or_introl eq_refl)) as [Hi [Hf [Hfit Hok]]].
    destruct (set_periodic_step_spec d i pn (m i) W Hi Hf Hfit Hok) as
      (d1 & E1 & W1 & Edim & Ecols & Eind & Epos & Edv & Einv & Edm & Hother & Hrow & Hslots).
    assert (nsites d1 = nsites d) as En by (unfold nsites; rewrite Eind; reflexivity).
    destruct (IH d1 m W1 Hnd) as
      (d' & E2 & W2 & Edim2 & Ecols2 & Eind2 & Epos2 & Edv2 & Einv2 & Edm2 & Hall).
    { intros i' pn' Hin. destruct (H i' pn' (or_intror Hin)) as [Hi' [Hf' [Hfit' Hok']]].
      assert (i' <> i) as Hne.
      { intros ->. apply Hni. change i with (fst (i, pn')). apply in_map. auto. }
      rewrite En, Ecols. split; auto. split; [|split; auto].
      - destruct Hf' as [F1 F2]. split; [rewrite Ecols; auto|]. intros c Hc. rewrite Ecols in Hc.
        destruct (Hother i' c Hi' Hc Hne) as [S1 [S2 _]]. destruct (F2 c Hc) as [G1 [G2 G3]].
        rewrite S2, Edim. split; auto. pose proof (f_equal s_per S1) as S3. pose proof (f_equal s_axes S1) as S4.
        simpl in S3, S4. split; congruence.
      - eapply Forall_impl; [|exact Hok']. intros p [O1 [O2 [O3 [O4 O5]]]]. unfold pn_ok.
        rewrite En, Edim, Edv. auto. }
    exists d'.
    rewrite E1. split; [exact E2|]. split; auto. rewrite Edim2, Ecols2, Eind2, Epos2, Edv2, Einv2, Edm2.
    repeat (split; [assumption|]).
    intros i' Hi'. rewrite <- En in Hi'. destruct (Hall i' Hi') as [A1 [A2 [A3 A4]]]. rewrite En in Hi'.
    rewrite Ecols in A2, A3, A4. rewrite Edim in A1. rewrite A1.
    destruct (Nat.eq_dec i i') as [<-|Hne].
    + rewrite Nat.eqb_refl. change (flat_map _ es) with (given es i). rewrite (given_notin es) by assumption.
      rewrite !app_nil_r. cbn [map]. rewrite ?app_nil_r.
      split; [exact Hslots|]. split; [tauto|]. split.
      * intros _ c Hc. destruct (A2 Hni c Hc) as [B1 B2]. destruct (Hrow c Hc) as [C1 [C2 _]].
        split; [congruence|]. pose proof (f_equal s_per B1) as B3. simpl in B3. congruence.
      * intros c Hc Hv. destruct (A2 Hni c Hc) as [B1 B2]. destruct (Hrow c Hc) as [C1 [C2 [C3 C4]]].
        rewrite (A4 c Hc Hv). apply C4. congruence.
    + rewrite (proj2 (Nat.eqb_neq i i')) by assumption. change (flat_map _ es) with (given es i'). cbn [app].
      assert (slots d1 i' = slots d i') as ->.
      { unfold slots, valid_slots. rewrite Ecols.
        rewrite (filter_ext_seq (valid d1 i') (valid d i')).
        2:{ intros c _ Hc. apply Hother; auto. }
        apply map_ext_in. intros c Hc. apply filter_In in Hc. destruct Hc as [Hc _]. apply in_seq in Hc.
        apply Hother; auto; lia. }
      split; [reflexivity|]. split; [|split].
      * intros Hnot c Hc. destruct (A2 ltac:(tauto) c Hc) as [B1 B2].
        destruct (Hother i' c Hi' Hc ltac:(auto)) as [D1 [D2 _]]. split; congruence.
      * intros [->|Hin]; [congruence|]. auto.
      * intros c Hc Hv. rewrite (A4 c Hc Hv). apply Hother; auto.
Qed.

(** ** Links in terms of the distance table *)

Lemma links_table d i : wf_core d -> i < nsites d ->
  links d i = map (fun c => (nb d i c, cell Inf (distance_table d) i c))
                (filter (fun c => dfinite (cell Inf (distance_table d) i c)) (seq 0 (d_cols d))).
Proof.
  intros W Hi. unfold links, valid_slots.
  assert (forall c, c < d_cols d -> cell Inf (distance_table d) i c = nth (di d i c) (d_distvals d) Inf) as E.
  { intros c Hc. unfold distance_table. rewrite (cell_map_map _ 0 Inf _ _ _ _ _ (wf_distances _ W) Hi Hc). reflexivity. }
  rewrite (filter_ext_seq _ (fun c => dfinite (cell Inf (distance_table d) i c))).
  - apply map_ext_in. intros c Hc. apply filter_In in Hc. destruct Hc as [Hc _]. apply in_seq in Hc.
    unfold link_at. rewrite E by lia. reflexivity.
  - intros c _ Hc. rewrite E by lia. pose proof (valid_lt d i c W Hi ltac:(lia)) as V.
    destruct (nth_error_lt _ _ (wf_di _ W i c Hi ltac:(lia))) as [y Hy].
    rewrite (nth_of_nth_error _ _ Inf _ Hy). destruct (valid d i c).
    + destruct V as [V _]. destruct (V eq_refl) as [z Hz]. assert (y = Fin z) as -> by congruence. reflexivity.
    + destruct y as [z|]; auto. destruct V as [_ V]. discriminate V. eauto.
Qed.

Lemma cell_pad {A} (x v : A) n m m' t i c : rect n m t -> i < n -> c < m' -> m <= m' ->
  cell x (pad_rows m' v t) i c = if c <? m then cell x t i c else v.
Proof.
  intros R Hi Hc Hm. destruct (rect_row _ _ _ _ R Hi) as [r [Hr [Lr Nr]]].
  unfold cell, pad_rows.
  rewrite (nth_of_nth_error _ i [] (r ++ repeat v (m' - length r))) by (rewrite nth_error_map', Hr; reflexivity).
  rewrite Nr. destruct (c <? m) eqn:E.
  - apply Nat.ltb_lt in E. apply app_nth1. lia.
  - apply Nat.ltb_ge in E. rewrite app_nth2 by lia.
    rewrite (nth_indep _ x v) by (rewrite repeat_length; lia). apply nth_repeat.
Qed.

Lemma rect_pad {A} (v : A) n m m' t : rect n m t -> m <= m' -> rect n m' (pad_rows m' v t).
Proof.
  intros [H1 H2] Hm. unfold pad_rows. split; [rewrite map_length; auto|].
  intros r Hr. apply in_map_iff in Hr. destruct Hr as [r' [<- Hr']].
  rewrite app_length, repeat_length, (H2 r' Hr'). lia.
Qed.

(** The table has a free slot after joining. *)
Definition has_padding (d e : data) : Prop :=
  (exists i c, i < nsites d /\ c < d_cols d /\ valid d i c = false) \/
  (exists i c, i < nsites e /\ c < d_cols e /\ valid e i c = false) \/ d_cols d <> d_cols e.

Lemma invalid_Inf d i c : wf_core d -> i < nsites d -> c < d_cols d ->
  valid d i c = false -> cell Inf (distance_table d) i c = Inf.
Proof.
  intros W Hi Hc Hv. unfold distance_table. rewrite (cell_map_map _ 0 Inf _ _ _ _ _ (wf_distances _ W) Hi Hc).
  fold (di d i c). pose proof (valid_lt d i c W Hi Hc) as V.
  destruct (nth_error_lt _ _ (wf_di _ W i c Hi Hc)) as [y Hy]. rewrite (nth_of_nth_error _ _ Inf _ Hy).
  destruct y as [z|]; auto. destruct V as [_ V]. rewrite V in Hv; eauto. discriminate.
Qed.

Lemma finite_valid d i c : wf_core d -> i < nsites d -> c < d_cols d ->
  cell Inf (distance_table d) i c <> Inf -> valid d i c = true.
Proof.
  intros W Hi Hc Hv. destruct (valid d i c) eqn:E; auto. exfalso. apply Hv. apply invalid_Inf; auto.
Qed.

Section Append.
  Variable argsort : list dist -> list nat.
  Hypothesis Harg : is_argsort dleb argsort.
  Variables w1 w2 w3 : nat -> nat.
  Variables d e : data.
  Hypothesis Wd : wf_core d.
  Hypothesis We : wf_core e.
  Hypothesis Hdim : d_dim e = d_dim d.
  Hypothesis Hd0 : 0 < nsites d.
  Hypothesis He0 : 0 < nsites e.
  Hypothesis Hc0 : 0 < d_cols e.
  Hypothesis Hpad : has_padding d e.
  Hypothesis Hlen : length (d_distvals d) + length (d_distvals e) <= 256.

  Let n1 := nsites d.
  Let n2 := nsites e.
  Let cols := Nat.max (d_cols d) (d_cols e).
  Let nb1 := map (map (fun n => if n =? d_invalid_idx d then w1 (n1 + n2) else n)) (d_neighbors d).
  Let nb2 := map (map (fun n => if n =? n1 + n2 then n else n + n1))
               (map (map (fun n => if n =? n2 then w2 (n1 + n2) else n)) (d_neighbors e)).
  Let nbs := pad_rows cols (w1 (n1 + n2)) nb1 ++ pad_rows cols (w3 (n1 + n2)) nb2.
  Let dis := pad_rows cols Inf (distance_table d) ++ pad_rows cols Inf (distance_table e).

  Lemma append_dt_rect1 : rect n1 (d_cols d) (distance_table d).
  Proof. apply distance_table_rect. apply Wd. Qed.
  Lemma append_dt_rect2 : rect n2 (d_cols e) (distance_table e).
  Proof. apply distance_table_rect. apply We. Qed.
  Lemma append_nb1_rect : rect n1 (d_cols d) nb1.
  Proof. apply rect_map_map. apply Wd. Qed.
  Lemma append_nb2_rect : rect n2 (d_cols e) nb2.
  Proof. apply rect_map_map, rect_map_map. apply We. Qed.

  Lemma append_unfold sd :
    append_arrays w1 w2 w3 sd d (d_indices e) (d_positions e) (d_neighbors e) (distance_table e) =
    ((if sd then nb2 else map (map (fun n => if n =? n2 then w2 (n1 + n2) else n)) (d_neighbors e)),
     (d_indices d ++ d_indices e, d_positions d ++ d_positions e, nbs, dis)).
  Proof.
    unfold append_arrays. fold n1 n2.
    change (num_sites d) with n1. change (length (d_indices e)) with n2. fold nb1 nb2.
    rewrite (rect_width n2 (d_cols e) nb2 append_nb2_rect He0). reflexivity.
  Qed.

  Lemma append_dis_rect : rect (n1 + n2) cols dis.
  Proof.
    apply rect_app; eapply rect_pad; [apply append_dt_rect1|unfold cols; lia|apply append_dt_rect2|unfold cols; lia].
  Qed.
  Lemma append_nbs_rect : rect (n1 + n2) cols nbs.
  Proof.
    apply rect_app; eapply rect_pad; [apply append_nb1_rect|unfold cols; lia|apply append_nb2_rect|unfold cols; lia].
  Qed.

  Lemma append_dis_cell1 i c : i < n1 -> c < cols ->
    cell Inf dis i c = if c <? d_cols d then cell Inf (distance_table d) i c else Inf.
  Proof.
    intros Hi Hc. unfold dis. rewrite (cell_app _ _ _ _ _ n1 cols) by (eapply rect_pad; [apply append_dt_rect1|unfold cols; lia]).
    rewrite (proj2 (Nat.ltb_lt i n1) Hi). rewrite (cell_pad _ _ _ _ _ _ _ _ append_dt_rect1); auto. unfold cols; lia.
  Qed.
  Lemma append_dis_cell2 i c : i < n2 -> c < cols ->
    cell Inf dis (n1 + i) c = if c <? d_cols e then cell Inf (distance_table e) i c else Inf.
  Proof.
    intros Hi Hc. unfold dis. rewrite (cell_app _ _ _ _ _ n1 cols) by (eapply rect_pad; [apply append_dt_rect1|unfold cols; lia]).
    rewrite (proj2 (Nat.ltb_ge (n1 + i) n1)) by lia. replace (n1 + i - n1) with i by lia.
    rewrite (cell_pad _ _ _ _ _ _ _ _ append_dt_rect2); auto. unfold cols; lia.
  Qed.
  Lemma append_nbs_cell1 i c : i < n1 -> c < d_cols d -> nb d i c < n1 -> cell 0 nbs i c = nb d i c.
  Proof.
    intros Hi Hc Hn. unfold nbs. rewrite (cell_app _ _ _ _ _ n1 cols) by (eapply rect_pad; [apply append_nb1_rect|unfold cols; lia]).
    rewrite (proj2 (Nat.ltb_lt i n1) Hi). rewrite (cell_pad _ _ _ _ _ _ _ _ append_nb1_rect) by (auto; unfold cols; lia).
    rewrite (proj2 (Nat.ltb_lt c (d_cols d)) Hc). unfold nb1.
    rewrite (cell_map_map _ 0 0 _ _ _ _ _ (wf_neighbors _ Wd) Hi Hc). fold (nb d i c).
    rewrite (wf_invalid_idx _ Wd), (proj2 (Nat.eqb_neq (nb d i c) (nsites d))); auto. fold n1. lia.
  Qed.
  Lemma append_nbs_cell2 i c : i < n2 -> c < d_cols e -> nb e i c < n2 -> cell 0 nbs (n1 + i) c = n1 + nb e i c.
  Proof.
    intros Hi Hc Hn. unfold nbs. rewrite (cell_app _ _ _ _ _ n1 cols) by (eapply rect_pad; [apply append_nb1_rect|unfold cols; lia]).
    rewrite (proj2 (Nat.ltb_ge (n1 + i) n1)) by lia. replace (n1 + i - n1) with i by lia.
    rewrite (cell_pad _ _ _ _ _ _ _ _ append_nb2_rect) by (auto; unfold cols; lia).
    rewrite (proj2 (Nat.ltb_lt c (d_cols e)) Hc). unfold nb2.
    pose proof (rect_map_map _ _ (fun n => if n =? n2 then w2 (n1 + n2) else n) _ (wf_neighbors _ We)) as R.
    rewrite (cell_map_map _ 0 0 _ _ _ _ _ R Hi Hc).
    rewrite (cell_map_map _ 0 0 _ _ _ _ _ (wf_neighbors _ We) Hi Hc). fold (nb e i c).
    rewrite (proj2 (Nat.eqb_neq (nb e i c) n2)) by lia.
    rewrite (proj2 (Nat.eqb_neq (nb e i c) (n1 + n2))) by lia. lia.
  Qed.

  Lemma append_has_inf : In Inf (concat dis).
  Proof.
    apply (In_cell Inf (n1 + n2) cols _ _ append_dis_rect).
    destruct Hpad as [[i [c [Hi [Hc Hv]]]]|[[i [c [Hi [Hc Hv]]]]|Hne]].
    - exists i, c. split; [fold n1 in Hi; lia|]. split; [unfold cols; lia|].
      rewrite append_dis_cell1 by (auto; unfold cols; lia). rewrite (proj2 (Nat.ltb_lt c (d_cols d)) Hc).
      apply invalid_Inf; auto.
    - exists (n1 + i), c. split; [fold n2 in Hi; lia|]. split; [unfold cols; lia|].
      rewrite append_dis_cell2 by (auto; unfold cols; lia). rewrite (proj2 (Nat.ltb_lt c (d_cols e)) Hc).
      apply invalid_Inf; auto.
    - destruct (Nat.lt_total (d_cols d) (d_cols e)) as [Hl|[Hl|Hl]]; [|congruence|].
      + exists 0, (d_cols d). split; [fold n1 in Hd0; lia|]. split; [unfold cols; lia|].
        rewrite append_dis_cell1 by (auto; unfold cols; lia). rewrite Nat.ltb_irrefl. reflexivity.
      + exists (n1 + 0), (d_cols e). split; [fold n2 in He0; lia|]. split; [unfold cols; lia|].
        rewrite append_dis_cell2 by (auto; unfold cols; lia). rewrite Nat.ltb_irrefl. reflexivity.
  Qed.

  Lemma append_few : length (fst (create_lookup_table2 dleb deqb dis)) <= 256.
  Proof.
    destruct (create_lookup_table2 dleb deqb dis) as [values ind] eqn:E. simpl.
    destruct (C01_lookup_decodes_table dist dleb deqb dist_order dist_eq dis cols values ind Inf
                (proj2 append_dis_rect) E) as [Hinc [Hval _]].
    assert (incl values (d_distvals d ++ d_distvals e)) as Hincl.
    { intros x Hx. apply Hval in Hx. rewrite <- in_concat in Hx.
      apply (In_cell Inf (n1 + n2) cols _ _ append_dis_rect) in Hx. destruct Hx as [i [c [Hi [Hc Hx]]]].
      assert (In Inf (d_distvals d)) as HI by (eapply nth_error_In; apply (wf_invalid _ Wd)).
      apply in_or_app. destruct (Nat.lt_ge_cases i n1) as [H1|H1].
      - rewrite append_dis_cell1 in Hx by assumption. destruct (c <? d_cols d) eqn:Ec; [|subst; auto].
        apply Nat.ltb_lt in Ec. unfold distance_table in Hx.
        rewrite (cell_map_map _ 0 Inf _ _ _ _ _ (wf_distances _ Wd) H1 Ec) in Hx.
        left. subst x. apply nth_In. apply Wd; auto.
      - replace i with (n1 + (i - n1)) in Hx by lia.
        rewrite append_dis_cell2 in Hx by lia. destruct (c <? d_cols e) eqn:Ec; [|subst; auto].
        apply Nat.ltb_lt in Ec. unfold distance_table in Hx. assert (i - n1 < nsites e) as H2 by (fold n2; lia).
        rewrite (cell_map_map _ 0 Inf _ _ _ _ _ (wf_distances _ We) H2 Ec) in Hx.
        right. subst x. apply nth_In. apply We; auto. }
    assert (NoDup values) as Hnd by (apply (strict_NoDup dleb); exact Hinc).
    pose proof (NoDup_incl_length Hnd Hincl) as HL. rewrite app_length in HL. lia.
  Qed.

  Lemma append_spec : length (d_pmask d) = nsites d ->
    exists d', append_data argsort w1 w2 w3 d e = Some d' /\ wf d' /\
      d_dim d' = d_dim d /\ nsites d' = nsites d + nsites e /\
      d_indices d' = d_indices d ++ d_indices e /\ d_positions d' = d_positions d ++ d_positions e /\
      d_dmap d' = None /\
      (forall i, i < nsites d -> Permutation (links d' i) (links d i)) /\
      (forall i, i < nsites e -> Permutation (links d' (nsites d + i))
         (map (fun l => (nsites d + fst l, snd l)) (links e i))) /\
      (forall i, i < nsites d' -> StronglySorted (fun a b => dleb (snd a) (snd b) = true) (links d' i)) /\
      (forall i, i < nsites d' -> forall s, In s (slots d' i) -> s_per s = false) /\
      d_cols d' = cols /\ exists d1, wf d1 /\ nsites d1 = nsites d' /\ d' = sort_neighbors argsort d1 /\
        (forall x, In x (d_distvals d1) -> In x (concat (distance_table d1))).
  Proof.
    intro Hpm.
    unfold append_data, append. rewrite append_unfold.
    unfold call_remove_periodic. rewrite Hpm, (proj1 (wf_neighbors _ Wd)), Nat.eqb_refl.
    destruct (concat (d_neighbors e)) eqn:Ec.
    { exfalso. assert (In (nb e 0 0) (concat (d_neighbors e))) as Hin.
      { apply (In_cell 0 _ _ _ _ (wf_neighbors _ We)). exists 0, 0. auto. }
      rewrite Ec in Hin. destruct Hin. }
    clear Ec.
    assert (rect (n1 + n2) (S (d_dim d)) (d_indices d ++ d_indices e)) as Ri.
    { apply rect_app; [apply Wd|]. rewrite <- Hdim. apply We. }
    assert (rect (n1 + n2) (d_dim d) (d_positions d ++ d_positions e)) as Rp.
    { apply rect_app; [apply Wd|]. rewrite <- Hdim. apply We. }
    assert (0 < n1 + n2) as Hpos by (unfold n1; lia).
    destruct (data_set_spec _ _ _ _ _ _ _ Hpos Ri Rp append_nbs_rect append_dis_rect append_has_inf append_few)
      as (d1 & E1 & Edim & Ecols & Eind & Epos & Enb & Edt & Rd & Hinc & Hinv & Hval & Hrange & Hvalid & Epm & Env
          & Eax & Einv & Edm).
    assert (nsites d1 = n1 + n2) as En by (unfold nsites; rewrite Eind; apply Ri).
    destruct (data_set_wf _ _ _ _ _ _ _ d1 Hpos Ri Rp append_nbs_rect append_dis_rect append_has_inf append_few) as [W1 _];
      auto.
    { intros i c Hi Hc Hne. destruct (Nat.lt_ge_cases i n1) as [H1|H1].
      - rewrite append_dis_cell1 in Hne by assumption. destruct (c <? d_cols d) eqn:Ec; [|congruence].
        apply Nat.ltb_lt in Ec. pose proof (finite_valid d i c Wd H1 Ec Hne) as Hv.
        pose proof (wf_nb _ Wd i c H1 Ec Hv) as Hn. fold n1 in Hn.
        rewrite append_nbs_cell1 by assumption. lia.
      - replace i with (n1 + (i - n1)) in * by lia.
        rewrite append_dis_cell2 in Hne by lia. destruct (c <? d_cols e) eqn:Ec; [|congruence].
        apply Nat.ltb_lt in Ec. assert (i - n1 < nsites e) as H2 by (fold n2; lia).
        replace (n1 + (i - n1) - n1) with (i - n1) in Hne by lia.
        pose proof (finite_valid e (i - n1) c We H2 Ec Hne) as Hv.
        pose proof (wf_nb _ We _ c H2 Ec Hv) as Hn. fold n2 in Hn.
        rewrite append_nbs_cell2 by (auto; fold n2 in H2; lia). lia. }
    rewrite E1. simpl option_map.
    exists (sort_neighbors argsort d1). split; [reflexivity|].
    split; [apply sort_neighbors_wf; auto|].
    split; [exact Edim|].
    split; [exact En|]. split; [exact Eind|]. split; [exact Epos|]. split; [exact Edm|].
    (* links of the sorted object *)
    assert (forall i, i < nsites d1 -> Permutation (slots (sort_neighbors argsort d1) i) (slots d1 i) /\
              StronglySorted (fun a b => dleb (s_dist a) (s_dist b) = true) (slots (sort_neighbors argsort d1) i)) as HS.
    { intros i Hi. destruct (sort_neighbors_slots argsort Harg d1 i W1 Hi) as [p [HP [Hs [_ ->]]]]. split.
      - unfold slots, valid_slots. apply Permutation_map.
        clear -HP. unfold perm_of in HP.
        assert (forall l m : list nat, Permutation l m -> Permutation (filter (valid d1 i) l) (filter (valid d1 i) m)) as F.
        { induction 1; simpl; auto.
          - destruct (valid d1 i x); auto.
          - destruct (valid d1 i x), (valid d1 i y); auto. constructor.
          - etransitivity; eauto. }
        apply F. exact HP.
      - pose proof (StronglySorted_filter _ (valid d1 i) _ Hs) as Hs2.
        clear -Hs2. induction Hs2 as [|a l H IH Hf]; simpl; constructor; auto.
        rewrite Forall_forall in *. intros s Hin. apply in_map_iff in Hin. destruct Hin as [b [<- Hb]].
        apply Hf. auto. }
    assert (forall x i, links x i = map (fun s => (s_nbr s, s_dist s)) (slots x i)) as HL.
    { intros x i. unfold links, slots. rewrite map_map. reflexivity. }
    assert (forall i, i < nsites d1 -> Permutation (links (sort_neighbors argsort d1) i) (links d1 i)) as HP.
    { intros i Hi. rewrite !HL. apply Permutation_map. apply HS. auto. }
    split; [|split; [|split; [|split; [|split; [exact Ecols|exists d1; do 3 (split; auto); intros x Hx; rewrite Edt; apply Hval; auto]]]]].
    - intros i Hi. fold n1 in Hi. rewrite HP by lia.
      rewrite (links_table d1 i W1) by lia. rewrite (links_table d i Wd Hi). rewrite Edt, Ecols.
      replace cols with (d_cols d + (cols - d_cols d)) by (unfold cols; lia).
      rewrite seq_app, filter_app, map_app.
      rewrite (filter_none _ (seq (0 + d_cols d) _)).
      2:{ intros c Hc. apply in_seq in Hc. rewrite append_dis_cell1 by lia.
          rewrite (proj2 (Nat.ltb_ge c (d_cols d))) by lia. reflexivity. }
      match goal with |- context [?a ++ map ?f []] => change (a ++ map f []) with (a ++ []) end. rewrite app_nil_r.
      rewrite (filter_ext_seq _ (fun c => dfinite (cell Inf (distance_table d) i c))).
      2:{ intros c _ Hc. rewrite append_dis_cell1 by (auto; unfold cols; lia).
          rewrite (proj2 (Nat.ltb_lt c (d_cols d))) by lia. reflexivity. }
      apply eq_Permutation. apply map_ext_in. intros c Hc. apply filter_In in Hc. destruct Hc as [Hc Hf].
      apply in_seq in Hc. rewrite append_dis_cell1 by (auto; unfold cols; lia).
      rewrite (proj2 (Nat.ltb_lt c (d_cols d))) by lia. f_equal.
      unfold nb at 1. rewrite Enb. apply append_nbs_cell1; auto; [lia|].
      apply Wd; auto; [lia|]. apply finite_valid; auto; [lia|]. intro Ei. rewrite Ei in Hf. discriminate.
    - intros i Hi. fold n2 in Hi. fold n1. rewrite HP by lia.
      rewrite (links_table d1 (n1 + i) W1) by lia. rewrite (links_table e i We Hi). rewrite Edt, Ecols.
      replace cols with (d_cols e + (cols - d_cols e)) by (unfold cols; lia).
      rewrite seq_app, filter_app, map_app.
      rewrite (filter_none _ (seq (0 + d_cols e) _)).
      2:{ intros c Hc. apply in_seq in Hc. rewrite append_dis_cell2 by lia.
          rewrite (proj2 (Nat.ltb_ge c (d_cols e))) by lia. reflexivity. }
      match goal with |- context [?a ++ map ?f []] => change (a ++ map f []) with (a ++ []) end. rewrite app_nil_r.
      rewrite (filter_ext_seq _ (fun c => dfinite (cell Inf (distance_table e) i c))).
      2:{ intros c _ Hc. rewrite append_dis_cell2 by (auto; unfold cols; lia).
          rewrite (proj2 (Nat.ltb_lt c (d_cols e))) by lia. reflexivity. }
      apply eq_Permutation. rewrite map_map. apply map_ext_in. intros c Hc. apply filter_In in Hc. destruct Hc as [Hc Hf].
      apply in_seq in Hc. rewrite append_dis_cell2 by (auto; unfold cols; lia).
      rewrite (proj2 (Nat.ltb_lt c (d_cols e))) by lia. simpl. f_equal.
      unfold nb at 1. rewrite Enb. apply append_nbs_cell2; auto; [lia|].
      apply We; auto; [lia|]. apply finite_valid; auto; [lia|]. intro Ei. rewrite Ei in Hf. discriminate.
    - intros i Hi. change (nsites (sort_neighbors argsort d1)) with (nsites d1) in Hi.
      rewrite HL. destruct (HS i Hi) as [_ Hs]. clear -Hs.
      induction Hs as [|a l H IH Hf]; simpl; constructor; auto.
      rewrite Forall_forall in *. intros s Hin. apply in_map_iff in Hin. destruct Hin as [b [<- Hb]]. apply Hf. auto.
    - intros i Hi s Hin. change (nsites (sort_neighbors argsort d1)) with (nsites d1) in Hi.
      destruct (HS i Hi) as [P _]. apply (Permutation_in _ P) in Hin.
      unfold slots, valid_slots in Hin. apply in_map_iff in Hin. destruct Hin as [c [<- Hc]].
      apply filter_In in Hc. destruct Hc as [Hc _]. apply in_seq in Hc. rewrite Ecols in Hc. simpl.
      unfold pm. rewrite Epm. rewrite (cell_map_map _ 0 false _ _ _ _ _ append_nbs_rect); auto; lia.
  Qed.
End Append.
