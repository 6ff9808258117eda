(** * The data invariant is preserved by every operation *)
From Coq Require Import List ZArith QArith Bool Arith Lia Permutation Sorting.Sorted.
From Verif Require Import Np NpFacts LinAlg LinFacts UtilsModel SpecUtils UtilsProofs PropUtils NeighborCellProofs
  DataModel SpecData DataFacts DataProofs DataOps DataAppend.
Import ListNotations.
Open Scope nat_scope.

(** Overwriting slots by acceptable neighbours keeps the data well-formed. *)
Lemma wf_overwrite d d' : wf d ->
  d_dim d' = d_dim d -> d_cols d' = d_cols d -> d_indices d' = d_indices d -> d_positions d' = d_positions d ->
  d_distvals d' = d_distvals d -> d_invalid_idx d' = d_invalid_idx d -> d_invalid_distidx d' = d_invalid_distidx d ->
  rect (nsites d) (d_cols d) (d_neighbors d') -> rect (nsites d) (d_cols d) (d_distances d') ->
  rect (nsites d) (d_cols d) (d_pmask d') -> rect (nsites d) (d_cols d) (d_pnvecs d') ->
  rect (nsites d) (d_cols d) (d_paxes d') ->
  (forall i c, i < nsites d -> c < d_cols d ->
     (nb d' i c = nb d i c /\ di d' i c = di d i c /\ pm d' i c = pm d i c /\
      cell [] (d_pnvecs d') i c = cell [] (d_pnvecs d) i c /\ cell [] (d_paxes d') i c = cell [] (d_paxes d) i c) \/
     (nb d' i c < nsites d /\ di d' i c < d_invalid_distidx d /\
      length (cell [] (d_pnvecs d') i c) = d_dim d /\ length (cell [] (d_paxes d') i c) = d_dim d)) ->
  wf d'.
Proof.
  intros W E1 E2 E3 E4 E5 E6 E7 R1 R2 R3 R4 R5 H. pose proof (wf_c _ W) as C.
  pose proof (inf_last _ _ (wf_distvals _ C) (wf_invalid _ C)) as Hl.
  assert (nsites d' = nsites d) as En by (unfold nsites; congruence).
  constructor; [constructor|..]; rewrite ?En, ?E1, ?E2, ?E3, ?E4, ?E5, ?E6, ?E7; auto; try apply C.
  - intros i c Hi Hc. destruct (H i c Hi Hc) as [[_ [-> _]]|[_ [H2 _]]]; [apply C; auto|lia].
  - unfold valid. rewrite E7. intros i c Hi Hc Hv. destruct (H i c Hi Hc) as [[-> [H2 _]]|[H1 _]]; auto.
    apply C; auto. unfold valid. congruence.
  - intros i c Hi Hc. destruct (H i c Hi Hc) as [[_ [_ [_ [-> _]]]]|[_ [_ [H1 _]]]]; auto. apply W; auto.
  - intros i c Hi Hc. destruct (H i c Hi Hc) as [[_ [_ [_ [_ ->]]]]|[_ [_ [_ H1]]]]; auto. apply W; auto.
  - unfold valid. rewrite E7. intros i c Hi Hc Hp. destruct (H i c Hi Hc) as [[_ [-> [H3 _]]]|[_ [H2 _]]].
    + apply (wf_pm _ W); auto. congruence.
    + apply Nat.ltb_lt. auto.
Qed.

Lemma put_row_some {A} (x : A) n m i i0 vs t t' :
  put_row i i0 vs t = Some t' -> rect n m t -> i < n ->
  rect n m t' /\
  (i0 + length vs <= m \/ length vs <= 1) /\
  forall j c, j < n -> c < m ->
    cell x t' j c = if (j =? i) && ((i0 <=? c) && (c <? i0 + length vs)) && (i0 + length vs <=? m)
                    then nth (c - i0) vs x else cell x t j c.
Proof.
  intros H R Hi. destruct (i0 + length vs <=? m) eqn:E.
  - apply Nat.leb_le in E. destruct (put_row_spec x n m i i0 vs t R Hi E) as [t2 [E2 [R2 C2]]].
    assert (t2 = t') as -> by congruence. split; auto. split; [auto|].
    intros j c Hj Hc. rewrite andb_true_r. auto.
  - unfold put_row in H. destruct (rect_row _ _ _ _ R Hi) as [r [Hr [Lr Nr]]]. rewrite Hr in H.
    unfold put_slice in H. rewrite Lr, E in H. destruct (length vs <=? 1) eqn:E1; [|discriminate].
    apply Nat.leb_le in E1.
    injection H as <-. rewrite <- Nr, set_nth_same. split; auto. split; [auto|].
    intros j c _ _. rewrite andb_false_r. reflexivity.
Qed.

Lemma set_periodic_step_wf d i pn d' : wf d -> i < nsites d -> Forall (pn_ok d) pn ->
  set_periodic_step d (i, pn) = Some d' ->
  wf d' /\ d_dim d' = d_dim d /\ d_distvals d' = d_distvals d /\ nsites d' = nsites d /\
  d_cols d' = d_cols d /\ d_dmap d' = d_dmap d.
Proof.
  intros W Hi Hok H. pose proof (wf_c _ W) as C. unfold set_periodic_step in H.
  destruct (get_neighbors d i None (Some false) false) as [reg|]; [|discriminate].
  set (i0 := length reg) in *.
  set (distidx := map (fun p => searchsorted dltb (d_distvals d) (pn_dist p)) pn) in *.
  destruct (put_row i i0 (map pn_idx pn) (d_neighbors d)) as [t1|] eqn:P1; [|discriminate].
  destruct (put_row i i0 distidx (d_distances d)) as [t2|] eqn:P2; [|discriminate].
  unfold put_axes in H. destruct (rect_row _ _ _ _ (wf_paxes _ W) Hi) as [ar [Har [Lar Nar]]]. rewrite Har in H.
  set (axs := map2 (fun p old => assign_slice 0 (pn_axes p) old) pn (skipn i0 ar)) in *.
  destruct (put_row i i0 axs (d_paxes d)) as [t3|] eqn:P3; [|discriminate].
  destruct (put_row i i0 (map pn_nvec pn) (d_pnvecs d)) as [t4|] eqn:P4; [|discriminate].
  destruct (put_row i i0 (map (fun _ => true) pn) (d_pmask d)) as [t5|] eqn:P5; [|discriminate].
  injection H as <-.
  destruct (put_row_some 0 _ _ _ _ _ _ _ P1 (wf_neighbors _ C) Hi) as [R1 [F1 C1]].
  destruct (put_row_some 0 _ _ _ _ _ _ _ P2 (wf_distances _ C) Hi) as [R2 [F2 C2]].
  destruct (put_row_some [] _ _ _ _ _ _ _ P3 (wf_paxes _ W) Hi) as [R3 [F3 C3]].
  destruct (put_row_some [] _ _ _ _ _ _ _ P4 (wf_pnvecs _ W) Hi) as [R4 [F4 C4]].
  destruct (put_row_some false _ _ _ _ _ _ _ P5 (wf_pmask _ W) Hi) as [R5 [F5 C5]].
  rewrite map_length in F1, C1, C4, C5.
  assert (length distidx = length pn) as Ld by (unfold distidx; apply map_length). rewrite Ld in C2.
  assert (length axs = Nat.min (length pn) (d_cols d - i0)) as La.
  { unfold axs. rewrite map2_length, skipn_length, Lar. reflexivity. }
  split; [|repeat split].
  apply (wf_overwrite d); auto.
  intros j c Hj Hc. unfold nb, di, pm.
  cbn [d_neighbors d_distances d_pmask d_pnvecs d_paxes d_dim].
  rewrite C1, C2, C3, C4, C5 by assumption.
  destruct (i0 + length pn <=? d_cols d) eqn:Efit.
  - apply Nat.leb_le in Efit. rewrite La, Nat.min_l by lia.
    rewrite (proj2 (Nat.leb_le (i0 + length pn) (d_cols d)) Efit), !andb_true_r.
    destruct ((j =? i) && ((i0 <=? c) && (c <? i0 + length pn))) eqn:E; [right|left; auto].
    apply andb_true_iff in E. destruct E as [E0 E]. apply andb_true_iff in E. destruct E as [E1 E2].
    apply Nat.eqb_eq in E0. subst j. apply Nat.leb_le in E1. apply Nat.ltb_lt in E2.
    destruct (nth_error_lt pn (c - i0)) as [p Hp]; [lia|].
    assert (pn_ok d p) as [O1 [O2 [O3 [O4 O5]]]] by (rewrite Forall_forall in Hok; apply Hok; eapply nth_error_In; eauto).
    assert (forall (B : Type) (f : pneighbor -> B) x, nth (c - i0) (map f pn) x = f p) as Hn.
    { intros B f x. apply nth_of_nth_error. rewrite nth_error_map', Hp. reflexivity. }
    rewrite !Hn. unfold distidx. rewrite Hn.
    apply In_nth_error in O2. destruct O2 as [k Hk]. rewrite (searchsorted_found _ _ k (wf_distvals _ C) Hk).
    pose proof (inf_last _ _ (wf_distvals _ C) (wf_invalid _ C)) as Hl.
    pose proof (nth_error_length_lt _ _ _ Hk).
    assert (k <> d_invalid_distidx d). { intros ->. pose proof (wf_invalid _ C). congruence. }
    split; auto. split; [lia|]. split; auto.
    unfold axs. rewrite (nth_map2 _ _ _ _ (mkPN 0 Inf [] []) []) by (rewrite ?skipn_length; lia).
    rewrite assign_slice_length.
    assert (forall k (l : list (list nat)) c, nth c (skipn k l) [] = nth (k + c) l []) as Hsk.
    { clear. induction k as [|k IH]; intros l c; simpl; auto. destruct l; simpl; auto. destruct c; auto. }
    rewrite Hsk. rewrite <- Nar. apply (wf_ax _ W); auto. lia.
  - apply Nat.leb_gt in Efit. rewrite !andb_false_r. left. split; auto. split; auto. split; auto. split; auto.
    assert (length axs = 0 \/ i0 + length axs > d_cols d) as Hax.
    { destruct F1 as [F1|F1]; lia. }
    destruct Hax as [Hax|Hax].
    + rewrite Hax, Nat.add_0_r.
      assert ((i0 <=? c) && (c <? i0) = false) as ->; [|rewrite andb_false_r; reflexivity].
      apply andb_false_iff. rewrite Nat.leb_gt, Nat.ltb_ge. lia.
    + rewrite (proj2 (Nat.leb_gt (i0 + length axs) (d_cols d))) by lia. rewrite andb_false_r. reflexivity.
Qed.

Lemma set_periodic_loop_wf es : forall d d', wf d ->
  (forall i pn, In (i, pn) es -> i < nsites d /\ Forall (pn_ok d) pn) ->
  set_periodic_loop d es = Some d' -> wf d' /\ d_dmap d' = d_dmap d /\ nsites d' = nsites d.
Proof.
  induction es as [|[i pn] es IH]; intros d d' W H E; cbn [set_periodic_loop] in E.
  - injection E as <-. auto.
  - destruct (set_periodic_step d (i, pn)) as [d1|] eqn:E1; [|discriminate].
    destruct (H i pn (or_introl eq_refl)) as [Hi Hok].
    destruct (set_periodic_step_wf d i pn d1 W Hi Hok E1) as [W1 [F1 [F2 [F3 [F4 F5]]]]].
    destruct (IH d1 d' W1) as [G1 [G2 G3]]; auto.
    + intros i' pn' Hin. destruct (H i' pn' (or_intror Hin)) as [Hi' Hok']. rewrite F3. split; auto.
      eapply Forall_impl; [|exact Hok']. intros p [O1 [O2 [O3 [O4 O5]]]]. unfold pn_ok. rewrite F1, F2, F3. auto.
    + split; auto. split; congruence.
Qed.

Lemma add_neighbor_wf d i j v : wf d -> i < nsites d -> j < nsites d -> In v (d_distvals d) -> v <> Inf ->
  exists d', add_neighbor d i j v = Some d' /\ wf d' /\ d_dmap d' = d_dmap d /\ nsites d' = nsites d.
Proof.
  intros W Hi Hj Hv Hinf. pose proof (wf_c _ W) as C. unfold add_neighbor.
  destruct (rect_row _ _ _ _ (wf_distances _ C) Hi) as [dr [Hdr [Ldr Ndr]]]. rewrite Hdr.
  rewrite (add_count d i dr C Hi Hdr). set (i0 := length (valid_slots d i)).
  assert (i0 <= d_cols d) as Hi0.
  { unfold i0, valid_slots. rewrite <- (seq_length (d_cols d) 0) at 2.
    generalize (seq 0 (d_cols d)). intro l. induction l as [|x l IHl]; simpl; auto.
    destruct (valid d i x); simpl; lia. }
  apply In_nth_error in Hv. destruct Hv as [k Hk]. rewrite (searchsorted_found _ _ k (wf_distvals _ C) Hk).
  assert (exists t, put_row i i0 [j] (d_neighbors d) = Some t) as [t1 P1].
  { destruct (Nat.eq_dec i0 (d_cols d)) as [->|].
    - rewrite (put_row_full _ _ _ _ _ (wf_neighbors _ C) Hi). eauto.
    - destruct (put_row_spec 0 _ _ i i0 [j] _ (wf_neighbors _ C) Hi) as [t [-> _]]; [simpl; lia|eauto]. }
  assert (exists t, put_row i i0 [k] (d_distances d) = Some t) as [t2 P2].
  { destruct (Nat.eq_dec i0 (d_cols d)) as [->|].
    - rewrite (put_row_full _ _ _ _ _ (wf_distances _ C) Hi). eauto.
    - destruct (put_row_spec 0 _ _ i i0 [k] _ (wf_distances _ C) Hi) as [t [-> _]]; [simpl; lia|eauto]. }
  rewrite P1, P2. eexists. split; [reflexivity|].
  destruct (put_row_some 0 _ _ _ _ _ _ _ P1 (wf_neighbors _ C) Hi) as [R1 [F1 C1]].
  destruct (put_row_some 0 _ _ _ _ _ _ _ P2 (wf_distances _ C) Hi) as [R2 [F2 C2]].
  split; [|split; reflexivity].
  apply (wf_overwrite d); auto; try apply W.
  intros i' c Hi' Hc. unfold nb, di, pm. cbn [d_neighbors d_distances d_pmask d_pnvecs d_paxes d_dim].
  rewrite C1, C2 by assumption. cbn [length].
  destruct ((i' =? i) && ((i0 <=? c) && (c <? i0 + 1)) && (i0 + 1 <=? d_cols d)) eqn:E; [right|left; auto].
  rewrite !andb_true_iff in E. destruct E as [[E0 [E1 E2]] _]. apply Nat.leb_le in E1. apply Nat.ltb_lt in E2.
  replace (c - i0) with 0 by lia. cbn [nth].
  pose proof (inf_last _ _ (wf_distvals _ C) (wf_invalid _ C)) as Hl.
  pose proof (nth_error_length_lt _ _ _ Hk).
  assert (k <> d_invalid_distidx d). { intros ->. pose proof (wf_invalid _ C). congruence. }
  split; auto. split; [lia|]. split; apply W; auto.
Qed.
