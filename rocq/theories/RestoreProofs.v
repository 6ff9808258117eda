(** * Facts for C89: what [set_periodic] has written, [remove_periodic] takes away again *)
From Coq Require Import String List ZArith QArith Bool Arith Lia.
From Verif Require Import Np NpFacts LinAlg LinFacts SpecUtils UtilsModel SpecBasis BasisModel BasisProofs SpatialModel SpecSpatial SpecStructure ShapeModel StructureModel StructureFacts
  SpecNeighbors SpecLattice DataModel SpecData DataFacts DataProofs DataOps LatticeModel PropData PNeighborProofs PropMinDist.
Import ListNotations.
Open Scope nat_scope.
Open Scope list_scope.

(** ** Tables *)

(** Writing into a row either succeeds or leaves the row alone. *)
Lemma put_row_cases {A} (x : A) n m i i0 vs (t t' : list (list A)) : rect n m t -> put_row i i0 vs t = Some t' ->
  i < n /\ rect n m t' /\
  forall j c, j < n -> c < m -> cell x t' j c = if (j =? i) && ((i0 <=? c) && (c <? i0 + length vs)) && (i0 + length vs <=? m) then nth (c - i0) vs x else cell x t j c.
Proof.
  intros R H. assert (i < n) as Hi.
  { unfold put_row in H. destruct (nth_error t i) eqn:E; [|discriminate]. apply nth_error_length_lt in E. rewrite <- (proj1 R). exact E. }
  split; auto. destruct (Nat.leb_spec (i0 + length vs) m) as [Hl|Hl].
  - destruct (put_row_spec x n m i i0 vs t R Hi Hl) as [u [Hu [R' Hc]]]. rewrite H in Hu. injection Hu as <-. split; auto. intros j c Hj Hc'. rewrite andb_true_r. auto.
  - unfold put_row in H. destruct (rect_row _ _ _ _ R Hi) as [r [Hr [Lr Nr]]]. rewrite Hr in H. unfold put_slice in H.
    rewrite Lr, (proj2 (Nat.leb_gt _ _) Hl) in H. destruct (length vs <=? 1); [|discriminate]. injection H as <-.
    assert (set_nth i r t = t) as -> by (rewrite <- Nr; apply set_nth_same). split; auto. intros. rewrite andb_false_r. reflexivity.
Qed.

(** [d] differs from [d0] only by periodic neighbours in slots free in [d0]. *)
Record extends (d0 d : data) : Prop := {
  ex_dim : d_dim d = d_dim d0;
  ex_cols : d_cols d = d_cols d0;
  ex_indices : d_indices d = d_indices d0;
  ex_positions : d_positions d = d_positions d0;
  ex_distvals : d_distvals d = d_distvals d0;
  ex_inv : d_invalid_idx d = d_invalid_idx d0;
  ex_dinv : d_invalid_distidx d = d_invalid_distidx d0;
  ex_dmap : d_dmap d = d_dmap d0;
  ex_rn : rect (nsites d0) (d_cols d0) (d_neighbors d);
  ex_rd : rect (nsites d0) (d_cols d0) (d_distances d);
  ex_rm : rect (nsites d0) (d_cols d0) (d_pmask d);
  ex_rv : rect (nsites d0) (d_cols d0) (d_pnvecs d);
  ex_ra : rect (nsites d0) (d_cols d0) (d_paxes d);
  ex_vec : forall i c, i < nsites d0 -> c < d_cols d0 -> length (cell [] (d_pnvecs d) i c) = d_dim d0;
  ex_ax : forall i c, i < nsites d0 -> c < d_cols d0 -> length (cell [] (d_paxes d) i c) = d_dim d0;
  ex_regular : forall i c, i < nsites d0 -> c < d_cols d0 -> pm d i c = false -> nb d i c = nb d0 i c /\ di d i c = di d0 i c;
  ex_periodic : forall i c, i < nsites d0 -> c < d_cols d0 -> pm d i c = true -> valid d0 i c = false }.

(** Data without periodic neighbours, as [remove_periodic] leaves it. *)
Record plain (d : data) : Prop := {
  pl_wf : wf d;
  pl_packed : packed d;
  pl_padded : padded d;
  pl_pm : forall i c, i < nsites d -> c < d_cols d -> pm d i c = false;
  pl_vec : forall i c, i < nsites d -> c < d_cols d -> cell [] (d_pnvecs d) i c = repeat 0%Z (d_dim d);
  pl_ax : forall i c, i < nsites d -> c < d_cols d -> cell [] (d_paxes d) i c = repeat (d_dim d) (d_dim d) }.

Lemma plain_extends d : plain d -> extends d d.
Proof.
  intros [W P Q M V A]. constructor; auto; try apply W. intros i c Hi Hc H. rewrite M in H by auto. discriminate.
Qed.

Lemma removed_plain d : wf d -> layered d -> padded d -> call_remove_periodic d = Some (remove_periodic d) /\ plain (remove_periodic d).
Proof.
  intros W L P. split.
  { unfold call_remove_periodic. rewrite (proj1 (wf_pmask _ W)), (proj1 (wf_neighbors _ W)), Nat.eqb_refl. reflexivity. }
  destruct (remove_periodic_spec d W) as [W0 H0].
  assert (nsites (remove_periodic d) = nsites d) as En by reflexivity. assert (d_cols (remove_periodic d) = d_cols d) as Ec by reflexivity.
  constructor; auto; try (intros i c Hi Hc; apply (H0 i c Hi Hc)).
  - intros i Hi. destruct (layered_fresh d i W Hi (L i Hi)) as [F1 F2]. eexists. split; [exact F1|]. intros c Hc. apply F2. auto.
  - intros i c Hi Hc V. rewrite En, Ec in *. destruct (H0 i c Hi Hc) as [-> [_ [V0 _]]]. destruct (pm d i c); auto. apply P; auto. rewrite V0 in V. exact V.
Qed.

Lemma invalid_last d i c : wf d -> i < nsites d -> c < d_cols d -> valid d i c = false -> di d i c = d_invalid_distidx d.
Proof.
  intros W Hi Hc V. unfold valid in V. apply Nat.ltb_ge in V. pose proof (inf_last _ _ (wf_distvals _ W) (wf_invalid _ W)) as L.
  pose proof (wf_di _ W i c Hi Hc). lia.
Qed.

(** [remove_periodic] restores the data. *)
Lemma extends_removed d0 d : plain d0 -> extends d0 d -> call_remove_periodic d = Some d0.
Proof.
  intros PL E. pose proof (pl_wf _ PL) as W. unfold call_remove_periodic.
  rewrite (proj1 (ex_rm _ _ E)), (proj1 (ex_rn _ _ E)), Nat.eqb_refl. f_equal.
  assert (forall (X Y : Type) (y : Y) (l : list X), map (fun _ => y) l = repeat y (length l)) as Hrep.
  { intros X Y y l. induction l; simpl; congruence. }
  assert (forall i c, i < nsites d0 -> c < d_cols d0 -> pm d i c = true -> nb d0 i c = d_invalid_idx d0 /\ di d0 i c = d_invalid_distidx d0) as Hfree.
  { intros i c Hi Hc Hp. pose proof (ex_periodic _ _ E i c Hi Hc Hp) as V. split; [|apply invalid_last; auto].
    rewrite (wf_invalid_idx _ W). apply (pl_padded _ PL); auto. }
  assert (map2 (fun m r => assign_mask m (d_invalid_idx d) r) (d_pmask d) (d_neighbors d) = d_neighbors d0) as E1.
  { apply (rect_ext 0 (nsites d0) (d_cols d0)); [|apply W|].
    - apply (rect_map2 _ _ _ _ _ (ex_rm _ _ E) (ex_rn _ _ E)). intros. rewrite assign_mask_length. auto.
    - intros i c Hi Hc. rewrite (cell_map2 _ _ _ _ _ _ _ _ _ (ex_rm _ _ E) (ex_rn _ _ E) Hi).
      rewrite nth_assign_mask by (rewrite (rect_nth _ _ _ _ (ex_rn _ _ E) Hi); auto). fold (cell false (d_pmask d) i c). fold (pm d i c).
      destruct (pm d i c) eqn:Ep; [rewrite (ex_inv _ _ E); symmetry; apply (Hfree i c Hi Hc Ep)|]. apply (ex_regular _ _ E i c Hi Hc Ep). }
  assert (map2 (fun m r => assign_mask m (d_invalid_distidx d) r) (d_pmask d) (d_distances d) = d_distances d0) as E2.
  { apply (rect_ext 0 (nsites d0) (d_cols d0)); [|apply W|].
    - apply (rect_map2 _ _ _ _ _ (ex_rm _ _ E) (ex_rd _ _ E)). intros. rewrite assign_mask_length. auto.
    - intros i c Hi Hc. rewrite (cell_map2 _ _ _ _ _ _ _ _ _ (ex_rm _ _ E) (ex_rd _ _ E) Hi).
      rewrite nth_assign_mask by (rewrite (rect_nth _ _ _ _ (ex_rd _ _ E) Hi); auto). fold (cell false (d_pmask d) i c). fold (pm d i c).
      destruct (pm d i c) eqn:Ep; [rewrite (ex_dinv _ _ E); symmetry; apply (Hfree i c Hi Hc Ep)|]. apply (ex_regular _ _ E i c Hi Hc Ep). }
  assert (map (map (fun _ => false)) (d_pmask d) = d_pmask d0) as E3.
  { apply (rect_ext false (nsites d0) (d_cols d0)); [apply rect_map_map; apply E|apply W|]. intros i c Hi Hc.
    rewrite (cell_map_map _ false _ _ _ _ _ _ (ex_rm _ _ E) Hi Hc). symmetry. apply (pl_pm _ PL i c Hi Hc). }
  assert (map (map (map (fun _ => 0%Z))) (d_pnvecs d) = d_pnvecs d0) as E4.
  { apply (rect_ext [] (nsites d0) (d_cols d0)); [apply rect_map_map; apply E|apply W|]. intros i c Hi Hc.
    rewrite (cell_map_map _ [] _ _ _ _ _ _ (ex_rv _ _ E) Hi Hc). rewrite Hrep, (ex_vec _ _ E) by auto. symmetry. apply (pl_vec _ PL i c Hi Hc). }
  assert (map (map (map (fun _ => d_dim d))) (d_paxes d) = d_paxes d0) as E5.
  { apply (rect_ext [] (nsites d0) (d_cols d0)); [apply rect_map_map; apply E|apply W|]. intros i c Hi Hc.
    rewrite (cell_map_map _ [] _ _ _ _ _ _ (ex_ra _ _ E) Hi Hc). rewrite Hrep, (ex_ax _ _ E) by auto. rewrite (ex_dim _ _ E). symmetry. apply (pl_ax _ PL i c Hi Hc). }
  unfold remove_periodic. rewrite E1, E2, E3, E4, E5, (ex_dim _ _ E), (ex_cols _ _ E), (ex_indices _ _ E), (ex_positions _ _ E), (ex_distvals _ _ E),
    (ex_inv _ _ E), (ex_dinv _ _ E), (ex_dmap _ _ E). destruct d0; reflexivity.
Qed.

(** Every step writes into free slots only. *)
Lemma step_extends d0 d i pn d' : plain d0 -> extends d0 d -> (forall p, In p pn -> length (pn_nvec p) = d_dim d0) ->
  set_periodic_step d (i, pn) = Some d' -> extends d0 d'.
Proof.
  intros PL E Hpn H. pose proof (pl_wf _ PL) as W. unfold set_periodic_step in H.
  destruct (get_neighbors d i None (Some false) false) as [reg|] eqn:Er; [|discriminate].
  set (i0 := length reg) in *.
  destruct (put_row i i0 (map pn_idx pn) (d_neighbors d)) as [t1|] eqn:T1; [|discriminate].
  destruct (put_row i i0 _ (d_distances d)) as [t2|] eqn:T2; [|discriminate].
  destruct (put_axes i i0 pn (d_paxes d)) as [t3|] eqn:T3; [|discriminate].
  destruct (put_row i i0 (map pn_nvec pn) (d_pnvecs d)) as [t4|] eqn:T4; [|discriminate].
  destruct (put_row i i0 _ (d_pmask d)) as [t5|] eqn:T5; [|discriminate].
  injection H as <-.
  destruct (put_row_cases 0 _ _ _ _ _ _ _ (ex_rn _ _ E) T1) as [Hi [R1 C1]].
  destruct (put_row_cases 0 _ _ _ _ _ _ _ (ex_rd _ _ E) T2) as [_ [R2 C2]].
  destruct (put_row_cases [] _ _ _ _ _ _ _ (ex_rv _ _ E) T4) as [_ [R4 C4]].
  destruct (put_row_cases false _ _ _ _ _ _ _ (ex_rm _ _ E) T5) as [_ [R5 C5]].
  unfold put_axes in T3. destruct (rect_row _ _ _ _ (ex_ra _ _ E) Hi) as [ar [Har [Lar Nar]]]. rewrite Har in T3.
  destruct (put_row_cases [] _ _ _ _ _ _ _ (ex_ra _ _ E) T3) as [_ [R3 C3]].
  rewrite map_length in C1, C2, C4, C5.
  assert (nsites d = nsites d0) as En by (unfold nsites; rewrite (ex_indices _ _ E); auto).
  assert (exists m, i0 = m /\ m <= d_cols d0 /\ forall c, c < d_cols d0 -> valid d0 i c = (c <? m)) as [m [Em [Hm Hv]]].
  { destruct (pl_packed _ PL i Hi) as [m [Hm Hv]]. exists m. split; [|auto]. unfold i0.
    rewrite get_neighbors_gen in Er.
    - injection Er as <-. rewrite map_length, (ex_cols _ _ E).
      rewrite (count_prefix _ _ m Hm); [apply seq_length|]. intros c Hc. unfold selects, valid. rewrite (ex_dinv _ _ E), andb_true_r.
      rewrite <- Hv by auto. destruct (pm d i c) eqn:Ep.
      + rewrite (ex_periodic _ _ E i c Hi Hc Ep). cbn. apply andb_false_r.
      + rewrite (proj2 (ex_regular _ _ E i c Hi Hc Ep)). cbn. rewrite andb_true_r. reflexivity.
    - rewrite En, (ex_cols _ _ E). apply E.
    - rewrite En, (ex_cols _ _ E). apply E.
    - intros _. exists (nsites d0). rewrite (ex_cols _ _ E). split; auto. apply E.
    - rewrite En. exact Hi. }
  clearbody i0. subst i0.
  assert (forall j c, (j =? i) && ((m <=? c) && (c <? m + length pn)) && (m + length pn <=? d_cols d0) = true ->
            j = i /\ m <= c < m + length pn /\ m + length pn <= d_cols d0) as Hin.
  { intros j c H. rewrite !andb_true_iff, Nat.eqb_eq, Nat.leb_le, Nat.ltb_lt, Nat.leb_le in H. tauto. }
  constructor; cbn [d_dim d_cols d_indices d_positions d_neighbors d_distances d_distvals d_pmask d_pnvecs d_paxes d_invalid_idx d_invalid_distidx d_dmap];
    try apply E; auto.
  - intros j c Hj Hc. rewrite C4 by auto. destruct (_ && _ && _) eqn:Eq; [|apply E; auto]. apply Hin in Eq. destruct Eq as [_ [Hr _]].
    rewrite (nth_map_in _ _ _ (mkPN 0 Inf [] [])) by lia. apply Hpn. apply nth_In. lia.
  - intros j c Hj Hc. rewrite C3 by auto. destruct (_ && _ && _) eqn:Eq; [|apply E; auto].
    rewrite !andb_true_iff, Nat.eqb_eq, !Nat.leb_le, Nat.ltb_lt in Eq. rewrite map2_length, skipn_length in Eq.
    rewrite (nth_map2 _ _ _ _ (mkPN 0 Inf [] []) []) by (rewrite ?skipn_length; lia).
    rewrite assign_slice_length.
    assert (nth (c - m) (skipn m ar) [] = cell [] (d_paxes d) i c) as ->; [|apply E; auto].
    unfold cell. rewrite Nar. replace c with (m + (c - m)) at 2 by lia. generalize (c - m). clear. intro k. revert ar.
    induction m as [|m IH]; intros ar; cbn [skipn plus]; auto. destruct ar; [destruct k; auto|]. cbn [nth]. apply IH.
  - intros j c Hj Hc Hp. unfold pm in Hp. cbn [d_pmask] in Hp. rewrite C5 in Hp by auto. unfold nb, di. cbn [d_neighbors d_distances]. rewrite C1, C2 by auto.
    destruct (_ && _ && _) eqn:Eq; [|apply (ex_regular _ _ E j c Hj Hc Hp)]. exfalso. apply Hin in Eq. destruct Eq as [_ [Hr _]].
    rewrite (nth_map_in _ _ _ (mkPN 0 Inf [] [])) in Hp by lia. discriminate.
  - intros j c Hj Hc Hp. unfold pm in Hp. cbn [d_pmask] in Hp. rewrite C5 in Hp by auto.
    destruct (_ && _ && _) eqn:Eq; [|apply (ex_periodic _ _ E j c Hj Hc Hp)]. apply Hin in Eq. destruct Eq as [-> [Hr _]].
    rewrite Hv by auto. apply Nat.ltb_ge. lia.
Qed.

Lemma loop_extends d0 entries : forall d d', plain d0 -> extends d0 d ->
  (forall i pn p, In (i, pn) entries -> In p pn -> length (pn_nvec p) = d_dim d0) ->
  set_periodic_loop d entries = Some d' -> extends d0 d'.
Proof.
  induction entries as [|[i pn] entries IH]; intros d d' PL E Hp H; cbn [set_periodic_loop] in H; [injection H as <-; auto|].
  destruct (set_periodic_step d (i, pn)) as [d1|] eqn:E1; [|discriminate]. apply (IH d1); auto.
  - eapply step_extends; eauto. intros p Hin. eapply Hp; [left; reflexivity|auto].
  - intros. eapply Hp; [right|]; eauto.
Qed.

Lemma written_extends d0 entries : forall d, plain d0 -> extends d0 d ->
  (forall i pn p, In (i, pn) entries -> In p pn -> length (pn_nvec p) = d_dim d0) -> extends d0 (written d entries).
Proof.
  induction entries as [|[i pn] entries IH]; intros d PL E Hp; cbn [written]; auto.
  destruct (set_periodic_step d (i, pn)) as [d1|] eqn:E1; auto. apply IH; auto.
  - eapply step_extends; eauto. intros p Hin. eapply Hp; [left; reflexivity|auto].
  - intros. eapply Hp; [right|]; eauto.
Qed.

(** ** The periodic neighbours found have a translation of the right length *)

Lemma all_some_in {A} (l : list (option A)) r : all_some l = Some r -> forall x, In x r -> In (Some x) l.
Proof.
  revert r. induction l as [|[a|] l IH]; intros r H x Hx; cbn in H; [injection H as <-; destruct Hx| |discriminate].
  destruct (all_some l) as [r'|]; [|discriminate]. injection H as <-. destruct Hx as [<-|Hx]; [left; auto|right; eauto].
Qed.

Lemma translation_length b axes prim indices v : valid_basis b -> translation_vector b axes prim indices = Some v -> length v = b_dim b.
Proof.
  intros Hb H. unfold translation_vector in H. destruct (negb _); [discriminate|]. destruct indices as [|i0 ind]; [discriminate|]. destruct prim.
  - injection H as <-. assert (length (repeat 0%Z (b_dim b)) = b_dim b) as L by apply repeat_length.
    revert L. generalize (repeat 0%Z (b_dim b)). generalize (index_limits (i0 :: ind)). clear. intro lim.
    induction axes as [|a axes IH]; intros v L; cbn [fold_left]; auto. apply IH. rewrite set_nth_length. auto.
  - injection H as <-. rewrite map_length. apply itransform_length. auto.
Qed.

Lemma items_length b prim indices axes items : valid_basis b -> periodic_translation_vectors b prim indices axes = Some items ->
  forall it, In it items -> length (snd it) = b_dim b.
Proof.
  intros Hb H it Hit. unfold periodic_translation_vectors in H.
  assert (forall ax v, translation_vector b ax prim indices = Some v -> length v = b_dim b) as Hl by (intros; eapply translation_length; eauto).
  assert (forall v, length (flip_tail v) = length v) as Hf by (intros [|x v]; cbn; rewrite ?map_length; auto).
  destruct axes as [|a [|a' axes]].
  - injection H as <-. destruct Hit.
  - destruct (translation_vector b [a] prim indices) eqn:E; [|discriminate]. injection H as <-. destruct Hit as [<-|[]]. cbn. eauto.
  - destruct (all_some _) as [ls|] eqn:E; [|discriminate]. injection H as <-. apply in_concat in Hit. destruct Hit as [l [Hl1 Hl2]].
    pose proof (all_some_in _ _ E l Hl1) as Hin. apply in_map_iff in Hin. destruct Hin as [[p q] [Epq _]]. cbn [fst snd] in Epq.
    destruct (translation_vector b [p; q] prim indices) as [v|] eqn:Ev; [|discriminate]. injection Epq as <-. apply Hl in Ev.
    destruct (_ && _); [destruct Hl2 as [<-|[]]; auto|destruct Hl2 as [<-|[<-|[]]]; cbn [snd]; rewrite ?Hf; auto].
Qed.

Definition all_entries (P : pneighbor -> Prop) (pd : pdict) : Prop := forall k es e, In (k, es) pd -> In e es -> P e.

Lemma extend_all P pd k es : all_entries P pd -> (forall e, In e es -> P e) -> all_entries P (pd_extend pd k es).
Proof.
  intros H He. induction pd as [|[k' v] pd IH]; cbn [pd_extend].
  - intros j l e [E|[]] Hin. injection E as <- <-. auto.
  - destruct (k =? k').
    + intros j l e [E|Hl] Hin; [|eapply H; [right; eauto|auto]]. injection E as <- <-. apply in_app_iff in Hin. destruct Hin; auto. eapply H; [left; reflexivity|auto].
    + intros j l e [E|Hl] Hin; [eapply H; [left; exact E|auto]|]. revert j l e Hl Hin. apply IH. intros j l e Hl Hin. eapply H; [right; eauto|auto].
Qed.

Lemma collect_all query argsort b an indices positions items P :
  (forall ax n j x, In (ax, n) items -> P (mkPN j x n ax) /\ P (mkPN j x (neg n) ax)) ->
  forall pd pd', all_entries P pd -> collect_translations query argsort b an indices positions items pd = Some pd' -> all_entries P pd'.
Proof.
  induction items as [|[ax n] items IH]; intros HP pd pd' H E; cbn [collect_translations] in E; [injection E as <-; auto|].
  destruct (translated_rows _ _ _ _ _ _ _) as [rows|]; [|discriminate]. apply IH in E; auto; [intros; apply HP; right; auto|].
  assert (forall j x, P (mkPN j x n ax) /\ P (mkPN j x (neg n) ax)) as HP0 by (intros; apply HP; left; auto).
  revert H. generalize (filter (fun sr => existsb (fun e => dfinite (snd e)) (snd sr)) (enumerate rows)). clear - HP0. intro found. revert pd.
  induction found as [|[s row] found IH]; intros pd H; cbn [fold_left]; auto. apply IH. unfold add_translated.
  set (fs := filter _ row). clearbody fs.
  assert (all_entries P (pd_extend pd s (map (fun e => mkPN (fst e) (snd e) n ax) fs))) as H1.
  { apply extend_all; auto. intros e He. apply in_map_iff in He. destruct He as [x [<- _]]. apply HP0. }
  revert H1. generalize (pd_extend pd s (map (fun e => mkPN (fst e) (snd e) n ax) fs)). clear - HP0.
  induction fs as [|e fs IH]; intros d H; cbn [fold_left]; auto. apply IH. apply extend_all; auto. intros e' [<-|[]]. apply HP0.
Qed.

Lemma first_index_lt j l : In j l -> first_index j l < length l.
Proof.
  induction l as [|x l IH]; [intros []|]. intros H. cbn. destruct (Nat.eqb_spec j x); [lia|]. destruct H as [->|H]; [congruence|]. specialize (IH H). lia.
Qed.

Lemma finish_all d (P : pneighbor -> Prop) : (forall e j, P e -> P (mkPN j (pn_dist e) (pn_nvec e) (pn_axes e))) ->
  forall pd pd', all_entries P pd -> finish d pd = Some pd' -> all_entries P pd'.
Proof.
  intros HP. induction pd as [|[k es] pd IH]; intros pd' H E; cbn [finish] in E; [injection E as <-; auto|].
  destruct (DataModel.get_neighbors d k None None false) as [ex|]; [|discriminate]. destruct (finish d pd) as [rest|]; [|discriminate].
  assert (all_entries P rest) as Hrest by (apply IH; auto; intros j l e Hl He; eapply H; [right; eauto|auto]).
  assert (forall e, In e (finish_site ex es) -> P e) as Hs.
  { intros e He. unfold finish_site in He. set (pi := filter _ _) in He. cbv zeta in He. apply in_map_iff in He. destruct He as [j [<- Hj]].
    apply HP. apply (H k es); [left; auto|]. apply nth_In. apply In_unique in Hj; [|intros; rewrite ?Nat.leb_le in *; lia..].
    apply first_index_lt in Hj. eapply Nat.lt_le_trans; [exact Hj|]. unfold pi. rewrite <- (map_length pn_idx es). clear. induction (map pn_idx es) as [|x l IH]; cbn [filter length]; auto. destruct (negb _); cbn [length]; lia. }
  destruct (finish_site ex es) as [|e0 l0]; injection E as <-; auto.
  intros j l e [E|Hl] Hin; [injection E as <- <-; auto|eapply Hrest; eauto].
Qed.

Lemma pneighbors_length query argsort b an prim axes d pd : valid_basis b ->
  compute_pneighbors query argsort b an prim axes d = Some pd -> forall i pn p, In (i, pn) pd -> In p pn -> length (pn_nvec p) = b_dim b.
Proof.
  intros Hb H. unfold compute_pneighbors in H. destruct (periodic_translation_vectors b prim (d_indices d) axes) as [items|] eqn:Ei; [|discriminate].
  destruct (collect_translations _ _ _ _ _ _ _ _) as [raw|] eqn:Er; [|discriminate].
  refine (finish_all d (fun p => length (pn_nvec p) = b_dim b) _ raw pd _ H); [auto|].
  refine (collect_all _ _ _ _ _ _ items (fun p => length (pn_nvec p) = b_dim b) _ [] raw _ Er); [|intros k es e []].
  intros ax n j x Hin. pose proof (items_length _ _ _ _ _ Hb Ei _ Hin) as L. cbn in *. split; auto. unfold neg. rewrite map_length. auto.
Qed.
