(** * Adding links: the rows after a sequence of [add_neighbors] *)
From Coq Require Import String List ZArith QArith Bool Arith Lia Permutation.
From Verif Require Import Np NpFacts LinAlg LinFacts DataModel SpecUtils SpecData DataFacts DataOps DataProofs DataAppend DataInv PropData.
Import ListNotations.
Open Scope nat_scope.
Open Scope list_scope.

(** The least of the values [vals] that is not below [x]. *)
Definition next_value (vals : list dist) (x v : dist) : Prop :=
  In v vals /\ dleb x v = true /\ forall u, In u vals -> dleb x u = true -> dleb v u = true.

Lemma next_value_unique vals x u v : next_value vals x u -> next_value vals x v -> u = v.
Proof. intros [A1 [A2 A3]] [B1 [B2 B3]]. apply dleb_antisym; auto. Qed.

Lemma next_value_self vals x : In x vals -> next_value vals x x.
Proof. intro H. split; auto. split; [apply dleb_refl|auto]. Qed.

Lemma searchsorted_next l x : increasing dleb l -> In Inf l ->
  exists v, nth_error l (searchsorted dltb l x) = Some v /\ next_value l x v.
Proof.
  intro H. induction H as [|a l H IH Hf]; [intros []|]. intro HI. cbn [searchsorted]. destruct (dltb a x) eqn:E.
  - apply dltb_spec in E. destruct E as [E1 E2]. assert (In Inf l) as HI'.
    { destruct HI as [->|HI]; auto. destruct x; cbn in E1; [discriminate|]. congruence. }
    destruct (IH HI') as [v [V1 [V2 [V3 V4]]]]. exists v. split; auto. split; [right; auto|]. split; auto.
    intros u [->|Hu] Hx; auto. exfalso. apply E2. apply dleb_antisym; auto.
  - assert (dleb x a = true) as E1.
    { destruct (dleb_total x a) as [|E2]; auto. destruct (dleb x a) eqn:E3; auto. unfold dltb in E. rewrite E2, E3 in E. discriminate. }
    exists a. split; auto. split; [left; auto|]. split; auto. intros u [->|Hu] _; [apply dleb_refl|].
    rewrite Forall_forall in Hf. apply Hf; auto.
Qed.

Lemma add_cells d i j x m : wf_core d -> i < nsites d -> m < d_cols d -> (forall c, c < d_cols d -> valid d i c = (c <? m)) ->
  exists d', add_neighbor d i j x = Some d' /\
    d_dim d' = d_dim d /\ d_cols d' = d_cols d /\ d_indices d' = d_indices d /\ d_positions d' = d_positions d /\
    d_distvals d' = d_distvals d /\ d_invalid_idx d' = d_invalid_idx d /\ d_invalid_distidx d' = d_invalid_distidx d /\
    d_pmask d' = d_pmask d /\ d_pnvecs d' = d_pnvecs d /\ d_paxes d' = d_paxes d /\ d_dmap d' = d_dmap d /\
    rect (nsites d) (d_cols d) (d_neighbors d') /\ rect (nsites d) (d_cols d) (d_distances d') /\
    (forall i' c, i' < nsites d -> c < d_cols d ->
       nb d' i' c = (if (i' =? i) && (c =? m) then j else nb d i' c) /\
       di d' i' c = (if (i' =? i) && (c =? m) then searchsorted dltb (d_distvals d) x else di d i' c)).
Proof.
  intros W Hi Hm Hpk. unfold add_neighbor.
  destruct (rect_row _ _ _ _ (wf_distances _ W) Hi) as [dr [Hdr [Ldr Ndr]]]. rewrite Hdr.
  rewrite (add_count d i dr W Hi Hdr).
  assert (length (valid_slots d i) = m) as ->.
  { unfold valid_slots. rewrite (count_prefix _ _ m) by (auto; lia). apply seq_length. }
  set (k := searchsorted dltb (d_distvals d) x).
  destruct (put_row_spec 0 _ _ i m [j] _ (wf_neighbors _ W) Hi) as [t1 [-> [R1 C1]]]; [simpl; lia|].
  destruct (put_row_spec 0 _ _ i m [k] _ (wf_distances _ W) Hi) as [t2 [-> [R2 C2]]]; [simpl; lia|].
  eexists. split; [reflexivity|]. cbn [d_dim d_cols d_indices d_positions d_distvals d_invalid_idx
    d_invalid_distidx d_pmask d_pnvecs d_paxes d_dmap d_neighbors d_distances].
  repeat (split; [reflexivity|]). split; auto. split; auto.
  intros i' c Hi' Hc. unfold nb, di. cbn [d_neighbors d_distances].
  rewrite C1, C2 by assumption. cbn [length].
  replace ((m <=? c) && (c <? m + 1)) with (c =? m).
  2:{ destruct (c =? m) eqn:E.
      - apply Nat.eqb_eq in E. subst. symmetry. apply andb_true_iff. rewrite Nat.leb_le, Nat.ltb_lt. lia.
      - apply Nat.eqb_neq in E. symmetry. apply andb_false_iff. rewrite Nat.leb_gt, Nat.ltb_ge. lia. }
  destruct (i' =? i); simpl; auto. destruct (c =? m) eqn:E; auto.
  apply Nat.eqb_eq in E. subst. rewrite Nat.sub_diag. auto.
Qed.

(** The link that is recorded: none if no known distance is large enough. *)
Definition recorded (j : nat) (v : dist) : list (nat * dist) := match v with Inf => [] | Fin _ => [(j, v)] end.

Lemma Inf_known d : wf_core d -> In Inf (d_distvals d).
Proof. intro W. eapply nth_error_In. apply (wf_invalid _ W). Qed.

(** One link, whether its distance is known or not. *)
Lemma add_link d i j x : wf d -> packed d -> i < nsites d -> j < nsites d -> length (links d i) < d_cols d ->
  exists d' v, add_neighbor d i j x = Some d' /\ next_value (d_distvals d) x v /\ wf d' /\ packed d' /\
    d_dim d' = d_dim d /\ d_cols d' = d_cols d /\ d_indices d' = d_indices d /\ d_positions d' = d_positions d /\ d_distvals d' = d_distvals d /\
    d_pmask d' = d_pmask d /\ d_dmap d' = d_dmap d /\
    forall i', i' < nsites d -> links d' i' = links d i' ++ (if i' =? i then recorded j v else []).
Proof.
  intros W P Hi Hj Hr. pose proof (wf_c _ W) as C. destruct (P i Hi) as [m [Hm Hpk]].
  assert (length (links d i) = m) as Em.
  { unfold links, valid_slots. rewrite map_length, (count_prefix _ _ m), seq_length by auto. reflexivity. }
  rewrite Em in Hr.
  destruct (add_cells d i j x m C Hi Hr Hpk) as
    (d' & E & Edim & Ecols & Eind & Epos & Edv & Eii & Einv & Epm & Env & Eax & Edm & Rn & Rd & H).
  destruct (searchsorted_next (d_distvals d) x (wf_distvals _ C) (Inf_known d C)) as [v [Hk Hv]].
  set (k := searchsorted dltb (d_distvals d) x) in *.
  pose proof (inf_last _ _ (wf_distvals _ C) (wf_invalid _ C)) as Hl.
  pose proof (nth_error_length_lt _ _ _ Hk) as Hkl.
  assert (nsites d' = nsites d) as En by (unfold nsites; congruence).
  exists d', v. split; auto. split; auto.
  assert (forall i' c, i' < nsites d -> c < d_cols d ->
    valid d' i' c = if (i' =? i) && (c =? m) then k <? d_invalid_distidx d else valid d i' c) as HV.
  { intros i' c Hi' Hc. unfold valid. rewrite Einv. destruct (H i' c Hi' Hc) as [_ ->]. destruct (_ && _); auto. }
  assert (v = Inf <-> k = d_invalid_distidx d) as HI.
  { split.
    - intros ->. pose proof (wf_invalid _ C). eapply increasing_inj; eauto. apply C.
    - intros Ek. pose proof (wf_invalid _ C). rewrite Ek in Hk. congruence. }
  split; [|split].
  - constructor; [constructor|..]; rewrite ?En, ?Edim, ?Ecols, ?Eind, ?Epos, ?Edv, ?Eii, ?Einv, ?Epm, ?Env, ?Eax; try apply W; auto.
    + intros i' c Hi' Hc. destruct (H i' c Hi' Hc) as [_ ->]. destruct (_ && _); auto. apply C; auto.
    + intros i' c Hi' Hc. rewrite HV by auto. destruct (H i' c Hi' Hc) as [-> _]. destruct (_ && _); auto. apply C; auto.
    + intros i' c Hi' Hc Hp. rewrite HV by auto. destruct ((i' =? i) && (c =? m)) eqn:B; [|apply W; auto; unfold pm in *; rewrite Epm in Hp; auto].
      apply andb_true_iff in B. destruct B as [B1 B2]. apply Nat.eqb_eq in B1. apply Nat.eqb_eq in B2. subst i' c.
      assert (valid d i m = true) as V. { apply W; auto. unfold pm in *. rewrite Epm in Hp. auto. }
      rewrite Hpk in V by auto. apply Nat.ltb_lt in V. lia.
  - intros i' Hi'. rewrite En in Hi'. unfold packed_row. rewrite Ecols. destruct (Nat.eq_dec i' i) as [->|Hne].
    + exists (if k <? d_invalid_distidx d then S m else m). split; [destruct (_ <? _); lia|]. intros c Hc. rewrite HV, Nat.eqb_refl by auto. cbn [andb].
      destruct (Nat.eqb_spec c m) as [->|Hcm].
      * destruct (k <? d_invalid_distidx d); symmetry; [apply Nat.ltb_lt|apply Nat.ltb_ge]; lia.
      * rewrite Hpk by auto. destruct (k <? d_invalid_distidx d); auto. destruct (Nat.ltb_spec c m), (Nat.ltb_spec c (S m)); auto; lia.
    + destruct (P i' Hi') as [m' [Hm' Hpk']]. exists m'. split; auto. intros c Hc. rewrite HV, (proj2 (Nat.eqb_neq i' i) Hne) by auto. cbn [andb]. auto.
  - do 7 (split; [auto|]). intros i' Hi'. unfold links, valid_slots. rewrite Ecols. destruct (Nat.eq_dec i' i) as [->|Hne].
    + rewrite Nat.eqb_refl. rewrite (count_prefix (valid d i) (d_cols d) m) by auto.
      assert (map (link_at d' i) (seq 0 m) = map (link_at d i) (seq 0 m)) as EL.
      { apply map_ext_in_seq. intros c _ Hc. unfold link_at. rewrite Edv. destruct (H i c Hi ltac:(lia)) as [-> ->].
        rewrite (proj2 (Nat.eqb_neq c m)) by lia. rewrite andb_false_r. reflexivity. }
      destruct v as [z|].
      * assert (k <? d_invalid_distidx d = true) as Hkv.
        { apply Nat.ltb_lt. destruct (Nat.eq_dec k (d_invalid_distidx d)) as [Ek|]; [|lia]. apply HI in Ek. discriminate. }
        rewrite (count_prefix (valid d' i) (d_cols d) (S m)); [|lia|].
        2: { intros c Hc. rewrite HV, Nat.eqb_refl, Hkv by auto. cbn [andb]. destruct (Nat.eqb_spec c m) as [->|Hcm]; [symmetry; apply Nat.ltb_lt; lia|].
             rewrite Hpk by auto. destruct (Nat.ltb_spec c m), (Nat.ltb_spec c (S m)); auto; lia. }
        rewrite seq_S, map_app, EL. f_equal. cbn [map Nat.add recorded]. unfold link_at. rewrite Edv. destruct (H i m Hi Hr) as [-> ->]. rewrite !Nat.eqb_refl. cbn [andb].
        rewrite (nth_of_nth_error _ _ Inf _ Hk). reflexivity.
      * assert (k <? d_invalid_distidx d = false) as Hkv. { apply Nat.ltb_ge. rewrite (proj1 HI eq_refl). lia. }
        rewrite (count_prefix (valid d' i) (d_cols d) m); [|lia|].
        2: { intros c Hc. rewrite HV, Nat.eqb_refl, Hkv by auto. cbn [andb]. destruct (Nat.eqb_spec c m) as [->|Hcm]; [symmetry; apply Nat.ltb_ge; lia|]. auto. }
        rewrite EL, app_nil_r. reflexivity.
    + rewrite (proj2 (Nat.eqb_neq i' i) Hne), app_nil_r.
      rewrite (filter_ext_seq (valid d' i') (valid d i')).
      2:{ intros c _ Hc. rewrite HV, (proj2 (Nat.eqb_neq i' i) Hne) by (auto; lia). reflexivity. }
      apply map_ext_in. intros c Hc. apply filter_In in Hc. destruct Hc as [Hc _]. apply in_seq in Hc.
      unfold link_at. rewrite Edv. destruct (H i' c Hi' ltac:(lia)) as [-> ->]. rewrite (proj2 (Nat.eqb_neq i' i) Hne). reflexivity.
Qed.

(** A sequence of links [(site, neighbour, distance)]. *)
Fixpoint add_all (d : data) (ls : list (nat * nat * dist)) : option data :=
  match ls with
  | [] => Some d
  | (i, j, x) :: ls' => match add_neighbor d i j x with Some d1 => add_all d1 ls' | None => None end
  end.

Definition at_site (i : nat) (t : nat * nat * dist) : bool := fst (fst t) =? i.

(** The link that is recorded for a requested one, given the known distances. *)
Definition records (vals : list dist) (t : nat * nat * dist) (ls : list (nat * dist)) : Prop :=
  exists v, next_value vals (snd t) v /\ ls = recorded (snd (fst t)) v.

Lemma records_length vals t ls : records vals t ls -> length ls <= 1.
Proof. intros [v [_ ->]]. destruct v; cbn; lia. Qed.

Lemma add_all_spec ls : forall d, wf d -> packed d ->
  (forall t, In t ls -> fst (fst t) < nsites d /\ snd (fst t) < nsites d) ->
  (forall i, i < nsites d -> length (links d i) + length (filter (at_site i) ls) <= d_cols d) ->
  exists d', add_all d ls = Some d' /\ wf d' /\ packed d' /\
    d_dim d' = d_dim d /\ d_cols d' = d_cols d /\ d_indices d' = d_indices d /\ d_positions d' = d_positions d /\ d_distvals d' = d_distvals d /\
    d_pmask d' = d_pmask d /\ d_dmap d' = d_dmap d /\
    forall i, i < nsites d -> exists rs, Forall2 (records (d_distvals d)) (filter (at_site i) ls) rs /\ links d' i = links d i ++ concat rs.
Proof.
  induction ls as [|[[i j] x] ls IH]; intros d W P Hin Hroom.
  - exists d. cbn. repeat (split; [auto|]). intros i Hi. exists []. split; [constructor|]. rewrite app_nil_r. auto.
  - destruct (Hin (i, j, x) (or_introl eq_refl)) as [Hi Hj]. cbn in Hi, Hj.
    assert (length (links d i) < d_cols d) as Hr.
    { specialize (Hroom i Hi). cbn [filter at_site fst] in Hroom. unfold at_site in Hroom at 1. cbn in Hroom. rewrite Nat.eqb_refl in Hroom. cbn in Hroom. lia. }
    destruct (add_link d i j x W P Hi Hj Hr) as (d1 & v & E1 & V & W1 & P1 & A1 & A2 & A3 & A4 & A5 & A6 & A7 & HL).
    assert (nsites d1 = nsites d) as En by (unfold nsites; congruence).
    destruct (IH d1 W1 P1) as (d' & E' & W' & P' & B1 & B2 & B3 & B4 & B5 & B6 & B7 & HL').
    + intros t Ht. rewrite En. apply Hin. right. auto.
    + intros i' Hi'. rewrite En in Hi'. rewrite HL, A2, app_length by auto. specialize (Hroom i' Hi'). cbn [filter] in Hroom. unfold at_site in Hroom at 1. cbn [fst] in Hroom.
      rewrite (Nat.eqb_sym i i') in Hroom. destruct (i' =? i); cbn [length] in *; [|lia]. assert (length (recorded j v) <= 1) by (destruct v; cbn; lia). lia.
    + exists d'. cbn [add_all]. rewrite E1. split; auto. split; auto. split; auto. do 7 (split; [congruence|]).
      intros i' Hi'. destruct (HL' i') as [rs [R1 R2]]; [rewrite En; auto|]. rewrite A5 in R1. rewrite R2, HL by auto.
      cbn [filter]. unfold at_site at 1. cbn [fst]. rewrite (Nat.eqb_sym i i'). destruct (i' =? i).
      * exists (recorded j v :: rs). split; [constructor; auto; exists v; auto|]. cbn [concat]. rewrite app_assoc. reflexivity.
      * exists rs. split; auto. rewrite app_nil_r. reflexivity.
Qed.
