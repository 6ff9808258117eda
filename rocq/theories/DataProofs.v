(** * Proofs about the lattice data: queries, set, remove, sort *)
From Coq Require Import List ZArith QArith Bool Arith Lia Permutation Sorting.Sorted.
From Verif Require Import Np NpFacts LinAlg LinFacts UtilsModel SpecUtils UtilsProofs PropUtils NeighborCellProofs
  DataModel SpecData DataFacts.
Import ListNotations.
Open Scope nat_scope.

(** ** Queries *)

(** The condition of [neighbor_mask] on one slot. *)
Definition selects (d : data) (i : nat) (k : option nat) (p : option bool) (u : bool) (c : nat) : bool :=
  match k with None => valid d i c | Some k => di d i c =? k end
  && (if u then i <? nb d i c else true)
  && match p with None => true | Some b => Bool.eqb (pm d i c) b end.

Lemma get_neighbors_gen d i k p u :
  rect (nsites d) (d_cols d) (d_neighbors d) -> rect (nsites d) (d_cols d) (d_distances d) ->
  (p <> None -> exists n', i < n' /\ rect n' (d_cols d) (d_pmask d)) -> i < nsites d ->
  get_neighbors d i k p u = Some (map (nb d i) (filter (selects d i k p u) (seq 0 (d_cols d)))).
Proof.
  intros Hn Hd Hp Hi. unfold get_neighbors, neighbor_mask.
  destruct (rect_row _ _ _ _ Hn Hi) as [nr [Hnr [Hnl Hnn]]].
  destruct (rect_row _ _ _ _ Hd Hi) as [dr [Hdr [Hdl Hdn]]].
  rewrite Hnr, Hdr.
  assert (forall c, nth c nr 0 = nb d i c) as En by (intro; unfold nb, cell; rewrite Hnn; auto).
  assert (forall c, nth c dr 0 = di d i c) as Ed by (intro; unfold di, cell; rewrite Hdn; auto).
  set (m0 := match k with None => map (fun k => k <? d_invalid_distidx d) dr
                        | Some k => map (fun k' => k' =? k) dr end).
  assert (length m0 = d_cols d) as L0 by (unfold m0; destruct k; rewrite map_length; auto).
  assert (forall c, c < d_cols d -> nth c m0 false =
            match k with None => valid d i c | Some k => di d i c =? k end) as E0.
  { intros c Hc. unfold m0, valid. destruct k; rewrite (nth_map_lt _ _ _ 0) by lia; rewrite Ed; reflexivity. }
  set (m1 := if u then map2 andb m0 (map (fun j => i <? j) nr) else m0).
  assert (length m1 = d_cols d) as L1.
  { unfold m1. destruct u; auto. rewrite map2_length, map_length. lia. }
  assert (forall c, c < d_cols d -> nth c m1 false =
            match k with None => valid d i c | Some k => di d i c =? k end
            && (if u then i <? nb d i c else true)) as E1.
  { intros c Hc. unfold m1. destruct u.
    - rewrite (nth_map2 _ _ _ _ false false) by (rewrite ?map_length; lia). rewrite E0 by assumption.
      rewrite (nth_map_lt _ _ _ 0) by lia. rewrite En. reflexivity.
    - rewrite E0, andb_true_r by assumption. reflexivity. }
  set (m2 := match p with None => Some m1 | Some _ => _ end).
  assert (exists m, m2 = Some m /\ length m = d_cols d /\
            forall c, c < d_cols d -> nth c m false = selects d i k p u c) as [m [-> [Lm Em]]].
  { unfold m2, selects. destruct p as [b|].
    - destruct (Hp ltac:(discriminate)) as [n' [Hi' Rp]]. destruct (rect_row _ _ _ _ Rp Hi') as [pr [Hpr [Hpl Hpn]]]. rewrite Hpr.
      eexists. split; [reflexivity|].
      assert (length (if b then pr else map negb pr) = d_cols d) as Lb
        by (destruct b; rewrite ?map_length; auto).
      split; [rewrite map2_length; lia|]. intros c Hc.
      rewrite (nth_map2 _ _ _ _ false false) by lia. rewrite E1 by assumption. f_equal.
      assert (nth c pr false = pm d i c) as Ep by (unfold pm, cell; rewrite Hpn; auto).
      destruct b; [rewrite Ep|rewrite (nth_map_lt _ _ _ false) by lia; rewrite Ep];
        destruct (pm d i c); reflexivity.
    - exists m1. split; auto. split; auto. intros c Hc. rewrite E1, andb_true_r by assumption. reflexivity. }
  rewrite (select_seq 0 m nr) by lia. rewrite Hnl. f_equal.
  rewrite (filter_ext_seq (fun c => nth c m false) (selects d i k p u)).
  - apply map_ext. intro c. apply En.
  - intros c _ Hc. apply Em. lia.
Qed.

Lemma get_neighbors_core d i k u : wf_core d -> i < nsites d ->
  get_neighbors d i k None u = Some (map (nb d i) (filter (selects d i k None u) (seq 0 (d_cols d)))).
Proof.
  intros W Hi. apply get_neighbors_gen; auto; try apply W. congruence.
Qed.

Lemma get_neighbors_wf d i k p u : wf d -> i < nsites d ->
  get_neighbors d i k p u = Some (map (nb d i) (filter (selects d i k p u) (seq 0 (d_cols d)))).
Proof.
  intros W Hi. pose proof (wf_c _ W) as C. apply get_neighbors_gen; auto; try apply C. intros _. exists (nsites d). split; auto. apply W.
Qed.

Lemma valid_lt d i c : wf_core d -> i < nsites d -> c < d_cols d ->
  (valid d i c = true <-> exists z, nth_error (d_distvals d) (di d i c) = Some (Fin z)).
Proof.
  intros W Hi Hc. pose proof (inf_last _ _ (wf_distvals _ W) (wf_invalid _ W)) as Hlen.
  pose proof (wf_di _ W i c Hi Hc) as Hd. unfold valid. rewrite Nat.ltb_lt. split.
  - intro H. destruct (nth_error_lt (d_distvals d) (di d i c) Hd) as [y Hy]. rewrite Hy.
    destruct y as [z|]; [eauto|].
    pose proof (increasing_inj _ _ (wf_distvals _ W) _ _ _ Hy (wf_invalid _ W)). lia.
  - intros [z Hz]. destruct (Nat.eq_dec (di d i c) (d_invalid_distidx d)) as [E|E]; [|lia].
    rewrite E, (wf_invalid _ W) in Hz. discriminate.
Qed.

(** Distance index and distance value of a valid slot determine each other. *)
Lemma di_value d i c k : wf_core d -> i < nsites d -> c < d_cols d -> k < length (d_distvals d) ->
  (deqb (nth (di d i c) (d_distvals d) Inf) (nth k (d_distvals d) Inf) = (di d i c =? k)).
Proof.
  intros W Hi Hc Hk. pose proof (wf_di _ W i c Hi Hc) as Hd.
  destruct (nth_error_lt _ _ Hd) as [x Hx]. destruct (nth_error_lt _ _ Hk) as [y Hy].
  rewrite (nth_of_nth_error _ _ Inf _ Hx), (nth_of_nth_error _ _ Inf _ Hy).
  destruct (di d i c =? k) eqn:E.
  - apply Nat.eqb_eq in E. rewrite deqb_eq. congruence.
  - apply Nat.eqb_neq in E. rewrite deqb_neq. intros ->. apply E.
    eapply increasing_inj; [apply W|eassumption|assumption].
Qed.

(** ** set *)

Lemma rect_width {A} n m (t : list (list A)) : rect n m t -> 0 < n -> width t = m.
Proof.
  intros [H1 H2] Hn. destruct t as [|r t]; simpl in *; [lia|]. apply H2. left; auto.
Qed.

Lemma lookup_table2_rect n m (t : list (list dist)) values ind :
  rect n m t -> create_lookup_table2 dleb deqb t = (values, ind) -> rect n m ind.
Proof.
  intros [H1 H2] H. unfold create_lookup_table2 in H.
  destruct (create_lookup_table dleb deqb (concat t)) as [v l] eqn:E. injection H as <- <-.
  assert (length l = n * m) as Hl.
  { pose proof (lookup_indices_length dleb deqb (concat t)) as Hx. rewrite E in Hx. simpl in Hx. rewrite Hx.
    subst n. clear E Hx. induction t as [|r t IH]; simpl; auto. rewrite app_length, IH.
    - rewrite (H2 r); [lia|left; auto].
    - intros r' Hr'. apply H2. right; auto. }
  rewrite H1. destruct t as [|r t]; simpl in *.
  - subst n. split; simpl; [auto|intros r []].
  - assert (length r = m) as Hr by (apply H2; left; auto). rewrite Hr. clear -Hl. revert l Hl.
    induction n as [|n IH]; intros l Hl; simpl.
    + split; auto. intros r [].
    + destruct (IH (skipn m l)) as [I1 I2]; [rewrite skipn_length; lia|].
      split; simpl; [congruence|]. intros r [<-|Hr]; auto. rewrite firstn_length. lia.
Qed.

(** What [set] stores. *)
Lemma data_set_spec indices positions neighbors distances n dim m :
  0 < n -> rect n (S dim) indices -> rect n dim positions -> rect n m neighbors -> rect n m distances ->
  In Inf (concat distances) -> (length (fst (create_lookup_table2 dleb deqb distances)) <= 256) ->
  exists d, data_set indices positions neighbors distances = Some d /\
    d_dim d = dim /\ d_cols d = m /\ d_indices d = indices /\ d_positions d = positions /\
    d_neighbors d = neighbors /\ distance_table d = distances /\ rect n m (d_distances d) /\
    increasing dleb (d_distvals d) /\ nth_error (d_distvals d) (d_invalid_distidx d) = Some Inf /\
    (forall x, In x (d_distvals d) <-> In x (concat distances)) /\
    (forall i c, i < n -> c < m -> di d i c < length (d_distvals d)) /\
    (forall i c, i < n -> c < m -> valid d i c = dfinite (cell Inf distances i c)) /\
    d_pmask d = map (map (fun _ => false)) neighbors /\
    d_pnvecs d = map (map (fun _ => repeat 0%Z dim)) neighbors /\
    d_paxes d = map (map (fun _ => repeat 0 dim)) neighbors /\
    d_invalid_idx d = n /\ d_dmap d = None.
Proof.
  intros Hn Hi Hp Hnb Hds Hinf Hlen. unfold data_set.
  destruct (create_lookup_table2 dleb deqb distances) as [values ind] eqn:E. simpl in Hlen.
  pose proof (lookup_table2_rect _ _ _ _ _ Hds E) as Hind.
  destruct (C01_lookup_decodes_table dist dleb deqb dist_order dist_eq distances m values ind Inf (proj2 Hds) E)
    as [Hinc [Hval Hdec]]. specialize (Hdec Hlen).
  assert (forall i c, i < n -> c < m -> nth (cell 0 ind i c) values Inf = cell Inf distances i c) as Hcell.
  { intros i c H1 H2. rewrite <- Hdec. rewrite (cell_map_map _ 0 _ _ _ _ n m) by assumption. reflexivity. }
  (* every index is in range *)
  assert (forall i c, i < n -> c < m -> cell 0 ind i c < length values) as Hrange.
  { intros i c H1 H2.
    unfold create_lookup_table2 in E. destruct (create_lookup_table dleb deqb (concat distances)) as [v l] eqn:E2.
    injection E as Ev El. subst v.
    assert (In (cell 0 ind i c) (concat ind)) as Hin by (apply (In_cell 0 n m); eauto).
    assert (forall x, In x l -> x < length values) as Hl.
    { intros x Hx. apply In_nth_error in Hx. destruct Hx as [k Hk].
      assert (k < length (concat distances)) as Hkl.
      { pose proof (lookup_indices_length dleb deqb (concat distances)) as Hx. rewrite E2 in Hx. simpl in Hx.
        rewrite <- Hx. eapply nth_error_length_lt; eauto. }
      destruct (nth_error_lt _ _ Hkl) as [a Ha].
      destruct (lookup_entry dleb deqb dist_order dist_eq _ _ _ Ha) as [q [Hq1 Hq2]].
      rewrite E2 in Hq1, Hq2. cbn [fst snd] in Hq1, Hq2. apply nth_error_length_lt in Hq1.
      assert (x = q mod 256) as -> by congruence. apply Nat.le_lt_trans with q; [|assumption]. apply Nat.mod_le. lia. }
    assert (forall rows cols (l : list nat) x, In x (concat (reshape rows cols l)) -> In x l) as Hresh.
    { clear. induction rows as [|rows IH]; intros cols l x; simpl; [tauto|].
      intro H. apply in_app_or in H. destruct H as [H|H].
      - rewrite <- (firstn_skipn cols l). apply in_or_app. auto.
      - rewrite <- (firstn_skipn cols l). apply in_or_app. right. apply (IH cols). exact H. }
    apply Hl. rewrite <- El in Hin at 2. apply Hresh in Hin. exact Hin. }
  destruct (proj1 (In_cell Inf n m distances Inf Hds) Hinf) as [i0 [c0 [Hi0 [Hc0 HInf]]]].
  destruct (nat_max (concat ind)) as [inv|] eqn:Emax.
  2:{ exfalso. destruct (concat ind) eqn:Ec; [|discriminate].
      assert (In (cell 0 ind i0 c0) (concat ind)) as Hin by (apply (In_cell 0 n m); eauto).
      rewrite Ec in Hin. destruct Hin. }
  apply nat_max_spec in Emax. destruct Emax as [Hm1 Hm2].
  assert (nth_error values (cell 0 ind i0 c0) = Some Inf) as Hk0.
  { destruct (nth_error_lt _ _ (Hrange _ _ Hi0 Hc0)) as [y Hy]. rewrite Hy.
    f_equal. rewrite <- HInf, <- Hcell by assumption. symmetry. apply nth_of_nth_error. auto. }
  pose proof (inf_last _ _ Hinc Hk0) as Hlast.
  assert (inv = cell 0 ind i0 c0) as ->.
  { assert (cell 0 ind i0 c0 <= inv) by (apply Hm2; apply (In_cell 0 n m); eauto).
    apply (In_cell 0 n m) in Hm1; auto. destruct Hm1 as [i1 [c1 [Hi1 [Hc1 <-]]]].
    pose proof (Hrange _ _ Hi1 Hc1). lia. }
  eexists. split; [reflexivity|]. simpl.
  rewrite (rect_width n dim positions Hp Hn), (rect_width n m neighbors Hnb Hn).
  split; auto. split; auto. split; auto. split; auto. split; auto. split; [exact Hdec|].
  split; auto. split; auto. split; auto. split.
  { intro x. rewrite Hval, in_concat. tauto. }
  split; [exact Hrange|]. split.
  { intros i c H1 H2. unfold valid, di. simpl. rewrite <- Hcell by assumption.
    pose proof (Hrange i c H1 H2) as Hr. destruct (nth_error_lt _ _ Hr) as [y Hy].
    rewrite (nth_of_nth_error _ _ Inf _ Hy). destruct y as [z|]; simpl.
    - apply Nat.ltb_lt. destruct (Nat.eq_dec (cell 0 ind i c) (cell 0 ind i0 c0)) as [Eq|]; [|lia].
      rewrite Eq, Hk0 in Hy. discriminate.
    - apply Nat.ltb_ge. rewrite (increasing_inj _ _ Hinc _ _ _ Hy Hk0). auto. }
  destruct Hi as [Hi _]. auto 10.
Qed.

Lemma data_set_wf indices positions neighbors distances n dim m d :
  0 < n -> rect n (S dim) indices -> rect n dim positions -> rect n m neighbors -> rect n m distances ->
  In Inf (concat distances) -> (length (fst (create_lookup_table2 dleb deqb distances)) <= 256) ->
  (forall i c, i < n -> c < m -> cell Inf distances i c <> Inf -> cell 0 neighbors i c < n) ->
  data_set indices positions neighbors distances = Some d -> wf d /\ d_dmap d = None.
Proof.
  intros Hn Hi Hp Hnb Hds Hinf Hlen Hlt E.
  destruct (data_set_spec _ _ _ _ _ _ _ Hn Hi Hp Hnb Hds Hinf Hlen) as (d' & E1 & Edim & Ecols & Eind & Epos & Enb
    & Edt & Rd & Hinc & Hinv & Hval & Hrange & Hvalid & Epm & Env & Eax & Einv & Edm).
  assert (d' = d) as -> by congruence.
  assert (nsites d = n) as Ens by (unfold nsites; rewrite Eind; apply Hi).
  split; auto. constructor.
  - constructor; rewrite ?Ens, ?Ecols, ?Edim, ?Eind, ?Epos, ?Enb; auto.
    intros i c H1 H2 Hv. rewrite Hvalid in Hv by assumption. unfold nb. rewrite Enb.
    apply Hlt; auto. intro Ei. rewrite Ei in Hv. discriminate.
  - rewrite Ens, Ecols, Epm. apply rect_map_map. auto.
  - rewrite Ens, Ecols, Env. apply rect_map_map. auto.
  - rewrite Ens, Ecols, Eax. apply rect_map_map. auto.
  - rewrite Ens, Ecols, Env, Edim. intros i c H1 H2. rewrite (cell_map_map _ 0 _ _ _ _ n m) by assumption.
    apply repeat_length.
  - rewrite Ens, Ecols, Eax, Edim. intros i c H1 H2. rewrite (cell_map_map _ 0 _ _ _ _ n m) by assumption.
    apply repeat_length.
  - rewrite Ens, Ecols. intros i c H1 H2. unfold pm. rewrite Epm.
    rewrite (cell_map_map _ 0 _ _ _ _ n m) by assumption. discriminate.
Qed.

(** ** remove *)

(** The sites that are kept. *)
Definition kept_sites (n : nat) (sites : list nat) : list nat := filter (fun i => negb (isin sites i)) (seq 0 n).

Lemma StronglySorted_filter {A} (R : A -> A -> Prop) f l : StronglySorted R l -> StronglySorted R (filter f l).
Proof.
  induction 1 as [|x l H IH Hf]; simpl; [constructor|].
  destruct (f x); auto. constructor; auto. rewrite Forall_forall in *. intros y Hy.
  apply Hf. apply filter_In in Hy. tauto.
Qed.

Lemma seq_sorted k n : StronglySorted lt (seq k n).
Proof.
  revert k. induction n as [|n IH]; intro k; simpl; constructor; auto.
  apply Forall_forall. intros y Hy. apply in_seq in Hy. lia.
Qed.

Lemma In_kept n sites i : In i (kept_sites n sites) <-> i < n /\ ~ In i sites.
Proof.
  unfold kept_sites. rewrite filter_In, in_seq, negb_true_iff, isin_false. intuition lia.
Qed.

Lemma sorted_lt_unique (l m : list nat) :
  StronglySorted lt l -> StronglySorted lt m -> (forall x, In x l <-> In x m) -> l = m.
Proof.
  intros Hl Hm H. apply (strict_unique Nat.leb).
  - intros x y Hx Hy. apply Nat.leb_le in Hx, Hy. lia.
  - clear -Hl. induction Hl as [|x l Hl IH Hf]; constructor; auto.
    eapply Forall_impl; [|exact Hf]. simpl. intros y Hy. rewrite Nat.leb_le. lia.
  - clear -Hm. induction Hm as [|x l Hl IH Hf]; constructor; auto.
    eapply Forall_impl; [|exact Hf]. simpl. intros y Hy. rewrite Nat.leb_le. lia.
  - exact H.
Qed.

Lemma kept_unique n sites kept :
  StronglySorted lt kept -> (forall i, In i kept <-> i < n /\ ~ In i sites) -> kept = kept_sites n sites.
Proof.
  intros H1 H2. apply sorted_lt_unique; auto.
  - apply StronglySorted_filter, seq_sorted.
  - intro x. rewrite H2, In_kept. tauto.
Qed.

Lemma delete_kept {A} (x : A) sites l : delete sites l = map (fun i => nth i l x) (kept_sites (length l) sites).
Proof.
  unfold delete, kept_sites. rewrite (select_seq x) by (rewrite map_length, seq_length; reflexivity).
  f_equal. apply filter_ext_seq. intros i _ Hi. rewrite nth_map_seq by lia. reflexivity.
Qed.

Lemma rect_delete {A} n m (t : list (list A)) sites :
  rect n m t -> rect (length (kept_sites n sites)) m (delete sites t).
Proof.
  intros H. rewrite (delete_kept []). destruct H as [H1 H2]. rewrite H1.
  split; [apply map_length|]. intros r Hr. apply in_map_iff in Hr. destruct Hr as [i [<- Hi]].
  apply In_kept in Hi. apply H2. apply nth_In. lia.
Qed.

Lemma nth_delete {A} (x : A) sites l p : p < length (kept_sites (length l) sites) ->
  nth p (delete sites l) x = nth (nth p (kept_sites (length l) sites) 0) l x.
Proof. intro H. rewrite (delete_kept x). apply (nth_map_lt (fun i => nth i l x)). assumption. Qed.

(** The decrement loop on one entry. *)
Definition dec1 (n : nat) (ci : nat * nat) : nat := let (count, i) := ci in if i <? n + count then n - 1 else n.

Lemma fold_decrement L t :
  fold_left decrement L t = map (map (fun n => fold_left dec1 L n)) t.
Proof.
  revert t. induction L as [|[c i] L IH]; intro t; simpl.
  - symmetry. rewrite (map_ext _ (fun r => r)); [apply map_id|]. intro r. apply map_id.
  - rewrite IH. rewrite map_map. apply map_ext. intro r. rewrite map_map. reflexivity.
Qed.

Lemma dec1_above l c n :
  StronglySorted lt l -> (forall s, In s l -> n + c <= s) ->
  fold_left dec1 (combine (seq c (length l)) l) n = n.
Proof.
  revert c. induction l as [|s l IH]; intros c Hs H; simpl; auto.
  inversion Hs; subst.
  rewrite (proj2 (Nat.ltb_ge s (n + c))) by (apply H; left; auto).
  apply IH; auto. intros s' Hs'. rewrite Forall_forall in H3. specialize (H3 s' Hs').
  specialize (H s (or_introl eq_refl)). lia.
Qed.

Lemma dec1_count l c j :
  StronglySorted lt l -> c <= j -> ~ In j l -> length (filter (fun s => s <? j) l) + c <= j ->
  fold_left dec1 (combine (seq c (length l)) l) (j - c) = j - c - length (filter (fun s => s <? j) l).
Proof.
  revert c. induction l as [|s l IH]; intros c Hs Hc Hj Hlen; simpl in *; [lia|].
  inversion Hs; subst.
  destruct (s <? j) eqn:E.
  - apply Nat.ltb_lt in E. rewrite (proj2 (Nat.ltb_lt s (j - c + c))) by lia. simpl in Hlen.
    replace (j - c - 1) with (j - S c) by lia. rewrite IH; auto; simpl; lia.
  - apply Nat.ltb_ge in E. assert (s <> j) by (intros ->; tauto).
    rewrite (proj2 (Nat.ltb_ge s (j - c + c))) by lia.
    rewrite Forall_forall in H2.
    rewrite dec1_above; auto.
    + assert (filter (fun s => s <? j) l = []) as ->.
      { destruct (filter (fun s => s <? j) l) as [|y r] eqn:F; auto. exfalso.
        assert (In y (filter (fun s => s <? j) l)) as Hy by (rewrite F; left; auto).
        apply filter_In in Hy. destruct Hy as [Hy1 Hy2]. apply Nat.ltb_lt in Hy2.
        specialize (H2 y Hy1). lia. }
      simpl. lia.
    + intros s' Hs'. specialize (H2 s' Hs'). lia.
Qed.

Lemma sort_sites_sorted sites : NoDup sites -> StronglySorted lt (sort_stable Nat.leb sites).
Proof.
  intro H.
  assert (StronglySorted (fun a b => (a <=? b) = true) (sort_stable Nat.leb sites)) as Hs.
  { apply sort_stable_sorted; intros; rewrite !Nat.leb_le in *; lia. }
  assert (NoDup (sort_stable Nat.leb sites)) as Hn.
  { eapply Permutation_NoDup; [symmetry; apply sort_stable_perm|exact H]. }
  revert Hs Hn. generalize (sort_stable Nat.leb sites). induction 1 as [|x l Hl IH Hf]; intro Hn; constructor.
  - apply IH. inversion Hn; auto.
  - inversion Hn; subst. rewrite Forall_forall in *. intros y Hy. specialize (Hf y Hy).
    apply Nat.leb_le in Hf. assert (x <> y) by (intros ->; tauto). lia.
Qed.

Lemma filter_split_length {A} (f : A -> bool) l :
  length (filter f l) + length (filter (fun x => negb (f x)) l) = length l.
Proof. induction l as [|x l IH]; simpl; auto. destruct (f x); simpl; lia. Qed.

(** Numbers below [j] split into removed and kept ones. *)
Lemma below_split sites j : NoDup sites ->
  length (filter (fun s => s <? j) sites) + length (kept_sites j sites) = j.
Proof.
  intro H. unfold kept_sites.
  assert (Permutation (filter (fun s => s <? j) sites) (filter (isin sites) (seq 0 j))) as P.
  { apply NoDup_Permutation.
    - apply NoDup_filter. assumption.
    - apply NoDup_filter. apply seq_NoDup.
    - intro x. rewrite !filter_In, in_seq, isin_In, Nat.ltb_lt. intuition lia. }
  rewrite (Permutation_length P), filter_split_length, seq_length. reflexivity.
Qed.

Lemma kept_app n k sites :
  kept_sites (n + k) sites = kept_sites n sites ++ filter (fun i => negb (isin sites i)) (seq n k).
Proof. unfold kept_sites. rewrite seq_app, filter_app. reflexivity. Qed.

(** Position of a kept site. *)
Lemma kept_position n sites j : j < n -> ~ In j sites ->
  let p := length (kept_sites j sites) in
  p < length (kept_sites n sites) /\ nth p (kept_sites n sites) 0 = j.
Proof.
  intros Hj Hn p.
  assert (kept_sites n sites =
          kept_sites j sites ++ j :: filter (fun i => negb (isin sites i)) (seq (S j) (n - S j))) as ->.
  { replace n with (j + S (n - S j)) at 1 by lia. rewrite kept_app. simpl.
    rewrite (proj2 (isin_false sites j)) by assumption. reflexivity. }
  split.
  - rewrite app_length. simpl. unfold p. lia.
  - unfold p. rewrite app_nth2 by lia. rewrite Nat.sub_diag. reflexivity.
Qed.

Lemma kept_nth_inj n sites p q : p < length (kept_sites n sites) -> q < length (kept_sites n sites) ->
  nth p (kept_sites n sites) 0 = nth q (kept_sites n sites) 0 -> p = q.
Proof.
  intros Hp Hq H. eapply NoDup_nth; eauto. apply NoDup_filter, seq_NoDup.
Qed.

(** The decrement loop maps old to new numbers. *)
Lemma dec_all sites j : NoDup sites -> ~ In j sites ->
  fold_left dec1 (enumerate (sort_stable Nat.leb sites)) j = length (kept_sites j sites).
Proof.
  intros H Hj. unfold enumerate.
  pose proof (below_split sites j H) as Hsplit.
  assert (length (filter (fun s => s <? j) (sort_stable Nat.leb sites)) =
          length (filter (fun s => s <? j) sites)) as Elen.
  { apply Permutation_length.
    assert (forall l m : list nat, Permutation l m ->
              Permutation (filter (fun s => s <? j) l) (filter (fun s => s <? j) m)) as HP.
    { induction 1; simpl; auto.
      - destruct (x <? j); auto.
      - destruct (x <? j), (y <? j); auto. constructor.
      - etransitivity; eauto. }
    apply HP, sort_stable_perm. }
  replace j with (j - 0) at 1 by lia. rewrite dec1_count.
  - lia.
  - apply sort_sites_sorted; auto.
  - lia.
  - intro Hin. apply In_sort_stable in Hin. contradiction.
  - lia.
Qed.

Local Arguments delete : simpl never.

(** All slots after [remove]. *)
Lemma remove_spec d sites kept :
  wf_core d -> NoDup sites -> (forall s, In s sites -> s < nsites d) ->
  kept = kept_sites (nsites d) sites ->
  exists d', remove d sites = Some d' /\
    d_dim d' = d_dim d /\ d_cols d' = d_cols d /\
    d_indices d' = map (fun i => nth i (d_indices d) []) kept /\
    d_positions d' = map (fun i => nth i (d_positions d) []) kept /\
    d_distvals d' = d_distvals d /\ d_invalid_distidx d' = d_invalid_distidx d /\
    d_invalid_idx d' = length kept /\
    rect (length kept) (d_cols d) (d_neighbors d') /\ rect (length kept) (d_cols d) (d_distances d') /\
    d_pmask d' = d_pmask d /\ d_pnvecs d' = d_pnvecs d /\ d_paxes d' = d_paxes d /\ d_dmap d' = d_dmap d /\
    (forall p c, p < length kept -> c < d_cols d ->
       let j := nb d (nth p kept 0) c in
       (In j sites -> nb d' p c = length kept /\ di d' p c = d_invalid_distidx d) /\
       (j = nsites d -> nb d' p c = length kept) /\
       (~ In j sites -> di d' p c = di d (nth p kept 0) c) /\
       (~ In j sites -> j < nsites d -> nb d' p c < length kept /\ nth (nb d' p c) kept 0 = j)).
Proof.
  intros W Hnd Hlt ->. unfold remove.
  assert (forallb (fun s => s <? num_sites d) sites = true) as ->.
  { apply forallb_forall. intros s Hs. apply Nat.ltb_lt. apply Hlt; auto. }
  set (kept := kept_sites (nsites d) sites).
  eexists. split; [reflexivity|]. simpl. unfold nb, di. simpl.
  pose proof (wf_indices _ W) as Ri. pose proof (wf_positions _ W) as Rp.
  pose proof (wf_neighbors _ W) as Rn. pose proof (wf_distances _ W) as Rd.
  assert (length (delete sites (d_indices d)) = length kept) as EL.
  { pose proof (rect_delete _ _ _ sites Ri) as [-> _]. reflexivity. }
  split; auto. split; auto.
  split; [apply (delete_kept [])|].
  split; [rewrite (delete_kept ([] : vec)); unfold vec; rewrite (proj1 Rp); reflexivity|].
  split; auto. split; auto. split; [exact EL|].
  pose proof (rect_delete _ _ _ sites Rn) as Rn1. pose proof (rect_delete _ _ _ sites Rd) as Rd1.
  fold kept in Rn1, Rd1.
  set (N1 := delete sites (d_neighbors d)) in *. set (D1 := delete sites (d_distances d)) in *.
  assert (rect (length kept) (d_cols d) (map (map (isin sites)) N1)) as RM by (apply rect_map_map; auto).
  set (N2 := map2 (fun m r => assign_mask m (d_invalid_idx d) r) (map (map (isin sites)) N1) N1).
  set (D2 := map2 (fun m r => assign_mask m (d_invalid_distidx d) r) (map (map (isin sites)) N1) D1).
  assert (rect (length kept) (d_cols d) N2) as RN2.
  { unfold N2. apply (rect_map2 _ _ _ _ _ RM Rn1). intros. rewrite assign_mask_length. auto. }
  assert (rect (length kept) (d_cols d) D2) as RD2.
  { unfold D2. apply (rect_map2 _ _ _ _ _ RM Rd1). intros. rewrite assign_mask_length. auto. }
  rewrite fold_decrement.
  set (f := fun n => fold_left dec1 (enumerate (sort_stable Nat.leb sites)) n).
  assert (rect (length kept) (d_cols d) (map (map f) N2)) as RN3 by (apply rect_map_map; auto).
  split; [apply rect_map_map; exact RN3|]. split; [exact RD2|].
  split; auto. split; auto. split; auto. split; auto.
  intros p c Hp Hc.
  set (q := nth p kept 0).
  assert (In q kept) as Hq by (apply nth_In; auto). apply In_kept in Hq. destruct Hq as [Hq1 Hq2].
  assert (cell 0 N1 p c = cell 0 (d_neighbors d) q c) as EN1.
  { unfold cell, N1. rewrite nth_delete; rewrite (proj1 Rn); [reflexivity|exact Hp]. }
  assert (cell 0 D1 p c = cell 0 (d_distances d) q c) as ED1.
  { unfold cell, D1. rewrite nth_delete; rewrite (proj1 Rd); [reflexivity|exact Hp]. }
  assert (cell 0 N2 p c = if isin sites (cell 0 (d_neighbors d) q c) then d_invalid_idx d
                          else cell 0 (d_neighbors d) q c) as EN2.
  { unfold N2. rewrite (cell_map2 _ _ _ _ _ _ _ _ _ RM Rn1 Hp).
    rewrite nth_assign_mask by (rewrite (rect_nth _ _ _ _ Rn1 Hp); auto).
    change (nth c (nth p (map (map (isin sites)) N1) []) false) with (cell false (map (map (isin sites)) N1) p c).
    rewrite (cell_map_map (isin sites) 0 false _ _ _ _ _ Rn1 Hp Hc), EN1.
    change (nth c (nth p N1 []) 0) with (cell 0 N1 p c). rewrite EN1. reflexivity. }
  assert (cell 0 D2 p c = if isin sites (cell 0 (d_neighbors d) q c) then d_invalid_distidx d
                          else cell 0 (d_distances d) q c) as ED2.
  { unfold D2. rewrite (cell_map2 _ _ _ _ _ _ _ _ _ RM Rd1 Hp).
    rewrite nth_assign_mask by (rewrite (rect_nth _ _ _ _ Rd1 Hp); auto).
    change (nth c (nth p (map (map (isin sites)) N1) []) false) with (cell false (map (map (isin sites)) N1) p c).
    rewrite (cell_map_map (isin sites) 0 false _ _ _ _ _ Rn1 Hp Hc), EN1.
    change (nth c (nth p D1 []) 0) with (cell 0 D1 p c). rewrite ED1. reflexivity. }
  rewrite (cell_map_map (fun n => if n =? d_invalid_idx d then length (delete sites (d_indices d)) else n) 0 0
            _ _ _ _ _ RN3 Hp Hc), EL.
  rewrite (cell_map_map f 0 0 _ _ _ _ _ RN2 Hp Hc), EN2, ED2.
  assert (f (nsites d) = length kept) as Ef.
  { unfold f. apply dec_all; auto. intro H. apply Hlt in H. lia. }
  assert (length kept <= nsites d) as Hle.
  { pose proof (below_split sites (nsites d) Hnd). fold kept in H. lia. }
  rewrite (wf_invalid_idx _ W). cbn zeta.
  set (j := cell 0 (d_neighbors d) q c).
  assert ((if length kept =? nsites d then length kept else length kept) = length kept) as Eif
    by (destruct (_ =? _); auto).
  split; [|split; [|split]].
  - intro Hj. rewrite (proj2 (isin_In _ _) Hj). rewrite Ef. auto.
  - intros ->. destruct (isin sites (nsites d)); rewrite Ef; auto.
  - intro Hj. rewrite (proj2 (isin_false _ _) Hj). reflexivity.
  - intros Hj Hjn. rewrite (proj2 (isin_false _ _) Hj).
    destruct (kept_position (nsites d) sites j Hjn Hj) as [K1 K2]. fold kept in K1, K2.
    unfold f. rewrite dec_all by assumption.
    rewrite (proj2 (Nat.eqb_neq (length (kept_sites j sites)) (nsites d))) by lia.
    auto.
Qed.
