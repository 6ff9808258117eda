(** * Properties C39-C46, C51, C52 (lattpy/data.py: LatticeData) *)
From Coq Require Import List ZArith QArith Bool Arith Lia Permutation Sorting.Sorted.
From Verif Require Import Np NpFacts LinAlg LinFacts UtilsModel SpecUtils UtilsProofs PropUtils NeighborCellProofs
  DataModel SpecData DataFacts DataProofs DataOps DataAppend DataInv.
Import ListNotations.
Open Scope nat_scope.

(** ** Example data: an open chain of three sites. *)

Definition chain3_indices : list (list Z) := [[0; 0]; [1; 0]; [2; 0]]%Z.
Definition chain3_positions : list vec := [[0]; [1]; [2]]%Q.
Definition chain3_neighbors : list (list nat) := [[1; 3]; [0; 2]; [1; 3]].
Definition chain3_distances : list (list dist) :=
  [[Fin 1000000; Inf]; [Fin 1000000; Fin 1000000]; [Fin 1000000; Inf]].

Definition chain3 : data :=
  mkData 1 2 chain3_indices chain3_positions chain3_neighbors [[0; 1]; [0; 0]; [0; 1]] [Fin 1000000; Inf]
    [[false; false]; [false; false]; [false; false]]
    [[[0%Z]; [0%Z]]; [[0%Z]; [0%Z]]; [[0%Z]; [0%Z]]]
    [[[0]; [0]]; [[0]; [0]]; [[0]; [0]]] 3 1 None.

Lemma chain3_set : data_set chain3_indices chain3_positions chain3_neighbors chain3_distances = Some chain3.
Proof. reflexivity. Qed.

Lemma chain3_wf : wf chain3.
Proof.
  refine (proj1 (data_set_wf chain3_indices chain3_positions chain3_neighbors chain3_distances 3 1 2 chain3
            _ _ _ _ _ _ _ _ chain3_set)).
  - lia.
  - split; [reflexivity|]. simpl. intuition (subst; reflexivity).
  - split; [reflexivity|]. simpl. intuition (subst; reflexivity).
  - split; [reflexivity|]. simpl. intuition (subst; reflexivity).
  - split; [reflexivity|]. simpl. intuition (subst; reflexivity).
  - simpl. auto.
  - vm_compute. repeat constructor.
  - intros i c Hi Hc. destruct i as [|[|[|]]]; try lia; destruct c as [|[|]]; try lia;
      unfold cell; simpl; intro H; try lia; congruence.
Qed.

(** ** C39: what [set] stores *)

Theorem C39_set_neighbors :
  forall indices positions neighbors distances n dim m (values : list dist),
    0 < n -> rect n (S dim) indices -> rect n dim positions -> rect n m neighbors -> rect n m distances ->
    In Inf (concat distances) -> incl (concat distances) values -> length values <= 256 ->
    exists d, data_set indices positions neighbors distances = Some d /\
      d_indices d = indices /\ d_positions d = positions /\ increasing dleb (d_distvals d) /\
      forall i, i < n ->
        get_neighbors d i None None false =
          Some (map (fun c => cell 0 neighbors i c) (filter (fun c => dfinite (cell Inf distances i c)) (seq 0 m))) /\
        (forall c, c < m -> nth (di d i c) (d_distvals d) Inf = cell Inf distances i c) /\
        get_neighbors d i None (Some true) false = Some [].
Proof.
  intros indices positions neighbors distances n dim m values Hn Ri Rp Rn Rd Hinf Hincl Hlen.
  assert (length (fst (create_lookup_table2 dleb deqb distances)) <= 256) as Hfew.
  { destruct (create_lookup_table2 dleb deqb distances) as [vals ind] eqn:E. simpl.
    destruct (C01_lookup_decodes_table dist dleb deqb dist_order dist_eq distances m vals ind Inf (proj2 Rd) E)
      as [Hinc [Hval _]].
    apply Nat.le_trans with (length values); auto. apply NoDup_incl_length.
    - apply (strict_NoDup dleb). exact Hinc.
    - intros x Hx. apply Hincl. apply Hval in Hx. rewrite <- in_concat in Hx. auto. }
  destruct (data_set_spec _ _ _ _ _ _ _ Hn Ri Rp Rn Rd Hinf Hfew) as (d & E1 & Edim & Ecols & Eind & Epos & Enb
    & Edt & Rdd & Hinc & Hinv & Hval & Hrange & Hvalid & Epm & Env & Eax & Einv & Edm).
  assert (nsites d = n) as En by (unfold nsites; rewrite Eind; apply Ri).
  exists d. do 4 (split; [assumption|]). intros i Hi.
  assert (forall k p, get_neighbors d i k p false =
            Some (map (nb d i) (filter (selects d i k p false) (seq 0 (d_cols d))))) as G.
  { intros k p. apply get_neighbors_gen; rewrite ?En, ?Ecols, ?Enb; auto.
    intros _. exists n. split; auto. rewrite Epm. apply rect_map_map. auto. }
  rewrite !G, Ecols. split; [|split].
  - f_equal. unfold nb. rewrite Enb. f_equal. apply filter_ext_seq. intros c _ Hc.
    unfold selects. rewrite !andb_true_r. apply Hvalid; auto.
  - intros c Hc. rewrite <- Edt. unfold distance_table.
    rewrite (cell_map_map _ 0 Inf _ _ _ _ _ Rdd Hi Hc). reflexivity.
  - rewrite filter_none; auto. intros c Hc. apply in_seq in Hc. unfold selects, pm. rewrite Epm.
    rewrite (cell_map_map _ 0 false _ _ _ _ _ Rn Hi) by lia. simpl. apply andb_false_r.
Qed.

Example C39_example :
  exists d, data_set chain3_indices chain3_positions chain3_neighbors chain3_distances = Some d /\
    get_neighbors d 0 None None false = Some [1] /\ get_neighbors d 1 None None false = Some [0; 2].
Proof. exists chain3. split; [reflexivity|]. split; reflexivity. Qed.

(** Without an infinite entry the neighbours with the largest distance are taken for padding: two sites that are
    each other's only neighbour. *)
Theorem C39_no_padding_refuted :
  exists d, data_set [[0; 0]; [1; 0]]%Z [[0]; [1]]%Q [[1]; [0]] [[Fin 1000000]; [Fin 1000000]] = Some d /\
    get_neighbors d 0 None None false = Some [] /\ get_neighbors d 1 None None false = Some [].
Proof. apply ex_some. vm_compute. auto. Qed.

(** ** C40: queries *)

Theorem C40_all_neighbors :
  forall d i u, wf_core d -> i < nsites d ->
    get_neighbors d i None None u =
      Some (filter (fun j => if u then i <? j else true) (map fst (links d i))).
Proof.
  intros d i u W Hi. rewrite get_neighbors_core by assumption. f_equal. unfold links, valid_slots.
  rewrite map_map, map_filter_comm, filter_filter. simpl.
  f_equal. apply filter_ext. intro c. unfold selects. rewrite andb_true_r. reflexivity.
Qed.

Theorem C40_by_distance :
  forall d i k u, wf_core d -> i < nsites d -> k < d_invalid_distidx d ->
    get_neighbors d i (Some k) None u =
      Some (filter (fun j => if u then i <? j else true)
             (map fst (filter (fun l => deqb (snd l) (nth k (d_distvals d) Inf)) (links d i)))).
Proof.
  intros d i k u W Hi Hk. rewrite get_neighbors_core by assumption. f_equal. unfold links, valid_slots.
  pose proof (inf_last _ _ (wf_distvals _ W) (wf_invalid _ W)) as Hl.
  rewrite (map_filter_comm (link_at d i)), filter_filter, map_map, map_filter_comm, filter_filter. simpl.
  f_equal. apply filter_ext_seq. intros c _ Hc. unfold selects. rewrite andb_true_r.
  rewrite di_value by (auto; lia). unfold valid.
  destruct (di d i c =? k) eqn:E; simpl; [|rewrite andb_false_r; reflexivity].
  apply Nat.eqb_eq in E. rewrite E, (proj2 (Nat.ltb_lt _ _) Hk). reflexivity.
Qed.

Theorem C40_periodic_split :
  forall d i, wf d -> i < nsites d ->
    exists reg per,
      get_neighbors d i None (Some false) false = Some reg /\ get_neighbors d i None (Some true) false = Some per /\
      reg = map s_nbr (filter (fun s => negb (s_per s)) (slots d i)) /\
      per = map s_nbr (filter (fun s => s_per s) (slots d i)) /\
      forall all, get_neighbors d i None None false = Some all -> Permutation all (reg ++ per).
Proof.
  intros d i W Hi. rewrite !get_neighbors_wf by assumption.
  eexists. eexists. split; [reflexivity|]. split; [reflexivity|].
  assert (forall b, map (nb d i) (filter (selects d i None (Some b) false) (seq 0 (d_cols d))) =
            map s_nbr (filter (fun s => Bool.eqb (s_per s) b) (slots d i))) as H.
  { intro b. unfold slots, valid_slots. rewrite map_filter_comm, filter_filter, map_map. simpl. f_equal.
    apply filter_ext. intro c. unfold selects. rewrite andb_true_r. reflexivity. }
  split; [rewrite H; f_equal; apply filter_ext; intros []; simpl; destruct s_per; reflexivity|].
  split; [rewrite H; f_equal; apply filter_ext; intros []; simpl; destruct s_per; reflexivity|].
  intros all E. injection E as <-.
  rewrite <- map_app. apply Permutation_map.
  generalize (seq 0 (d_cols d)). intro l. induction l as [|c l IH]; simpl; auto.
  unfold selects in *. simpl. destruct (valid d i c); simpl; auto.
  destruct (pm d i c); simpl.
  - rewrite IH. rewrite Permutation_middle. reflexivity.
  - constructor. auto.
Qed.

(** Grouping the valid slots by their key. *)
Lemma classes_perm (key : nat -> nat) (v : nat -> bool) ks : NoDup ks ->
  forall l, (forall c, In c l -> v c = true <-> In (key c) ks) ->
  Permutation (filter v l) (concat (map (fun k => filter (fun c => key c =? k) l) ks)).
Proof.
  intro Hnd. induction l as [|c l IH]; intro Hcov.
  - apply eq_Permutation. clear. induction ks; simpl; auto.
  - specialize (IH (fun c' H => Hcov c' (or_intror H))). specialize (Hcov c (or_introl eq_refl)). cbn [filter].
    assert (forall ks', ~ In (key c) ks' ->
      map (fun k => if key c =? k then c :: filter (fun c0 => key c0 =? k) l else filter (fun c0 => key c0 =? k) l) ks' =
      map (fun k => filter (fun c0 => key c0 =? k) l) ks') as Hs.
    { intros ks' H. apply map_ext_in. intros k Hk. rewrite (proj2 (Nat.eqb_neq (key c) k)); auto. congruence. }
    destruct (v c).
    + destruct Hcov as [Hcov _]. specialize (Hcov eq_refl). rewrite IH. clear IH.
      apply in_split in Hcov. destruct Hcov as [k1 [k2 ->]].
      apply NoDup_remove in Hnd. destruct Hnd as [_ Hni].
      rewrite !map_app, !concat_app. cbn [map concat]. rewrite Nat.eqb_refl.
      rewrite !Hs by (intro; apply Hni; apply in_or_app; auto).
      cbn [app]. rewrite Permutation_middle. reflexivity.
    + rewrite Hs; auto. intro H. apply Hcov in H. discriminate.
Qed.

(** The classes: [iter_neighbors]. *)
Theorem C40_iter_neighbors :
  forall d i, wf_core d -> i < nsites d ->
    exists classes, iter_neighbors d i false = Some classes /\
      StronglySorted lt (map fst classes) /\
      (forall k ns, In (k, ns) classes <->
         k < d_invalid_distidx d /\ (exists j, In (j, nth k (d_distvals d) Inf) (links d i)) /\
         get_neighbors d i (Some k) None false = Some ns) /\
      forall all, get_neighbors d i None None false = Some all -> Permutation all (concat (map snd classes)).
Proof.
  intros d i W Hi. unfold iter_neighbors.
  destruct (rect_row _ _ _ _ (wf_distances _ W) Hi) as [dr [Hdr [Ldr Ndr]]]. rewrite Hdr.
  pose proof (inf_last _ _ (wf_distvals _ W) (wf_invalid _ W)) as Hl.
  set (f := fun k => map (nb d i) (filter (selects d i (Some k) None false) (seq 0 (d_cols d)))).
  assert (forall l, flat_map (fun k => if k =? d_invalid_distidx d then []
            else match get_neighbors d i (Some k) None false with Some ns => [(k, ns)] | None => [] end) l =
          map (fun k => (k, f k)) (filter (fun k => negb (k =? d_invalid_distidx d)) l)) as Hfm.
  { induction l as [|k l IH]; simpl; auto. rewrite IH. destruct (k =? d_invalid_distidx d); simpl; auto.
    rewrite get_neighbors_core by assumption. reflexivity. }
  rewrite Hfm. eexists. split; [reflexivity|].
  set (ks := filter (fun k => negb (k =? d_invalid_distidx d)) (unique Nat.leb dr)).
  assert (StronglySorted lt ks) as Hks.
  { apply StronglySorted_filter.
    assert (StronglySorted (fun a b => (a <=? b) = true /\ a <> b) (unique Nat.leb dr)) as S.
    { apply unique_strict; intros; rewrite ?Nat.leb_le in *; lia. }
    induction S as [|x l Hl' IH Hf]; constructor; auto. eapply Forall_impl; [|exact Hf].
    simpl. intros y [H1 H2]. apply Nat.leb_le in H1. lia. }
  assert (forall k, In k ks <-> exists c, c < d_cols d /\ di d i c = k /\ valid d i c = true) as HinK.
  { intro k. unfold ks. rewrite filter_In, In_unique by (intros; rewrite ?Nat.leb_le in *; lia).
    rewrite negb_true_iff, Nat.eqb_neq. split.
    - intros [H1 H2]. apply In_nth_error in H1. destruct H1 as [c Hc]. exists c.
      assert (c < d_cols d) as Hcl by (rewrite <- Ldr; eapply nth_error_length_lt; eauto).
      assert (di d i c = k) as E by (unfold di, cell; rewrite Ndr; apply nth_of_nth_error; auto).
      split; auto. split; auto. rewrite valid_ne by assumption. rewrite E. apply negb_true_iff, Nat.eqb_neq. auto.
    - intros [c [Hc [E V]]]. rewrite valid_ne in V by assumption. apply negb_true_iff, Nat.eqb_neq in V.
      rewrite E in V. split; auto. subst k. unfold di, cell. rewrite Ndr. apply nth_In. lia. }
  split; [rewrite map_map; simpl; rewrite map_id; exact Hks|]. split.
  - intros k ns. rewrite in_map_iff. split.
    + intros [k' [E Hk]]. injection E as -> <-. apply HinK in Hk. destruct Hk as [c [Hc [E V]]].
      pose proof V as V'. unfold valid in V'. apply Nat.ltb_lt in V'. split; [lia|]. split.
      * exists (nb d i c). unfold links, valid_slots. apply in_map_iff. exists c. split.
        -- unfold link_at. rewrite E. reflexivity.
        -- apply filter_In. split; auto. apply in_seq. lia.
      * rewrite get_neighbors_core by assumption. reflexivity.
    + intros [Hk [[j Hj] G]]. exists k. rewrite get_neighbors_core in G by assumption. injection G as <-.
      split; auto. apply HinK. unfold links, valid_slots in Hj. apply in_map_iff in Hj.
      destruct Hj as [c [E Hc]]. apply filter_In in Hc. destruct Hc as [Hc V]. apply in_seq in Hc.
      exists c. split; [lia|]. split; auto. unfold link_at in E.
      assert (deqb (nth (di d i c) (d_distvals d) Inf) (nth k (d_distvals d) Inf) = true) as D.
      { apply deqb_eq. congruence. }
      rewrite di_value in D by (auto; lia). apply Nat.eqb_eq. exact D.
  - intros all E. rewrite get_neighbors_core in E by assumption. injection E as <-.
    rewrite map_map. simpl.
    assert (NoDup ks) as Hnd by (apply StronglySorted_lt_NoDup; exact Hks).
    assert (forall c, In c (seq 0 (d_cols d)) -> valid d i c = true <-> In (di d i c) ks) as Hcov.
    { intros c Hc. apply in_seq in Hc. split.
      - intro V. apply HinK. exists c. split; [lia|auto].
      - intro H. apply HinK in H. destruct H as [c' [Hc' [E V]]]. unfold valid in *. congruence. }
    unfold f. clearbody ks. clear -Hnd Hcov.
    rewrite <- (map_map (fun k => filter (selects d i (Some k) None false) (seq 0 (d_cols d))) (map (nb d i))).
    rewrite <- concat_map. apply Permutation_map.
    rewrite (filter_ext (selects d i None None false) (valid d i))
      by (intro; unfold selects; rewrite !andb_true_r; reflexivity).
    rewrite (map_ext _ (fun k => filter (fun c => di d i c =? k) (seq 0 (d_cols d)))).
    + apply classes_perm; auto.
    + intro k. apply filter_ext. intro c. unfold selects. rewrite !andb_true_r. reflexivity.
Qed.

(** Asking for the distance index of the padding returns non-existing sites. *)
Theorem C40_padding_query_refuted :
  exists d i k, wf d /\ i < nsites d /\ k < num_distances d /\
    get_neighbors d i (Some k) None false = Some [nsites d].
Proof. exists chain3, 0, 1. split; [apply chain3_wf|]. split; [unfold nsites; simpl; lia|]. vm_compute. auto. Qed.

Example C40_example :
  wf chain3 /\ iter_neighbors chain3 1 false = Some [(0, [0; 2])] /\
  get_neighbors chain3 1 None None true = Some [2] /\ links chain3 0 = [(1, Fin 1000000)].
Proof. split; [apply chain3_wf|]. repeat split. Qed.

(** ** C41: remove *)

Theorem C41_remove_induced :
  forall d sites kept, wf_core d -> NoDup sites -> (forall s, In s sites -> s < nsites d) ->
    StronglySorted lt kept -> (forall i, In i kept <-> i < nsites d /\ ~ In i sites) ->
    exists d', remove d sites = Some d' /\ wf_core d' /\ nsites d' = length kept /\
      (padded d -> padded d') /\
      forall p, p < length kept ->
        let q := nth p kept 0 in
        nth p (d_indices d') [] = nth q (d_indices d) [] /\
        nth p (d_positions d') [] = nth q (d_positions d) [] /\
        map (fun l => (nth (fst l) kept 0, snd l)) (links d' p) =
          filter (fun l => if in_dec Nat.eq_dec (fst l) sites then false else true) (links d q) /\
        (forall l, In l (links d' p) -> fst l < length kept).
Proof.
  intros d sites kept W Hnd Hlt Hs Hk. pose proof (kept_unique _ _ _ Hs Hk) as Ek.
  destruct (remove_spec d sites kept W Hnd Hlt Ek) as
    (d' & E & Edim & Ecols & Eind & Epos & Edv & Einv & Eii & Rn & Rd & _ & _ & _ & _ & H).
  exists d'. split; auto.
  assert (nsites d' = length kept) as En by (unfold nsites; rewrite Eind; apply map_length).
  pose proof (inf_last _ _ (wf_distvals _ W) (wf_invalid _ W)) as Hlast.
  assert (forall p, p < length kept -> nth p kept 0 < nsites d) as Hq.
  { intros p Hp. apply (Hk (nth p kept 0)). apply nth_In. auto. }
  (* validity of the slots *)
  assert (forall p c, p < length kept -> c < d_cols d ->
            valid d' p c = valid d (nth p kept 0) c &&
              (if in_dec Nat.eq_dec (nb d (nth p kept 0) c) sites then false else true)) as Hv.
  { intros p c Hp Hc. destruct (H p c Hp Hc) as [H1 [H2 [H3 H4]]]. unfold valid. rewrite Einv.
    destruct (in_dec Nat.eq_dec (nb d (nth p kept 0) c) sites) as [Hin|Hin].
    - destruct (H1 Hin) as [_ ->]. rewrite Nat.ltb_irrefl, andb_false_r. reflexivity.
    - rewrite (H3 Hin), andb_true_r. reflexivity. }
  split; [|split; [exact En|split]].
  - constructor; rewrite ?En, ?Edim, ?Ecols, ?Edv, ?Einv; auto; try apply W.
    + rewrite Eind. split; [apply map_length|]. intros r Hr. apply in_map_iff in Hr. destruct Hr as [i [<- Hi]].
      apply (rect_nth _ _ _ _ (wf_indices _ W)). apply Hk. auto.
    + rewrite Epos. split; [apply map_length|]. intros r Hr. apply in_map_iff in Hr. destruct Hr as [i [<- Hi]].
      apply (rect_nth _ _ _ _ (wf_positions _ W)). apply Hk. auto.
    + intros p c Hp Hc. destruct (H p c Hp Hc) as [H1 [H2 [H3 H4]]].
      destruct (in_dec Nat.eq_dec (nb d (nth p kept 0) c) sites) as [Hin|Hin].
      * destruct (H1 Hin) as [_ ->]. lia.
      * rewrite (H3 Hin). apply W; auto.
    + intros p c Hp Hc V. rewrite Hv in V by assumption. apply andb_true_iff in V. destruct V as [V1 V2].
      destruct (H p c Hp Hc) as [H1 [H2 [H3 H4]]].
      destruct (in_dec Nat.eq_dec (nb d (nth p kept 0) c) sites) as [Hin|Hin]; [discriminate|].
      apply H4; auto. apply W; auto.
  - intros Hpad p c Hp Hc V. rewrite En, Ecols in *. rewrite Hv in V by assumption.
    destruct (H p c Hp Hc) as [H1 [H2 [H3 H4]]].
    destruct (in_dec Nat.eq_dec (nb d (nth p kept 0) c) sites) as [Hin|Hin].
    + apply H1. auto.
    + rewrite andb_true_r in V. apply H2. apply Hpad; auto.
  - intros p Hp q. split; [|split; [|split]].
    + rewrite Eind. apply (nth_map_lt (fun i => nth i (d_indices d) []) kept p 0). auto.
    + rewrite Epos. apply (nth_map_lt (fun i => nth i (d_positions d) []) kept p 0). auto.
    + unfold links, valid_slots. rewrite map_filter_comm, filter_filter, map_map, Ecols. simpl.
      rewrite (filter_ext_seq (valid d' p) (fun c => valid d q c &&
        (if in_dec Nat.eq_dec (nb d q c) sites then false else true))) by (intros; apply Hv; auto; lia).
      apply map_ext_in. intros c Hc. apply filter_In in Hc. destruct Hc as [Hc V]. apply in_seq in Hc.
      apply andb_true_iff in V. destruct V as [V1 V2].
      destruct (H p c Hp ltac:(lia)) as [H1 [H2 [H3 H4]]]. fold q in H1, H2, H3, H4.
      destruct (in_dec Nat.eq_dec (nb d q c) sites) as [Hin|Hin]; [discriminate|].
      unfold link_at. rewrite (H3 Hin), Edv. f_equal. apply H4; auto. apply W; auto; try lia. apply Hq; auto.
    + intros l Hin. unfold links, valid_slots in Hin. apply in_map_iff in Hin. destruct Hin as [c [<- Hc]].
      apply filter_In in Hc. destruct Hc as [Hc V]. apply in_seq in Hc. rewrite Ecols in Hc. simpl.
      rewrite Hv in V by (auto; lia). apply andb_true_iff in V. destruct V as [V1 V2].
      destruct (H p c Hp ltac:(lia)) as [H1 [H2 [H3 H4]]]. fold q in V1, V2, H1, H2, H3, H4.
      destruct (in_dec Nat.eq_dec (nb d q c) sites) as [Hin|Hin]; [discriminate|].
      apply H4; auto. apply W; auto; try lia. apply Hq; auto.
Qed.

(** Sites out of range raise an error. *)
Theorem C41_remove_out_of_range :
  forall d sites s, In s sites -> nsites d <= s -> remove d sites = None.
Proof.
  intros d sites s Hin Hs. unfold remove.
  destruct (forallb (fun s => s <? num_sites d) sites) eqn:E; auto. exfalso.
  rewrite forallb_forall in E. specialize (E s Hin). apply Nat.ltb_lt in E.
  change (num_sites d) with (nsites d) in E. lia.
Qed.

Example C41_example :
  wf_core chain3 /\
  exists d', remove chain3 [0] = Some d' /\ nsites d' = 2 /\
    links d' 0 = [(1, Fin 1000000)] /\ links d' 1 = [(0, Fin 1000000)] /\
    get_neighbors d' 0 None None false = Some [1].
Proof. split; [apply chain3_wf|]. eexists. split; [reflexivity|]. repeat split. Qed.

(** A repeated site is removed once but the neighbour indices are shifted twice: site 1 (old 2) becomes a
    neighbour of itself. *)
Definition chain4 : data :=
  mkData 1 2 [[0; 0]; [1; 0]; [2; 0]; [3; 0]]%Z [[0]; [1]; [2]; [3]]%Q [[1; 4]; [0; 2]; [1; 3]; [2; 4]]
    [[0; 1]; [0; 0]; [0; 0]; [0; 1]] [Fin 1000000; Inf]
    [[false; false]; [false; false]; [false; false]; [false; false]]
    [[[0%Z]; [0%Z]]; [[0%Z]; [0%Z]]; [[0%Z]; [0%Z]]; [[0%Z]; [0%Z]]]
    [[[0]; [0]]; [[0]; [0]]; [[0]; [0]]; [[0]; [0]]] 4 1 None.

Theorem C41_duplicates_refuted :
  exists d', remove chain4 [0; 0] = Some d' /\ nsites d' = 3 /\
    get_neighbors d' 1 None None false = Some [0; 1] /\
    (exists d'', remove chain4 [0] = Some d'' /\ get_neighbors d'' 1 None None false = Some [0; 2]).
Proof.
  eexists. split; [reflexivity|]. split; [reflexivity|]. split; [reflexivity|].
  eexists. split; reflexivity.
Qed.

(** ** C42: sort *)

(** Renaming the neighbour of a slot. *)
Definition rename (f : nat -> nat) (s : slot) : slot := mkSlot (f (s_nbr s)) (s_dist s) (s_per s) (s_nvec s) (s_axes s).

Theorem C42_sort_isomorphism :
  forall d idx (reverse : bool), wf d -> Permutation idx (seq 0 (nsites d)) ->
    let old : list nat := if reverse then rev idx else idx in
    exists d', sort d None (Some idx) reverse = Some d' /\ wf d' /\ nsites d' = nsites d /\
      (padded d -> padded d') /\
      forall p, p < nsites d ->
        let q := nth p old 0 in
        nth p (d_indices d') [] = nth q (d_indices d) [] /\
        nth p (d_positions d') [] = nth q (d_positions d) [] /\
        map (rename (fun j => nth j old 0)) (slots d' p) = slots d q /\
        (forall s, In s (slots d' p) -> s_nbr s < nsites d).
Proof.
  intros d idx reverse W HP old.
  exists (sorted_by d old). split; [apply sort_indices; exact HP|].
  assert (perm_of (nsites d) old) as HP'.
  { unfold old. destruct reverse; auto. unfold perm_of. rewrite <- HP. symmetry. apply Permutation_rev. }
  split; [apply sorted_by_wf; auto|].
  destruct (sorted_by_spec d old W HP') as [En [Rn [Rd H]]].
  destruct (perm_facts _ _ HP') as [L1 [L2 L3]].
  split; [exact En|]. split.
  { intros Hpad p c Hp Hc V. rewrite En in *. change (d_cols (sorted_by d old)) with (d_cols d) in Hc.
    destruct (H p c Hp Hc) as [Hq [E [_ F]]]. apply F. apply Hpad; auto. unfold valid in *. rewrite E in V. exact V. }
  intros p Hp q.
  split; [simpl; rewrite nth_take by lia; reflexivity|].
  split; [simpl; rewrite nth_take by lia; reflexivity|].
  assert (forall c, c < d_cols d -> valid (sorted_by d old) p c = valid d q c) as Hv.
  { intros c Hc. destruct (H p c Hp Hc) as [_ [E _]]. unfold valid. rewrite E. reflexivity. }
  split.
  - unfold slots, valid_slots. change (d_cols (sorted_by d old)) with (d_cols d). rewrite map_map.
    rewrite (filter_ext_seq (valid (sorted_by d old) p) (valid d q)) by (intros; apply Hv; lia).
    apply map_ext_in. intros c Hc. apply filter_In in Hc. destruct Hc as [Hc V]. apply in_seq in Hc.
    destruct (H p c Hp ltac:(lia)) as [Hq [E [F _]]]. fold q in Hq, E, F.
    unfold rename, slot_at. cbn [s_nbr s_dist s_per s_nvec s_axes].
    rewrite E. cbn [d_distvals sorted_by]. f_equal.
    + apply F. apply (wf_nb _ W); auto; lia.
    + unfold pm. simpl. apply (sorted_by_cell _ d _ _ _ _ _ (wf_pmask _ W)). lia.
    + simpl. apply (sorted_by_cell _ d _ _ _ _ _ (wf_pnvecs _ W)). lia.
    + simpl. apply (sorted_by_cell _ d _ _ _ _ _ (wf_paxes _ W)). lia.
  - intros s Hs. unfold slots, valid_slots in Hs. apply in_map_iff in Hs. destruct Hs as [c [<- Hc]].
    apply filter_In in Hc. destruct Hc as [Hc V]. apply in_seq in Hc.
    change (d_cols (sorted_by d old)) with (d_cols d) in Hc. rewrite Hv in V by lia.
    destruct (H p c Hp ltac:(lia)) as [Hq [E [F _]]]. simpl. apply F. apply (wf_nb _ W); auto; lia.
Qed.

Theorem C42_sort_axis :
  forall d a reverse, wf d -> a <= d_dim d ->
    exists idx d', Permutation idx (seq 0 (nsites d)) /\
      sort d (Some a) None reverse = Some d' /\ sort d None (Some idx) reverse = Some d' /\
      StronglySorted (fun u v => if reverse then (nth a v 0 <= nth a u 0)%Z else (nth a u 0 <= nth a v 0)%Z)
        (d_indices d').
Proof.
  intros d a reverse W Ha. destruct (sort_axis d a reverse Ha) as [idx [HP [E HS]]].
  exists idx. exists (sorted_by d (if reverse then rev idx else idx)).
  split; [exact HP|]. rewrite E, sort_indices by exact HP. split; [reflexivity|]. split; [reflexivity|].
  cbn [d_indices sorted_by]. unfold take.
  assert (forall l, StronglySorted (fun i j => (nth a (nth i (d_indices d) []) 0 <= nth a (nth j (d_indices d) []) 0)%Z) l ->
            StronglySorted (fun i j => (nth a (nth j (d_indices d) []) 0 <= nth a (nth i (d_indices d) []) 0)%Z) (rev l)) as Hrev.
  { clear. intros l H. induction H as [|x l H IH Hf]; simpl; [constructor|].
    assert (forall (R : nat -> nat -> Prop) l y, StronglySorted R l -> Forall (fun z => R z y) l ->
              StronglySorted R (l ++ [y])) as Happ.
    { clear. intros R l y. induction 1 as [|z l H IH Hf]; intro Hy; simpl; constructor.
      - constructor.
      - constructor.
      - apply IH. inversion Hy; auto.
      - apply Forall_app. split; auto. inversion Hy; auto. }
    apply Happ; auto. rewrite Forall_forall in *. intros z Hz. apply Hf. apply in_rev. auto. }
  destruct reverse.
  - specialize (Hrev _ HS). clear -Hrev. induction Hrev as [|x l H IH Hf]; simpl; constructor; auto.
    rewrite Forall_forall in *. intros v Hv. apply in_map_iff in Hv. destruct Hv as [j [<- Hj]]. auto.
  - clear -HS. induction HS as [|x l H IH Hf]; simpl; constructor; auto.
    rewrite Forall_forall in *. intros v Hv. apply in_map_iff in Hv. destruct Hv as [j [<- Hj]]. auto.
Qed.

Example C42_example :
  wf chain3 /\ Permutation [2; 0; 1] (seq 0 (nsites chain3)) /\
  exists d', sort chain3 None (Some [2; 0; 1]) false = Some d' /\
    d_indices d' = [[2; 0]; [0; 0]; [1; 0]]%Z /\ d_neighbors d' = [[2; 3]; [2; 3]; [1; 0]] /\
    exists d'', sort d' (Some 0) None false = Some d'' /\ d_neighbors d'' = [[1; 3]; [0; 2]; [1; 3]].
Proof.
  split; [apply chain3_wf|]. split.
  { unfold nsites; simpl. apply Permutation_sym. apply (Permutation_trans (l' := [0; 2; 1])).
    - apply perm_skip. apply perm_swap.
    - apply perm_swap. }
  eexists. split; [reflexivity|]. split; [reflexivity|]. split; [reflexivity|]. eexists. split; reflexivity.
Qed.

(** ** C43: sort_neighbors *)

Lemma sorted_prefix {A} (f : A -> bool) (R : A -> A -> Prop) l x :
  StronglySorted R l -> (forall a b, R a b -> f b = true -> f a = true) ->
  forall c, c < length l -> f (nth c l x) = (c <? length (filter f l)).
Proof.
  intros HS HR. induction HS as [|a l H IH Hf]; intros c Hc; simpl in *; [lia|].
  destruct (f a) eqn:E.
  - destruct c as [|c]; simpl; [exact E|]. rewrite IH by lia. reflexivity.
  - rewrite (filter_none f l).
    + simpl. destruct c as [|c]; auto. destruct (f (nth c l x)) eqn:F; auto.
      rewrite Forall_forall in Hf. rewrite (HR a (nth c l x)) in E; auto. apply Hf. apply nth_In. lia.
    + intros y Hy. rewrite Forall_forall in Hf. destruct (f y) eqn:F; auto. rewrite (HR a y) in E; auto.
Qed.

Theorem C43_sort_neighbors :
  forall argsort d i, is_argsort dleb argsort -> wf d -> i < nsites d ->
    let d' := sort_neighbors argsort d in
    wf d' /\ nsites d' = nsites d /\ d_indices d' = d_indices d /\ d_positions d' = d_positions d /\
    Permutation (slots d' i) (slots d i) /\
    StronglySorted (fun a b => dleb (s_dist a) (s_dist b) = true) (slots d' i) /\
    packed_row d' i.
Proof.
  intros argsort d i Harg W Hi d'.
  split; [apply sort_neighbors_wf; auto|]. do 3 (split; [reflexivity|]).
  destruct (sort_neighbors_slots argsort Harg d i W Hi) as [p [HP [Hs [HC E]]]].
  destruct (perm_facts _ _ HP) as [L1 [L2 L3]].
  split; [|split].
  - unfold d'. rewrite E. unfold slots, valid_slots. apply Permutation_map.
    assert (forall l m : list nat, Permutation l m -> Permutation (filter (valid d i) l) (filter (valid d i) m)) as F.
    { induction 1; simpl; auto.
      - destruct (valid d i x); auto.
      - destruct (valid d i x), (valid d i y); auto. constructor.
      - etransitivity; eauto. }
    apply F. exact HP.
  - unfold d'. rewrite E. pose proof (StronglySorted_filter _ (valid d i) _ Hs) as Hs2.
    clear -Hs2. induction Hs2 as [|a l H IH Hf]; simpl; constructor; auto.
    rewrite Forall_forall in *. intros s Hin. apply in_map_iff in Hin. destruct Hin as [b [<- Hb]]. apply Hf. auto.
  - exists (length (filter (valid d i) p)). split.
    + change (d_cols d') with (d_cols d). rewrite <- L1. clear. induction p as [|x p IH]; simpl; auto.
      destruct (valid d i x); simpl; lia.
    + change (d_cols d') with (d_cols d). intros c Hc. destruct (HC c Hc) as [_ [HE _]]. fold d' in HE. rewrite HE.
      assert (StronglySorted (fun a b => a < d_cols d /\ b < d_cols d /\
        dleb (nth (di d i a) (d_distvals d) Inf) (nth (di d i b) (d_distvals d) Inf) = true) p) as Hs3.
      { assert (forall a, In a p -> a < d_cols d) as Hin by (intros; apply L3; auto).
        clear -Hs Hin. induction Hs as [|a l H IH Hf]; constructor.
        - apply IH. intros; apply Hin; right; auto.
        - rewrite Forall_forall in *. intros b Hb. split; [apply Hin; left; auto|].
          split; [apply Hin; right; auto|auto]. }
      apply (sorted_prefix _ _ p 0 Hs3); [|lia].
      intros a b [Ha [Hb Hle]] Vb. pose proof (wf_c _ W) as C.
      apply (valid_lt d i b C Hi Hb) in Vb. destruct Vb as [z Hz].
      rewrite (nth_of_nth_error _ _ Inf _ Hz) in Hle.
      destruct (nth_error_lt _ _ (wf_di _ C i a Hi Ha)) as [y Hy].
      rewrite (nth_of_nth_error _ _ Inf _ Hy) in Hle.
      destruct y as [z'|]; [|discriminate]. apply (valid_lt d i a C Hi Ha). eauto.
Qed.

(** A stable insertion sort is an admissible [argsort]. *)
Lemma stable_is_argsort {A} (leb : A -> A -> bool) (x0 : A) :
  (forall x y, leb x y = true \/ leb y x = true) ->
  (forall x y z, leb x y = true -> leb y z = true -> leb x z = true) ->
  is_argsort leb (argsort_stable leb x0).
Proof.
  intros Ht Htr keys. split; [apply argsort_stable_perm|]. intro x.
  assert (StronglySorted (fun i j => leb (nth i keys x0) (nth j keys x0) = true) (argsort_stable leb x0 keys)) as H.
  { apply (sort_stable_sorted (fun i j => leb (nth i keys x0) (nth j keys x0))); eauto. }
  assert (forall i, In i (argsort_stable leb x0 keys) -> i < length keys) as Hin.
  { intros i Hi. apply (Permutation_in _ (argsort_stable_perm leb x0 keys)) in Hi. apply in_seq in Hi. lia. }
  revert H Hin. generalize (argsort_stable leb x0 keys). induction 1 as [|i l Hl IH Hf]; intro Hin; constructor.
  - apply IH. intros; apply Hin; right; auto.
  - rewrite Forall_forall in *. intros j Hj. specialize (Hf j Hj).
    rewrite (nth_indep keys x x0), (nth_indep keys x x0) by (apply Hin; simpl; auto). exact Hf.
Qed.

Definition dist_argsort : list dist -> list nat := argsort_stable dleb Inf.

Lemma dist_argsort_ok : is_argsort dleb dist_argsort.
Proof. apply stable_is_argsort; [apply dleb_total|apply dleb_trans]. Qed.

Example C43_example :
  is_argsort dleb dist_argsort /\
  exists d, data_set [[0; 0]; [1; 0]]%Z [[0]; [1]]%Q [[2; 1]; [2; 0]] [[Inf; Fin 5]; [Inf; Fin 5]] = Some d /\
    d_neighbors (sort_neighbors dist_argsort d) = [[1; 2]; [0; 2]].
Proof. split; [apply dist_argsort_ok|]. eexists. split; reflexivity. Qed.

(** ** C44: add_neighbors *)

Theorem C44_add_neighbor :
  forall d i j v, wf d -> i < nsites d -> j < nsites d -> packed_row d i ->
    (exists c, c < d_cols d /\ valid d i c = false) -> In v (d_distvals d) -> v <> Inf ->
    exists d', add_neighbor d i j v = Some d' /\ wf d' /\ nsites d' = nsites d /\
      links d' i = links d i ++ [(j, v)] /\
      (forall i', i' < nsites d -> i' <> i -> links d' i' = links d i') /\
      d_indices d' = d_indices d /\ d_positions d' = d_positions d /\ d_pmask d' = d_pmask d.
Proof.
  intros d i j v W Hi Hj [m [Hm Hpk]] [c0 [Hc0 Hv0]] Hv Hinf. pose proof (wf_c _ W) as C.
  assert (m < d_cols d) as Hml.
  { rewrite Hpk in Hv0 by assumption. apply Nat.ltb_ge in Hv0. lia. }
  destruct (add_neighbor_wf d i j v W Hi Hj Hv Hinf) as [d'' [E'' [W'' _]]].
  apply In_nth_error in Hv. destruct Hv as [k Hk].
  destruct (add_neighbor_spec d i j v k m C Hi Hj Hml Hpk Hk Hinf) as
    (d' & E & Edim & Ecols & Eind & Epos & Edv & Eii & Einv & Epm & Env & Eax & Edm & Rn & Rd & H).
  assert (d'' = d') as -> by congruence.
  exists d'. split; auto. split; auto. split; [unfold nsites; congruence|].
  pose proof (inf_last _ _ (wf_distvals _ C) (wf_invalid _ C)) as Hl.
  assert (k < d_invalid_distidx d) as Hkl.
  { pose proof (nth_error_length_lt _ _ _ Hk). destruct (Nat.eq_dec k (d_invalid_distidx d)) as [->|]; [|lia].
    pose proof (wf_invalid _ C). congruence. }
  split; [|split].
  - unfold links, valid_slots. rewrite Ecols.
    rewrite (count_prefix (valid d' i) (d_cols d) (S m)); [|lia|].
    2:{ intros c Hc. unfold valid. rewrite Einv. destruct (H i c Hi Hc) as [_ ->]. rewrite Nat.eqb_refl. simpl.
        destruct (c =? m) eqn:E1.
        - apply Nat.eqb_eq in E1. subst. rewrite (proj2 (Nat.ltb_lt k _) Hkl). symmetry. apply Nat.ltb_lt. lia.
        - apply Nat.eqb_neq in E1. pose proof (Hpk c Hc) as P. unfold valid in P. rewrite P.
          destruct (c <? m) eqn:E2; symmetry; [apply Nat.ltb_lt in E2; apply Nat.ltb_lt; lia|].
          apply Nat.ltb_ge in E2. apply Nat.ltb_ge. lia. }
    rewrite (count_prefix (valid d i) (d_cols d) m) by (auto; lia).
    rewrite seq_S, map_app. cbn [map Nat.add]. f_equal.
    + apply map_ext_in_seq. intros c _ Hc. unfold link_at. rewrite Edv.
      destruct (H i c Hi ltac:(lia)) as [-> ->]. rewrite (proj2 (Nat.eqb_neq c m)) by lia.
      rewrite andb_false_r. reflexivity.
    + unfold link_at. rewrite Edv. destruct (H i m Hi Hml) as [-> ->]. rewrite !Nat.eqb_refl. simpl.
      rewrite (nth_of_nth_error _ _ Inf _ Hk). reflexivity.
  - intros i' Hi' Hne. unfold links, valid_slots. rewrite Ecols.
    assert (forall c, c < d_cols d -> nb d' i' c = nb d i' c /\ di d' i' c = di d i' c) as Hs.
    { intros c Hc. destruct (H i' c Hi' Hc) as [H1 H2]. rewrite (proj2 (Nat.eqb_neq i' i) Hne) in H1, H2. auto. }
    rewrite (filter_ext_seq (valid d' i') (valid d i')).
    2:{ intros c _ Hc. unfold valid. rewrite Einv. destruct (Hs c ltac:(lia)) as [_ ->]. reflexivity. }
    apply map_ext_in. intros c Hc. apply filter_In in Hc. destruct Hc as [Hc _]. apply in_seq in Hc.
    unfold link_at. rewrite Edv. destruct (Hs c ltac:(lia)) as [-> ->]. reflexivity.
  - auto.
Qed.

(** On a full row nothing happens, without an error. *)
Theorem C44_full_row_dropped :
  forall d i j v, wf_core d -> i < nsites d -> (forall c, c < d_cols d -> valid d i c = true) ->
    add_neighbor d i j v = Some d.
Proof. apply add_neighbor_full. Qed.

Example C44_example :
  wf chain3 /\ packed_row chain3 0 /\
  exists d', add_neighbor chain3 0 2 (Fin 1000000) = Some d' /\
    get_neighbors d' 0 None None false = Some [1; 2] /\
    add_neighbor d' 0 1 (Fin 1000000) = Some d'.
Proof.
  split; [apply chain3_wf|]. split.
  - exists 1. split; [simpl; lia|]. intros [|[|c]] Hc; simpl in *; try lia; reflexivity.
  - eexists. split; [reflexivity|]. split; reflexivity.
Qed.

(** An unknown distance gets the index of the next larger one: 1.5 becomes padding. *)
Theorem C44_unknown_distance_refuted :
  exists d', add_neighbor chain3 0 2 (Fin 1500000) = Some d' /\ get_neighbors d' 0 None None false = Some [1] /\
    (exists d2 d2', data_set [[0; 0]; [1; 0]; [2; 0]]%Z [[0]; [1]; [3]]%Q [[1; 3]; [0; 2]; [1; 3]]
         [[Fin 1000000; Inf]; [Fin 1000000; Fin 2000000]; [Fin 2000000; Inf]] = Some d2 /\
       add_neighbor d2 0 2 (Fin 1500000) = Some d2' /\ In (2, Fin 2000000) (links d2' 0)).
Proof.
  eexists. split; [reflexivity|]. split; [reflexivity|]. eexists. eexists. split; [reflexivity|].
  split; [reflexivity|]. vm_compute. auto.
Qed.

(** ** C45: append *)

Theorem C45_append_disjoint_union :
  forall argsort w1 w2 w3 d e, is_argsort dleb argsort -> wf d -> wf_core e -> d_dim e = d_dim d ->
    0 < nsites d -> 0 < nsites e -> 0 < d_cols e -> has_padding d e ->
    length (d_distvals d) + length (d_distvals e) <= 256 ->
    exists d', append_data argsort w1 w2 w3 d e = Some d' /\ wf d' /\
      nsites d' = nsites d + nsites e /\
      d_indices d' = d_indices d ++ d_indices e /\ d_positions d' = d_positions d ++ d_positions e /\
      (forall i, i < nsites d -> Permutation (links d' i) (links d i)) /\
      (forall i, i < nsites e -> Permutation (links d' (nsites d + i))
         (map (fun l => (nsites d + fst l, snd l)) (links e i))) /\
      (forall i, i < nsites d' -> StronglySorted (fun a b => dleb (snd a) (snd b) = true) (links d' i)) /\
      (forall i, i < nsites d' -> forall s, In s (slots d' i) -> s_per s = false).
Proof.
  intros argsort w1 w2 w3 d e Harg Wd We Hdim Hd0 He0 Hc0 Hpad Hlen.
  destruct (append_spec argsort Harg w1 w2 w3 d e Wd We Hdim Hd0 He0 Hc0 Hpad Hlen (proj1 (wf_pmask _ Wd))) as
    (d' & E & W & _ & En & Ei & Ep & _ & H1 & H2 & H3 & H4 & _).
  exists d'. auto 10.
Qed.

Definition uint8 (n : nat) : nat := n mod 256.

Example C45_example :
  wf chain3 /\ wf_core chain3 /\ has_padding chain3 chain3 /\
  exists d', append_data dist_argsort uint8 uint8 uint8 chain3 chain3 = Some d' /\
    links d' 1 = [(0, Fin 1000000); (2, Fin 1000000)] /\ links d' 4 = [(3, Fin 1000000); (5, Fin 1000000)].
Proof.
  split; [apply chain3_wf|]. split; [apply chain3_wf|]. split.
  - left. exists 0, 1. split; [unfold nsites; simpl; lia|]. split; [simpl; lia|reflexivity].
  - eexists. split; [reflexivity|]. split; reflexivity.
Qed.

(** Periodic neighbours of the first part stay as ordinary neighbours (here of a ring of three sites), the caller's
    object is changed, and if all slots are occupied the neighbours of all sites vanish. *)
Definition ring3_entries : list (nat * list pneighbor) :=
  [(0, [mkPN 2 (Fin 1000000) [1%Z] [0]]); (2, [mkPN 0 (Fin 1000000) [(-1)%Z] [0]])].

Definition ring3 : data := Eval vm_compute in match set_periodic chain3 ring3_entries with Some d => d | None => chain3 end.
Lemma ring3_set : set_periodic chain3 ring3_entries = Some ring3.
Proof. vm_compute. reflexivity. Qed.

Theorem C45_periodic_survives_refuted :
  set_periodic chain3 ring3_entries = Some ring3 /\
  exists d', append_data dist_argsort uint8 uint8 uint8 ring3 chain3 = Some d' /\
    get_neighbors d' 0 None None false = Some [1; 2] /\ get_neighbors d' 0 None (Some false) false = Some [1; 2].
Proof. split; [apply ring3_set|]. apply ex_some. vm_compute. auto. Qed.

Theorem C45_full_tables_refuted :
  set_periodic chain3 ring3_entries = Some ring3 /\
  exists d', append_data dist_argsort uint8 uint8 uint8 ring3 ring3 = Some d' /\ nsites d' = 6 /\
    Forall (fun i => get_neighbors d' i None None false = Some []) (seq 0 6).
Proof. split; [apply ring3_set|]. apply ex_some. vm_compute. auto 10. Qed.

Theorem C45_argument_changed_refuted :
  wf chain3 /\ append_argument uint8 uint8 uint8 true chain3 chain3 <> chain3 /\
  get_neighbors (append_argument uint8 uint8 uint8 true chain3 chain3) 0 None None false = Some [4].
Proof. split; [apply chain3_wf|]. split; [vm_compute; discriminate|reflexivity]. Qed.

(** In general: sites, distances and periodic data of the argument stay; its neighbours are shifted by the number of sites of the first
    object if the integer types agree, and are kept otherwise. *)
Theorem C45_argument_after :
  forall w1 w2 w3 s d e i e', wf_core e -> i < nsites e -> e' = append_argument w1 w2 w3 s d e ->
    links e' i = map (fun l => (if s then fst l + nsites d else fst l, snd l)) (links e i) /\
    d_indices e' = d_indices e /\ d_positions e' = d_positions e /\ d_distvals e' = d_distvals e /\
    map s_per (slots e' i) = map s_per (slots e i) /\ map s_nvec (slots e' i) = map s_nvec (slots e i) /\
    map s_axes (slots e' i) = map s_axes (slots e i) /\ d_invalid_idx e' = d_invalid_idx e.
Proof.
  intros w1 w2 w3 s d e i e' W Hi ->.
  assert (valid_slots (append_argument w1 w2 w3 s d e) i = valid_slots e i) as Hv by reflexivity.
  assert (forall c, In c (valid_slots e i) -> nb (append_argument w1 w2 w3 s d e) i c = if s then nb e i c + nsites d else nb e i c) as Hn.
  { intros c Hc. unfold valid_slots in Hc. apply filter_In in Hc. destruct Hc as [Hc V]. apply in_seq in Hc.
    pose proof (wf_nb _ W i c Hi ltac:(lia) V) as Hlt. destruct (wf_neighbors _ W) as [L1 L2].
    assert (length (nth i (d_neighbors e) []) = d_cols e) as Hr by (apply L2, nth_In; lia).
    unfold nb, cell in *. unfold append_argument, append_arrays. cbn [fst d_neighbors]. unfold num_sites. fold (nsites d) (nsites e).
    destruct s.
    - rewrite map_map. rewrite (nth_map_lt _ _ i [] []) by lia. rewrite map_map, (nth_map_lt _ _ c 0 0) by lia.
      destruct (Nat.eqb_spec (nth c (nth i (d_neighbors e) []) 0) (nsites e)); [lia|].
      destruct (Nat.eqb_spec (nth c (nth i (d_neighbors e) []) 0) (nsites d + nsites e)); [lia|]. reflexivity.
    - rewrite (nth_map_lt _ _ i [] []) by lia. rewrite (nth_map_lt _ _ c 0 0) by lia.
      destruct (Nat.eqb_spec (nth c (nth i (d_neighbors e) []) 0) (nsites e)); [lia|]. reflexivity. }
  split; [|repeat split; unfold slots; rewrite Hv, !map_map; reflexivity].
  unfold links. rewrite Hv, map_map. apply map_ext_in. intros c Hc. unfold link_at. cbn [fst snd]. rewrite Hn by auto. destruct s; reflexivity.
Qed.

Example C45_argument_after_example :
  wf_core chain3 /\ 1 < nsites chain3 /\ map fst (links chain3 1) = [0; 2] /\
  map fst (links (append_argument uint8 uint8 uint8 true chain3 chain3) 1) = [3; 5] /\
  map fst (links (append_argument uint8 uint8 uint8 false chain3 chain3) 1) = [0; 2].
Proof. split; [apply chain3_wf|]. split; [vm_compute; lia|]. repeat split; reflexivity. Qed.

Theorem C45_copy_drops_periodic_refuted :
  exists ring, set_periodic chain3 ring3_entries = Some ring /\
    get_neighbors ring 0 None None false = Some [1; 2] /\
    get_neighbors (append_copy_self ring) 0 None None false = Some [1].
Proof. apply ex_some. vm_compute. auto. Qed.

(** ** C46: periodic neighbours *)

(** The assignment is admissible: distinct existing sites, existing neighbours at known distances, enough room. *)
Definition fits (d : data) (entries : list (nat * list pneighbor)) : Prop :=
  NoDup (map fst entries) /\
  forall i pn, In (i, pn) entries ->
    i < nsites d /\ length (regular_links d i) + length pn <= d_cols d /\ Forall (pn_ok d) pn.

Lemma remove_periodic_links d i : wf d -> i < nsites d -> links (remove_periodic d) i = regular_links d i.
Proof.
  intros W Hi. destruct (remove_periodic_spec d W) as [_ H].
  unfold links, regular_links, slots, valid_slots. rewrite map_filter_comm, filter_filter, map_map.
  change (d_cols (remove_periodic d)) with (d_cols d).
  rewrite (filter_ext_seq (valid (remove_periodic d) i) (fun c => valid d i c && negb (s_per (slot_at d i c)))).
  2:{ intros c _ Hc. destruct (H i c Hi Hc) as [_ [_ [-> _]]]. rewrite andb_comm. reflexivity. }
  apply map_ext_in. intros c Hc. apply filter_In in Hc. destruct Hc as [Hc V]. apply in_seq in Hc.
  apply andb_true_iff in V. destruct V as [_ V]. apply negb_true_iff in V. simpl in V.
  destruct (H i c Hi ltac:(lia)) as [E1 [E2 _]]. unfold link_at. rewrite E1, E2, V. reflexivity.
Qed.

Lemma layered_fresh d i : wf d -> i < nsites d -> layered_row d i ->
  fresh (remove_periodic d) i (length (regular_links d i)).
Proof.
  intros W Hi [r [m [Hrm [Hm HL]]]]. destruct (remove_periodic_spec d W) as [_ H].
  assert (forall c, c < d_cols d -> valid (remove_periodic d) i c = (c <? r)) as Hv.
  { intros c Hc. destruct (H i c Hi Hc) as [_ [_ [-> _]]]. destruct (HL c Hc) as [-> ->].
    destruct (Nat.leb_spec r c), (Nat.ltb_spec c m), (Nat.ltb_spec c r); simpl; auto; lia. }
  assert (length (regular_links d i) = r) as ->.
  { rewrite <- remove_periodic_links by assumption. unfold links, valid_slots.
    change (d_cols (remove_periodic d)) with (d_cols d).
    rewrite (count_prefix _ _ r) by (auto; lia). rewrite map_length, seq_length. reflexivity. }
  split; [simpl; lia|]. change (d_cols (remove_periodic d)) with (d_cols d).
  change (d_dim (remove_periodic d)) with (d_dim d). intros c Hc.
  destruct (H i c Hi Hc) as [_ [_ [_ [E1 [_ E2]]]]]. rewrite E1, E2. auto.
Qed.

Theorem C46_set_periodic :
  forall d entries, wf d -> layered d -> fits d entries ->
    exists d', set_periodic d entries = Some d' /\ wf d' /\ layered d' /\ nsites d' = nsites d /\
      d_indices d' = d_indices d /\ d_positions d' = d_positions d /\ (padded d -> padded d') /\
      forall i, i < nsites d ->
        regular_links d' i = regular_links d i /\
        filter (fun s => s_per s) (slots d' i) = map (pslot (d_dim d)) (given entries i) /\
        get_neighbors d' i None (Some true) false = Some (map pn_idx (given entries i)) /\
        get_neighbors d' i None (Some false) false = Some (map fst (regular_links d i)) /\
        links (remove_periodic d') i = regular_links d i.
Proof.
  intros d entries W HLay [Hnd Hfit]. unfold set_periodic, call_remove_periodic.
  rewrite (proj1 (wf_pmask _ W)), (proj1 (wf_neighbors _ W)), Nat.eqb_refl.
  destruct (remove_periodic_spec d W) as [W0 H0].
  set (d0 := remove_periodic d) in *.
  set (m := fun i => length (regular_links d i)).
  assert (nsites d0 = nsites d) as En0 by reflexivity.
  destruct (set_periodic_loop_spec entries d0 m W0 Hnd) as
    (d' & E & W' & Edim & Ecols & Eind & Epos & Edv & Einv & Edm & Hall).
  { intros i pn Hin. destruct (Hfit i pn Hin) as [Hi [Hf Hok]].
    split; auto. split; [apply layered_fresh; auto|]. split; [exact Hf|].
    eapply Forall_impl; [|exact Hok]. intros p [O1 [O2 [O3 [O4 O5]]]]. unfold pn_ok. auto. }
  exists d'. split; [exact E|]. split; [exact W'|].
  assert (nsites d' = nsites d) as En by (unfold nsites; rewrite Eind; reflexivity).
  assert (forall i, i < nsites d -> fresh d0 i (m i)) as Hfresh.
  { intros i Hi. apply layered_fresh; auto. }
  split.
  { intros i Hi. rewrite En in Hi. destruct (Hall i Hi) as [_ [A2 [A3 _]]]. destruct (Hfresh i Hi) as [F1 F2].
    unfold layered_row. rewrite Ecols. change (d_cols d0) with (d_cols d) in *.
    destruct (in_dec Nat.eq_dec i (map fst entries)) as [Hin|Hin].
    - exists (m i), (m i + length (given entries i)). split; [lia|]. split.
      + apply in_map_iff in Hin. destruct Hin as [[i' pn] [Ei Hin]]. simpl in Ei. subst i'.
        rewrite (given_in _ _ _ Hnd Hin). apply (Hfit i pn Hin).
      + intros c Hc. apply A3; auto.
    - exists (m i), (m i). split; [lia|]. split; [exact F1|]. intros c Hc.
      destruct (A2 Hin c Hc) as [B1 B2]. destruct (F2 c Hc) as [G1 [G2 _]]. split; [congruence|].
      pose proof (f_equal s_per B1) as B3. simpl in B3. rewrite B3, G2. symmetry. apply andb_false_iff.
      rewrite Nat.leb_gt, Nat.ltb_ge. lia. }
  split; [exact En|]. split; [rewrite Eind; reflexivity|]. split; [rewrite Epos; reflexivity|].
  split.
  { intros Hpad i c Hi Hc Hv. rewrite En, Ecols in *. change (d_cols d0) with (d_cols d) in Hc.
    destruct (Hall i Hi) as [_ [_ [_ A4]]]. rewrite (A4 c Hc Hv).
    destruct (H0 i c Hi Hc) as [-> [_ [V0 _]]]. destruct (pm d i c) eqn:Ep; auto. apply Hpad; auto.
    (* the slot was padding before *)
    destruct (Hall i Hi) as [_ [A2 [A3 _]]]. destruct (Hfresh i Hi) as [F1 F2].
    destruct (in_dec Nat.eq_dec i (map fst entries)) as [Hin|Hin].
    - destruct (A3 Hin c Hc) as [A5 _]. rewrite A5 in Hv. apply Nat.ltb_ge in Hv.
      destruct (F2 c Hc) as [G1 _]. rewrite V0 in G1. simpl in G1. rewrite G1. apply Nat.ltb_ge. lia.
    - destruct (A2 Hin c Hc) as [_ A5]. rewrite A5, V0 in Hv. exact Hv. }
  intros i Hi. destruct (Hall i Hi) as [A1 _]. change (d_dim d0) with (d_dim d) in A1.
  destruct (remove_periodic_spec d' W') as [_ H'].
  assert (forall s, In s (slots d0 i) -> s_per s = false) as Hreg.
  { intros s Hs. unfold slots, valid_slots in Hs. apply in_map_iff in Hs. destruct Hs as [c [<- Hc]].
    apply filter_In in Hc. destruct Hc as [Hc _]. apply in_seq in Hc. simpl.
    apply (H0 i c); auto. change (d_cols d0) with (d_cols d) in Hc. lia. }
  assert (regular_links d' i = regular_links d i) as Er.
  { unfold regular_links at 1. rewrite A1, filter_app, map_app.
    rewrite (filter_none _ (map (pslot (d_dim d)) _)).
    2:{ intros s Hs. apply in_map_iff in Hs. destruct Hs as [p [<- _]]. reflexivity. }
    rewrite filter_all by (intros s Hs; rewrite (Hreg s Hs); reflexivity).
    rewrite app_nil_r. rewrite <- remove_periodic_links by assumption. fold d0. unfold links, slots.
    rewrite map_map. reflexivity. }
  assert (filter (fun s => s_per s) (slots d' i) = map (pslot (d_dim d)) (given entries i)) as Ep.
  { rewrite A1, filter_app. rewrite filter_none by (intros s Hs; apply Hreg; auto).
    apply filter_all. intros s Hs. apply in_map_iff in Hs. destruct Hs as [p [<- _]]. reflexivity. }
  split; [exact Er|]. split; [exact Ep|].
  destruct (C40_periodic_split d' i W' ltac:(lia)) as (reg & per & G1 & G2 & G3 & G4 & _).
  split; [rewrite G2, G4, Ep, map_map; reflexivity|].
  split; [rewrite G1, G3, <- Er; unfold regular_links; rewrite map_map; reflexivity|].
  rewrite remove_periodic_links by (auto; lia). exact Er.
Qed.

Theorem C46_remove_periodic :
  forall d i, wf d -> i < nsites d ->
    wf (remove_periodic d) /\ links (remove_periodic d) i = regular_links d i /\
    get_neighbors (remove_periodic d) i None (Some true) false = Some [].
Proof.
  intros d i W Hi. destruct (remove_periodic_spec d W) as [W0 H]. split; auto.
  split; [apply remove_periodic_links; auto|].
  rewrite get_neighbors_wf by auto. rewrite filter_none; auto. intros c Hc. apply in_seq in Hc.
  unfold selects. destruct (H i c Hi ltac:(simpl in Hc; lia)) as [_ [_ [_ [-> _]]]]. simpl. apply andb_false_r.
Qed.

Example C46_example :
  wf chain3 /\ layered chain3 /\ fits chain3 ring3_entries /\
  exists ring, set_periodic chain3 ring3_entries = Some ring /\
    get_neighbors ring 0 None None false = Some [1; 2] /\
    get_neighbors ring 0 None (Some true) false = Some [2] /\
    get_neighbors (remove_periodic ring) 0 None None false = Some [1].
Proof.
  split; [apply chain3_wf|]. split; [|split].
  - intros i Hi. unfold nsites in Hi. simpl in Hi. destruct i as [|[|[|]]]; try lia.
    + exists 1, 1. split; [lia|]. split; [simpl; lia|]. intros [|[|c]] Hc; simpl in *; try lia; auto.
    + exists 2, 2. split; [lia|]. split; [simpl; lia|]. intros [|[|c]] Hc; simpl in *; try lia; auto.
    + exists 1, 1. split; [lia|]. split; [simpl; lia|]. intros [|[|c]] Hc; simpl in *; try lia; auto.
  - split.
    + simpl. repeat constructor; simpl; intuition discriminate.
    + intros i pn [E|[E|[]]]; injection E as <- <-; (split; [unfold nsites; simpl; lia|]);
        (split; [vm_compute; lia|]); repeat constructor; unfold nsites; simpl; try lia; try discriminate.
  - eexists. split; [reflexivity|]. split; [reflexivity|]. split; reflexivity.
Qed.

(** A second periodic neighbour of a full row raises an error after a part of the row has been processed, a single one
    is dropped silently. *)
Theorem C46_full_row_refuted :
  exists d, set_periodic chain3 [(1, [mkPN 0 (Fin 1000000) [1%Z] [0]])] = Some d /\
    get_neighbors d 1 None (Some true) false = Some [] /\
    set_periodic chain3 [(1, [mkPN 0 (Fin 1000000) [1%Z] [0]; mkPN 2 (Fin 1000000) [1%Z] [0]])] = None.
Proof. apply ex_some. vm_compute. auto. Qed.

(** After [sort_neighbors] periodic neighbours may precede regular ones; setting periodic neighbours again then
    overwrites a regular neighbour. *)
Definition gap : data := Eval vm_compute in
  match data_set [[0; 0]; [1; 0]; [2; 0]]%Z [[0]; [2]; [3]]%Q [[1; 3]; [0; 2]; [1; 3]]
    [[Fin 2000000; Inf]; [Fin 2000000; Fin 1000000]; [Fin 1000000; Inf]] with Some d => d | None => chain3 end.
Definition gap_entries : list (nat * list pneighbor) := [(0, [mkPN 2 (Fin 1000000) [1%Z] [0]])].

Lemma gap_wf : wf gap.
Proof.
  refine (proj1 (data_set_wf [[0; 0]; [1; 0]; [2; 0]]%Z [[0]; [2]; [3]]%Q [[1; 3]; [0; 2]; [1; 3]]
    [[Fin 2000000; Inf]; [Fin 2000000; Fin 1000000]; [Fin 1000000; Inf]] 3 1 2 gap _ _ _ _ _ _ _ _ eq_refl)).
  - lia.
  - split; [reflexivity|]. simpl. intuition (subst; reflexivity).
  - split; [reflexivity|]. simpl. intuition (subst; reflexivity).
  - split; [reflexivity|]. simpl. intuition (subst; reflexivity).
  - split; [reflexivity|]. simpl. intuition (subst; reflexivity).
  - simpl. auto.
  - vm_compute. repeat constructor.
  - intros i c Hi Hc. destruct i as [|[|[|]]]; try lia; destruct c as [|[|]]; try lia;
      unfold cell; simpl; intro H; try lia; congruence.
Qed.

Theorem C46_not_layered_refuted :
  wf gap /\ get_neighbors gap 0 None (Some false) false = Some [1] /\
  exists d1, set_periodic gap gap_entries = Some d1 /\
  exists d2, set_periodic (sort_neighbors dist_argsort d1) gap_entries = Some d2 /\
    get_neighbors d2 0 None (Some false) false = Some [].
Proof.
  split; [apply gap_wf|]. split; [reflexivity|].
  assert (forall (o : option data) (f : data -> option data) (P : data -> Prop),
    match o with Some x => match f x with Some y => P y | None => False end | None => False end ->
    exists x, o = Some x /\ exists y, f x = Some y /\ P y) as H.
  { intros o f P H. apply ex_some. destruct o; auto. apply ex_some. exact H. }
  apply (H (set_periodic gap gap_entries) (fun d1 => set_periodic (sort_neighbors dist_argsort d1) gap_entries)).
  vm_compute. auto.
Qed.

Print Assumptions C39_set_neighbors.
Print Assumptions C39_no_padding_refuted.
Print Assumptions C40_all_neighbors.
Print Assumptions C40_by_distance.
Print Assumptions C40_periodic_split.
Print Assumptions C40_iter_neighbors.
Print Assumptions C40_padding_query_refuted.
Print Assumptions C41_remove_induced.
Print Assumptions C41_remove_out_of_range.
Print Assumptions C41_duplicates_refuted.
Print Assumptions C42_sort_isomorphism.
Print Assumptions C42_sort_axis.
Print Assumptions C43_sort_neighbors.
Print Assumptions C44_add_neighbor.
Print Assumptions C44_full_row_dropped.
Print Assumptions C44_unknown_distance_refuted.
Print Assumptions C45_append_disjoint_union.
Print Assumptions C45_periodic_survives_refuted.
Print Assumptions C45_full_tables_refuted.
Print Assumptions C45_argument_changed_refuted.
Print Assumptions C45_copy_drops_periodic_refuted.
Print Assumptions C46_set_periodic.
Print Assumptions C46_remove_periodic.
Print Assumptions C46_full_row_refuted.
Print Assumptions C46_not_layered_refuted.
Print Assumptions C45_argument_after.
