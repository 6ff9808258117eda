(** * C54, C55, C56: pairs, look-ups and neighbour checks of a built lattice *)
From Coq Require Import String List ZArith QArith Qabs Bool Arith Lia Lqa Permutation Sorting.Sorted.
From Verif Require Import Np NpFacts LinAlg LinFacts SpecUtils StructureModel DataModel SpecData DataFacts DataProofs DataOps DataMapProofs PropDataMap
  LatticeModel SpecLattice LatticeFacts LatticeExamples.
Import ListNotations.
Open Scope nat_scope.
Open Scope list_scope.

(** ** C55: super-index look-ups *)

Lemma index_match i ind : length i = length ind ->
  forallb (fun p => (fst p =? snd p)%Z) (combine i ind) = true <-> i = ind.
Proof.
  revert ind. induction i as [|x i IH]; intros [|y ind]; cbn; intro H; try discriminate; [split; auto|].
  rewrite andb_true_iff, Z.eqb_eq, IH by lia. split; [intros [-> ->]; auto|]. intro E. injection E. auto.
Qed.

Theorem C55_from_index :
  forall l ind, (forall r, In r (lt_indices l) -> length r = length ind) ->
    (forall i, superindex_from_index l ind = Some i <-> first (fun k => nth_error (lt_indices l) k = Some ind) i) /\
    (superindex_from_index l ind = None <-> ~ In ind (lt_indices l)).
Proof.
  intros l ind Hl. unfold superindex_from_index. cbv zeta.
  set (f := fun i => forallb (fun p => (fst p =? snd p)%Z) (combine i ind)).
  assert (forall k, nth k (map f (lt_indices l)) false = true <-> nth_error (lt_indices l) k = Some ind) as Hm.
  { intro k. rewrite nth_map_false. split.
    - intros [x [E H]]. apply index_match in H; [congruence|]. apply Hl. eapply nth_error_In; eauto.
    - intro E. exists ind. split; auto. apply index_match; auto. }
  split.
  - intro i. rewrite where_hd. unfold first. rewrite Hm. split; intros [H1 H2]; (split; [auto|]); intros k Hk; specialize (H2 k Hk); rewrite Hm in *; auto.
  - rewrite where_hd_none. split.
    + intros H Hin. apply In_nth_error in Hin. destruct Hin as [k Hk]. apply Hm in Hk. rewrite H in Hk. discriminate.
    + intros H k. destruct (nth k (map f (lt_indices l)) false) eqn:E; auto. apply Hm in E. apply nth_error_In in E. contradiction.
Qed.

Corollary C55_index_inverse :
  forall l, (forall r s, In r (lt_indices l) -> In s (lt_indices l) -> length r = length s) -> NoDup (lt_indices l) ->
    forall i ind, nth_error (lt_indices l) i = Some ind -> superindex_from_index l ind = Some i.
Proof.
  intros l Hl Hnd i ind Hi. apply C55_from_index.
  - intros r Hr. apply Hl; auto. eapply nth_error_In; eauto.
  - split; auto. intros k Hk Hk'. cbv beta in Hk'. rewrite NoDup_nth_error in Hnd.
    assert (k = i); [|lia]. apply Hnd; [|congruence]. apply nth_error_Some. congruence.
Qed.

Lemma pos_match p pos atol : length p = length pos ->
  forallb (fun x => negb (Qle_bool atol (Qabs x))) (vsub p pos) = true <-> close atol p pos.
Proof.
  unfold vsub, close. revert pos. induction p as [|x p IH]; intros [|y pos]; cbn [map2 forallb length]; intro H; try discriminate; [split; auto|].
  rewrite andb_true_iff, IH, negb_true_iff by lia. split.
  - intros [H1 H2]. constructor; auto. destruct (Qlt_le_dec (Qabs (x - y)) atol) as [|G]; auto.
    apply Qle_bool_iff in G. congruence.
  - intro F. inversion F; subst. split; auto. destruct (Qle_bool atol (Qabs (x - y))) eqn:E; auto.
    apply Qle_bool_iff in E. lra.
Qed.

Theorem C55_from_pos :
  forall l pos atol, (forall p, In p (lt_positions l) -> length p = length pos) ->
    (forall i, superindex_from_pos l pos atol = Some i <->
       first (fun k => exists p, nth_error (lt_positions l) k = Some p /\ close atol p pos) i) /\
    (superindex_from_pos l pos atol = None <-> forall p, In p (lt_positions l) -> ~ close atol p pos).
Proof.
  intros l pos atol Hl. unfold superindex_from_pos. cbv zeta.
  set (f := fun p => forallb (fun x => negb (Qle_bool atol (Qabs x))) (vsub p pos)).
  assert (forall k, nth k (map f (lt_positions l)) false = true <->
            exists p, nth_error (lt_positions l) k = Some p /\ close atol p pos) as Hm.
  { intro k. rewrite nth_map_false. split; intros [p [E H]]; exists p; (split; [auto|]); apply pos_match; auto; apply Hl; eapply nth_error_In; eauto. }
  split.
  - intro i. rewrite where_hd. unfold first. rewrite Hm. split; intros [H1 H2]; (split; [auto|]); intros k Hk; specialize (H2 k Hk); rewrite Hm in *; auto.
  - rewrite where_hd_none. split.
    + intros H p Hin Hc. apply In_nth_error in Hin. destruct Hin as [k Hk].
      assert (nth k (map f (lt_positions l)) false = true) as E by (apply Hm; eauto). rewrite H in E. discriminate.
    + intros H k. destruct (nth k (map f (lt_positions l)) false) eqn:E; auto. apply Hm in E. destruct E as [p [E1 E2]].
      exfalso. apply (H p); auto. eapply nth_error_In; eauto.
Qed.

Lemma close_refl atol p : (0 < atol)%Q -> close atol p p.
Proof.
  intro H. unfold close. induction p as [|x p IH]; constructor; auto.
  setoid_replace (x - x)%Q with 0%Q by ring. cbn. auto.
Qed.

Corollary C55_pos_inverse :
  forall l atol, (0 < atol)%Q ->
    (forall p q, In p (lt_positions l) -> In q (lt_positions l) -> length p = length q) ->
    (forall i j p q, nth_error (lt_positions l) i = Some p -> nth_error (lt_positions l) j = Some q ->
       close atol p q -> i = j) ->
    forall i p, nth_error (lt_positions l) i = Some p -> superindex_from_pos l p atol = Some i.
Proof.
  intros l atol Ha Hl Hd i p Hi. apply C55_from_pos.
  - intros q Hq. apply Hl; auto. eapply nth_error_In; eauto.
  - split; [exists p; split; auto; apply close_refl; auto|].
    intros k Hk [q [E1 E2]]. specialize (Hd k i q p E1 Hi E2). lia.
Qed.

Example C55_example :
  NoDup (lt_indices chain5) /\ superindex_from_index chain5 [3; 0]%Z = Some 3 /\
  superindex_from_index chain5 [7; 0]%Z = None /\
  superindex_from_pos chain5 [2]%Q (1#10000) = Some 2 /\ superindex_from_pos chain5 [5#2]%Q (1#10000) = None /\
  superindex_from_pos chain5 [5#2]%Q 1 = Some 2.
Proof.
  split; [|vm_compute; auto 10]. repeat constructor; cbn; intuition discriminate.
Qed.

(** ** C56: checking a pair of sites *)

Lemma check_loop_spec l d i j : lt_data l = Some d -> wf_core d -> padded d -> i < nsites d -> j < nsites d ->
  forall n a,
    (forall k, check_loop l i j (seq a n) = Some (Some k) <->
       a <= k < a + n /\ listed d i j k /\ forall k', a <= k' < k -> ~ listed d i j k') /\
    (check_loop l i j (seq a n) = Some None <-> forall k, a <= k < a + n -> ~ listed d i j k).
Proof.
  intros Hd W P Hi Hj.
  assert (forall k, exists ns, neighbors l i (Some k) false = Some ns /\ (isin ns j = true <-> listed d i j k)) as Hns.
  { intro k. unfold neighbors. rewrite Hd, get_neighbors_core by auto. eexists. split; [reflexivity|].
    rewrite isin_In, in_map_iff. unfold listed. split.
    - intros [c [E Hc]]. apply filter_In in Hc. destruct Hc as [Hc Hs]. apply in_seq in Hc. unfold selects in Hs.
      rewrite !andb_true_r in Hs. apply Nat.eqb_eq in Hs. split; [auto|]. exists c. repeat (split; [auto; lia|]).
      destruct (valid d i c) eqn:V; [unfold valid in V; apply Nat.ltb_lt in V; lia|].
      rewrite (P i c) in E by (auto; lia). lia.
    - intros [_ [c [Hc [E1 [E2 E3]]]]]. exists c. split; auto. apply filter_In. split; [apply in_seq; lia|].
      unfold selects. rewrite !andb_true_r. apply Nat.eqb_eq. auto. }
  induction n as [|n IH]; intro a; cbn [seq check_loop].
  - split; [|split; [intros; lia|auto]]. intro k. split; [discriminate|]. intros; lia.
  - destruct (Hns a) as [ns [-> Hin]]. destruct (IH (S a)) as [IH1 IH2]. destruct (isin ns j) eqn:E.
    + assert (listed d i j a) as La by (apply Hin; auto). split.
      * intro k. split.
        -- intro H. injection H as <-. split; [lia|]. split; auto. intros; lia.
        -- intros [Hk [Hl Hf]]. destruct (Nat.eq_dec k a) as [->|N]; auto. exfalso. apply (Hf a); auto. lia.
      * split; [discriminate|]. intro H. exfalso. apply (H a); auto. lia.
    + assert (~ listed d i j a) as La by (intro H; apply Hin in H; discriminate). split.
      * intro k. rewrite IH1. split.
        -- intros [Hk [Hl Hf]]. split; [lia|]. split; auto. intros k' Hk' Hl'. destruct (Nat.eq_dec k' a) as [->|N]; [auto|]. apply (Hf k'); auto. lia.
        -- intros [Hk [Hl Hf]]. destruct (Nat.eq_dec k a) as [->|N]; [contradiction|]. split; [lia|]. split; auto. intros k' Hk' Hl'. apply (Hf k'); auto. lia.
      * rewrite IH2. split; intros H k Hk Hl; [|apply (H k); auto; lia]. destruct (Nat.eq_dec k a) as [->|N]; [auto|]. apply (H k); auto. lia.
Qed.

Theorem C56_check_neighbors :
  forall l d i j, lt_data l = Some d -> wf_core d -> padded d -> i < nsites d -> j < nsites d ->
    (forall k, check_neighbors l i j = Some (Some k) <-> k < lt_num_distances l /\ first (listed d i j) k) /\
    (check_neighbors l i j = Some None <-> forall k, k < lt_num_distances l -> ~ listed d i j k).
Proof.
  intros l d i j Hd W P Hi Hj. destruct (check_loop_spec l d i j Hd W P Hi Hj (lt_num_distances l) 0) as [H1 H2].
  unfold check_neighbors, first. split.
  - intro k. rewrite H1. split.
    + intros [Hk [Hl Hf]]. split; [lia|]. split; auto. intros k' Hk'. apply Hf. lia.
    + intros [Hk [Hl Hf]]. split; [lia|]. split; auto. intros k' Hk'. apply Hf. lia.
  - rewrite H2. split; intros H k Hk; apply H; lia.
Qed.

(** With enough configured distances nothing is missed. *)
Corollary C56_complete :
  forall l d i j, lt_data l = Some d -> wf_core d -> padded d -> i < nsites d -> j < nsites d ->
    d_invalid_distidx d <= lt_num_distances l ->
    (forall k, check_neighbors l i j = Some (Some k) <-> first (listed d i j) k) /\
    (check_neighbors l i j = Some None <-> forall k, ~ listed d i j k).
Proof.
  intros l d i j Hd W P Hi Hj Hn. destruct (C56_check_neighbors l d i j Hd W P Hi Hj) as [H1 H2].
  assert (forall k, listed d i j k -> k < lt_num_distances l) as Hk by (intros k [_ [c [_ [_ [_ H]]]]]; lia).
  split.
  - intro k. rewrite H1. split; [tauto|]. intro F. split; auto. apply Hk. apply F.
  - rewrite H2. split; intros H k; [intro L; apply (H k); auto|auto].
Qed.

Example C56_example :
  lt_data ring5 = Some ring5_data /\ wf_core ring5_data /\ padded ring5_data /\
  d_invalid_distidx ring5_data <= lt_num_distances ring5 /\
  check_neighbors ring5 0 4 = Some (Some 0) /\ check_neighbors ring5 0 2 = Some None.
Proof.
  split; [reflexivity|]. split; [apply wf_core_checked; vm_compute; reflexivity|].
  split; [apply padded_checked; vm_compute; reflexivity|]. split; [vm_compute; auto|]. vm_compute. auto.
Qed.

(** The number of distances of the lattice is the largest number of distances of one pair of atoms, not the number of
    different distances: here sites 0 and 2 are listed as neighbours but not found. *)
Theorem C56_complete_refuted :
  exists l d i j k, lt_data l = Some d /\ wf d /\ padded d /\ i < nsites d /\ j < nsites d /\ listed d i j k /\
    check_neighbors l i j = Some None.
Proof.
  exists pairs3, pairs3_data, 0, 2, 1. split; [reflexivity|]. split; [apply wf_checked; vm_compute; reflexivity|].
  split; [apply padded_checked; vm_compute; reflexivity|]. split; [vm_compute; lia|]. split; [vm_compute; lia|].
  split; [split; [vm_compute; lia|exists 1; vm_compute; auto]|]. vm_compute. reflexivity.
Qed.

Lemma pair_eq_dec (a b : nat * nat) : {a = b} + {a <> b}.
Proof. decide equality; apply Nat.eq_dec. Defined.

(** ** C54: pairs of neighbours and the adjacency matrix *)

Lemma In_pair_list d i j k : In (i, j, k) (pair_list d) <-> listed d i j k.
Proof.
  unfold pair_list. rewrite in_flat_map. unfold listed, valid_slots. split.
  - intros [i' [Hi' H]]. apply in_map_iff in H. destruct H as [c [E Hc]]. injection E as -> E1 E2.
    apply filter_In in Hc. destruct Hc as [Hc V]. apply in_seq in Hc, Hi'. split; [lia|]. exists c.
    unfold valid in V. apply Nat.ltb_lt in V. rewrite <- E2. split; [lia|]. auto.
  - intros [Hi [c [Hc [E1 [E2 E3]]]]]. exists i. split; [apply in_seq; lia|]. apply in_map_iff. exists c.
    split; [congruence|]. apply filter_In. split; [apply in_seq; lia|]. unfold valid. apply Nat.ltb_lt. lia.
Qed.

Lemma combine_select {A B} mask (l : list A) (m : list B) : length l = length m ->
  combine (select mask l) (select mask m) = select mask (combine l m) /\
  length (select mask l) = length (select mask m).
Proof.
  revert l m. induction mask as [|b mask IH]; intros [|x l] [|y m] H; cbn in *; auto; try discriminate.
  destruct (IH l m) as [E1 E2]; [lia|]. destruct b; cbn; [|auto]. rewrite E1, E2. auto.
Qed.

Lemma select_filter {A} (f : A -> bool) l : select (map f l) l = filter f l.
Proof. induction l as [|x l IH]; cbn; auto. destruct (f x); cbn; rewrite IH; auto. Qed.

(** The pairs, row by row and in the order of the slots. *)
Theorem C54_pairs :
  forall d u, wf_core d ->
    let (pairs, ks) := neighbor_pairs d u in
    length pairs = length ks /\
    combine pairs ks =
      filter (fun e => if u then fst (fst e) <? snd (fst e) else true)
        (flat_map (fun i => map (fun c => ((i, nb d i c), di d i c)) (valid_slots d i)) (seq 0 (nsites d))) /\
    forall i j k, In ((i, j), k) (combine pairs ks) <-> listed d i j k /\ (u = true -> i < j).
Proof.
  intros d u W. unfold neighbor_pairs. destruct (pair_table_spec d W) as [E L]. destruct (pair_table d) as [pairs ks].
  cbn [fst snd] in *.
  assert (forall i j k, In (i, j, k) (filter (fun e => if u then fst (fst e) <? snd (fst e) else true) (pair_list d)) <->
            listed d i j k /\ (u = true -> i < j)) as Hin.
  { intros i j k. rewrite filter_In, In_pair_list. cbn [fst snd]. destruct u.
    - rewrite Nat.ltb_lt. tauto.
    - split; [intros [H _]; split; auto; discriminate|tauto]. }
  destruct u.
  - destruct (combine_select (map (fun p => fst p <? snd p) pairs) pairs ks L) as [E1 E2]. split; [exact E2|].
    assert (combine (select (map (fun p => fst p <? snd p) pairs) pairs) (select (map (fun p => fst p <? snd p) pairs) ks) =
            filter (fun e => fst (fst e) <? snd (fst e)) (pair_list d)) as E3.
    { rewrite E1, <- E. replace (map (fun p => fst p <? snd p) pairs)
        with (map (fun e : nat * nat * nat => fst (fst e) <? snd (fst e)) (combine pairs ks)); [apply select_filter|].
      clear - L. revert ks L. induction pairs as [|p ps IH]; intros [|k ks] L; cbn in *; auto; try discriminate. f_equal. apply IH. lia. }
    split; [exact E3|]. intros i j k. rewrite E3. apply Hin.
  - split; [exact L|]. rewrite E, filter_all by auto. split; [reflexivity|]. intros i j k. rewrite <- Hin, filter_all by auto. reflexivity.
Qed.

Lemma NoDup_flat_map_seq {B} (f : nat -> list B) (key : B -> nat) n a :
  (forall i x, a <= i < a + n -> In x (f i) -> key x = i) -> (forall i, a <= i < a + n -> NoDup (f i)) -> NoDup (flat_map f (seq a n)).
Proof.
  revert a. induction n as [|n IH]; intros a Hk Hn; cbn; [constructor|].
  apply NoDup_app_intro.
  - apply Hn. lia.
  - apply IH; intros; [apply Hk|apply Hn]; auto; lia.
  - intros x H1 H2. apply in_flat_map in H2. destruct H2 as [i [Hi Hx]]. apply in_seq in Hi.
    pose proof (Hk a x ltac:(lia) H1). pose proof (Hk i x ltac:(lia) Hx). lia.
Qed.

Lemma pair_list_NoDup d : once d -> NoDup (map fst (pair_list d)).
Proof.
  intro O. unfold pair_list. rewrite map_flat_map. apply (NoDup_flat_map_seq _ fst).
  - intros i x _ Hx. rewrite map_map in Hx. apply in_map_iff in Hx. destruct Hx as [c [<- _]]. reflexivity.
  - intros i Hi. rewrite map_map. specialize (O i ltac:(lia)). unfold links in O. rewrite map_map in O. cbn in *.
    revert O. generalize (valid_slots d i). intros cs O. induction cs as [|c cs IH]; cbn in *; [constructor|].
    inversion O; subst. constructor; auto. intro H. apply H1. apply in_map_iff in H. destruct H as [c' [E Hc']].
    apply in_map_iff. exists c'. split; congruence.
Qed.

Lemma map_fst_combine {A B} (l : list A) (m : list B) : length l = length m -> map fst (combine l m) = l.
Proof. revert m. induction l as [|x l IH]; intros [|y m] H; cbn in *; auto; try discriminate. f_equal. apply IH. lia. Qed.

Lemma NoDup_map_filter {A B} (g : A -> B) (f : A -> bool) l : NoDup (map g l) -> NoDup (map g (filter f l)).
Proof.
  induction l as [|x l IH]; cbn; intro H; auto. inversion H; subst. destruct (f x); cbn; auto. constructor; auto.
  intro K. apply H2. apply in_map_iff in K. destruct K as [y [E Hy]]. apply filter_In in Hy. apply in_map_iff. exists y. tauto.
Qed.

Theorem C54_unique_pairs :
  forall d, wf_core d -> once d -> symmetric d ->
    let (pairs, ks) := neighbor_pairs d true in
    NoDup pairs /\ (forall i j, In (i, j) pairs -> i < j) /\
    forall i j k, i <> j -> listed d i j k -> In ((Nat.min i j, Nat.max i j), k) (combine pairs ks).
Proof.
  intros d W O S. pose proof (C54_pairs d true W) as H. destruct (neighbor_pairs d true) as [pairs ks].
  destruct H as [L [E Hin]]. split; [|split].
  - rewrite <- (map_fst_combine pairs ks L), E. apply NoDup_map_filter. apply pair_list_NoDup. auto.
  - intros i j Hp. rewrite <- (map_fst_combine pairs ks L) in Hp. apply in_map_iff in Hp.
    destruct Hp as [[[i' j'] k] [E' Hp]]. cbn in E'. injection E' as -> ->. apply Hin in Hp. tauto.
  - intros i j k Hne Hl. apply Hin.
    destruct (Nat.lt_ge_cases i j) as [Hij|Hij].
    + rewrite Nat.min_l, Nat.max_r by lia. auto.
    + rewrite Nat.min_r, Nat.max_l by lia. split; [apply S; auto|lia].
Qed.

Lemma entry_sum (L : list (nat * nat * nat)) i j : NoDup (map fst L) ->
  let s := fold_right Z.add 0%Z (map (fun pk => if (fst (fst pk) =? i) && (snd (fst pk) =? j) then (Z.of_nat (snd pk) + 1)%Z else 0%Z) L) in
  (forall k, In ((i, j), k) L -> s = (Z.of_nat k + 1)%Z) /\ ((forall k, ~ In ((i, j), k) L) -> s = 0%Z).
Proof.
  induction L as [|[[a b] k'] L IH]; cbn [map fold_right]; intro H; cbv zeta.
  - split; [intros k []|auto].
  - inversion H; subst. destruct (IH H3) as [I1 I2]. clear IH. cbn [fst snd] in *.
    destruct ((a =? i) && (b =? j)) eqn:E.
    + apply andb_true_iff in E. rewrite !Nat.eqb_eq in E. destruct E as [-> ->].
      assert (forall k, ~ In (i, j, k) L) as N.
      { intros k Hk. apply H2. apply in_map_iff. exists (i, j, k). auto. }
      rewrite (I2 N). split.
      * intros k [Ek|Hk]; [|exfalso; apply (N k Hk)]. injection Ek as ->. lia.
      * intro K. exfalso. apply (K k'). left. auto.
    + assert (forall k, In (i, j, k) ((a, b, k') :: L) -> In (i, j, k) L) as D.
      { intros k [Ek|Hk]; auto. injection Ek as -> -> _. rewrite !Nat.eqb_refl in E. discriminate. }
      rewrite Z.add_0_l. split.
      * intros k Hk. apply I1. auto.
      * intro K. apply I2. intros k Hk. apply (K k). right. auto.
Qed.

Lemma nat_max_some l : l <> [] -> exists m, nat_max l = Some m.
Proof. destruct l; cbn; [congruence|eauto]. Qed.

Theorem C54_adjacency :
  forall d, wf_core d -> once d -> d_invalid_distidx d <= 127 -> (exists i j k, listed d i j k) ->
    exists m, adjacency_matrix d = Some m /\
      (forall i j k, listed d i j k -> sp_entry m i j = (Z.of_nat k + 1)%Z) /\
      (forall i j, (forall k, ~ listed d i j k) -> sp_entry m i j = 0%Z) /\
      (symmetric d -> forall i j, sp_entry m i j = sp_entry m j i) /\
      greatest (fun r => r = 0 \/ exists i j k, listed d i j k /\ r = S i) (fst (sp_shape m)) /\
      greatest (fun r => r = 0 \/ exists i j k, listed d i j k /\ r = S j) (snd (sp_shape m)).
Proof.
  intros d W O Hk [i0 [j0 [k0 H0]]]. unfold adjacency_matrix.
  pose proof (C54_pairs d false W) as H. destruct (neighbor_pairs d false) as [pairs ks].
  destruct H as [L [E _]]. rewrite filter_all in E by auto. change (combine pairs ks = pair_list d) in E.
  assert (map fst (pair_list d) = pairs) as Ep by (rewrite <- E; apply map_fst_combine; auto).
  assert (forall i j, In (i, j) pairs <-> exists k, listed d i j k) as Hp.
  { intros i j. rewrite <- Ep, in_map_iff. split.
    - intros [[[a b] k] [E1 H]]. cbn in E1. injection E1 as -> ->. exists k. apply In_pair_list. auto.
    - intros [k H]. exists (i, j, k). split; auto. apply In_pair_list. auto. }
  assert (pairs <> []) as Hne.
  { intro N. assert (In (i0, j0) pairs) as K by (apply Hp; eauto). rewrite N in K. destruct K. }
  destruct (nat_max_some (map fst pairs)) as [r Er]; [destruct pairs; [congruence|discriminate]|].
  destruct (nat_max_some (map snd pairs)) as [c Ec]; [destruct pairs; [congruence|discriminate]|].
  rewrite Er, Ec. apply nat_max_spec in Er, Ec. eexists. split; [reflexivity|]. cbn [sp_entry sp_shape fst snd]. rewrite E.
  pose proof (fun i j => entry_sum (pair_list d) i j (pair_list_NoDup d O)) as S. cbv zeta in S.
  assert (forall i j k, listed d i j k -> int8 (fold_right Z.add 0%Z (map (fun pk => if (fst (fst pk) =? i) && (snd (fst pk) =? j)
     then (Z.of_nat (snd pk) + 1)%Z else 0%Z) (pair_list d))) = (Z.of_nat k + 1)%Z) as S1.
  { intros i j k H. rewrite (proj1 (S i j) k) by (apply In_pair_list; auto). apply int8_small.
    destruct H as [_ [c' [_ [_ [_ H]]]]]. lia. }
  assert (forall i j, (forall k, ~ listed d i j k) -> int8 (fold_right Z.add 0%Z (map (fun pk => if (fst (fst pk) =? i) && (snd (fst pk) =? j)
     then (Z.of_nat (snd pk) + 1)%Z else 0%Z) (pair_list d))) = 0%Z) as S2.
  { intros i j H. rewrite (proj2 (S i j)); [reflexivity|]. intros k Hk'. apply (H k). apply In_pair_list. auto. }
  split; [exact S1|]. split; [exact S2|]. split; [|split].
  - intros Y i j. destruct (in_dec pair_eq_dec (i, j) pairs) as [Hi|Hi].
    + apply Hp in Hi. destruct Hi as [k Hi]. rewrite (S1 i j k Hi), (S1 j i k (Y _ _ _ Hi)). reflexivity.
    + rewrite (S2 i j), (S2 j i); auto.
      * intros k H. apply Hi, Hp. exists k. auto.
      * intros k H. apply Hi, Hp. exists k. auto.
  - destruct Er as [E1 E2]. apply in_map_iff in E1. destruct E1 as [[i j] [E1 E3]]. cbn in E1. subst i. apply Hp in E3. destruct E3 as [k E3].
    split; [right; eauto 6|]. intros r' [->|[i [j' [k' [Hl ->]]]]]; [lia|]. apply le_n_S. apply E2. apply in_map_iff. exists (i, j'). split; auto. apply Hp. eauto.
  - destruct Ec as [E1 E2]. apply in_map_iff in E1. destruct E1 as [[i j] [E1 E3]]. cbn in E1. subst j. apply Hp in E3. destruct E3 as [k E3].
    split; [right; eauto 6|]. intros r' [->|[i' [j' [k' [Hl ->]]]]]; [lia|]. apply le_n_S. apply E2. apply in_map_iff. exists (i', j'). split; auto. apply Hp. eauto.
Qed.

Theorem C54_no_pairs :
  forall d, wf_core d -> (forall i j k, ~ listed d i j k) -> adjacency_matrix d = None.
Proof.
  intros d W H. unfold adjacency_matrix. pose proof (C54_pairs d false W) as P. destruct (neighbor_pairs d false) as [pairs ks].
  destruct P as [L [_ Hin]]. destruct pairs as [|[i j] ps]; [reflexivity|]. destruct ks as [|k ks]; [discriminate|].
  exfalso. apply (H i j k). apply (Hin i j k). left. auto.
Qed.

(** A boolean check of the hypotheses for concrete data. *)
Definition listed_check (d : data) : bool :=
  forallb (fun e => existsb (fun e' => (fst (fst e') =? snd (fst e)) && (snd (fst e') =? fst (fst e)) && (snd e' =? snd e)) (pair_list d)) (pair_list d).

Lemma symmetric_checked d : listed_check d = true -> symmetric d.
Proof.
  unfold listed_check. rewrite forallb_forall. intros H i j k Hl. apply In_pair_list in Hl. specialize (H _ Hl).
  apply existsb_exists in H. destruct H as [[[a b] c] [H1 H2]]. cbn [fst snd] in H2. rewrite !andb_true_iff, !Nat.eqb_eq in H2.
  destruct H2 as [[-> ->] ->]. apply In_pair_list. auto.
Qed.

Example C54_example :
  wf_core ring5_data /\ once ring5_data /\ symmetric ring5_data /\ d_invalid_distidx ring5_data <= 127 /\
  neighbor_pairs ring5_data true = ([(0,1); (0,4); (1,2); (2,3); (3,4)], [0;0;0;0;0]) /\
  match adjacency_matrix ring5_data with
  | Some m => sp_shape m = (5, 5) /\ map (sp_entry m 0) [0;1;2;3;4] = [0;1;0;0;1]%Z
  | None => False
  end.
Proof.
  split; [apply wf_core_checked; vm_compute; reflexivity|].
  split. { intros i Hi. change (nsites ring5_data) with 5 in Hi.
    do 5 (destruct i as [|i]; [vm_compute; repeat constructor; cbn; intuition discriminate|]). lia. }
  split; [apply symmetric_checked; vm_compute; reflexivity|]. split; [vm_compute; lia|]. split; [reflexivity|]. vm_compute. auto.
Qed.

(** Three sites at 0, 1 and 5 with neighbours at distance 1: the matrix has the shape (2, 2). *)
Definition isolated_data : data :=
  mkData 1 2 [[0;0];[1;0];[5;0]]%Z [[0];[1];[5]]%Q [[1;3];[0;3];[3;3]] [[0;1];[0;1];[1;1]] [Fin 1000000; Inf]
    (repeat (repeat false 2) 3) (repeat (repeat [0%Z] 2) 3) (repeat (repeat [0] 2) 3) 3 1 None.

Theorem C54_shape_refuted :
  exists d m, wf d /\ adjacency_matrix d = Some m /\ sp_shape m <> (nsites d, nsites d).
Proof.
  exists isolated_data. eexists. split; [apply wf_checked; vm_compute; reflexivity|]. split; [reflexivity|]. vm_compute. discriminate.
Qed.

(** The distance with index 127 appears as -128. *)
Definition far_data : data :=
  mkData 1 2 [[0;0];[1;0]]%Z [[0];[128]]%Q [[1;2];[0;2]] [[127;128];[127;128]]
    (map (fun k => Fin (Z.of_nat (S k) * 1000000)) (seq 0 128) ++ [Inf])
    (repeat (repeat false 2) 2) (repeat (repeat [0%Z] 2) 2) (repeat (repeat [0] 2) 2) 2 128 None.

Theorem C54_entry_refuted :
  exists d m, wf d /\ once d /\ listed d 0 1 127 /\ adjacency_matrix d = Some m /\ sp_entry m 0 1 = (-128)%Z.
Proof.
  exists far_data. eexists. split; [apply wf_checked; vm_compute; reflexivity|].
  split. { intros i Hi. change (nsites far_data) with 2 in Hi.
    do 2 (destruct i as [|i]; [vm_compute; repeat constructor; cbn; intuition discriminate|]). lia. }
  split; [split; [vm_compute; lia|exists 0; vm_compute; repeat split; lia]|]. split; [reflexivity|]. vm_compute. reflexivity.
Qed.

Print Assumptions C54_pairs.
Print Assumptions C54_unique_pairs.
Print Assumptions C54_adjacency.
Print Assumptions C55_from_index.
Print Assumptions C55_from_pos.
Print Assumptions C56_check_neighbors.
