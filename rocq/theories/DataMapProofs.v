(** * Proofs about the data map *)
From Coq Require Import List ZArith QArith Bool Arith Lia Permutation Sorting.Sorted.
From Verif Require Import Np NpFacts LinAlg LinFacts UtilsModel SpecUtils UtilsProofs PropUtils NeighborCellProofs
  DataModel SpecData DataFacts DataProofs DataOps.
Import ListNotations.
Open Scope nat_scope.

Lemma concat_cells {A} (x : A) n m t : rect n m t ->
  concat t = flat_map (fun i => map (cell x t i) (seq 0 m)) (seq 0 n).
Proof.
  intros [H1 H2]. revert n H1. induction t as [|r t IH]; intros n H1; simpl in *; subst n; auto.
  simpl. f_equal.
  - rewrite <- (map_seq_nth x r 0) at 1. rewrite (H2 r) by auto.
    apply map_ext_in_seq. intros c _ _. unfold cell. simpl. rewrite Nat.sub_0_r. reflexivity.
  - rewrite <- seq_shift, flat_map_concat_map, map_map, <- flat_map_concat_map.
    rewrite (IH (fun r' Hr => H2 r' (or_intror Hr)) _ eq_refl). reflexivity.
Qed.

Lemma concat_sites {A} n m (t : list (list A)) : rect n m t ->
  concat (map2 (fun i r => map (fun _ => i) r) (seq 0 n) t) =
  flat_map (fun i => map (fun _ => i) (seq 0 m)) (seq 0 n).
Proof.
  intros [H1 H2].
  assert (forall k, concat (map2 (fun i r => map (fun _ => i) r) (seq k n) t) =
                    flat_map (fun i => map (fun _ => i) (seq 0 m)) (seq k n)) as H; [|apply H].
  revert n H1. induction t as [|r t IH]; intros n H1 k; simpl in *; subst n; auto.
  simpl. f_equal.
  - assert (length r = m) as L by auto.
    assert (forall (X Y : Type) (y : Y) (l : list X), map (fun _ => y) l = repeat y (length l)) as Hrep.
    { intros X Y y l. induction l; simpl; congruence. }
    rewrite !Hrep, seq_length, L. reflexivity.
  - apply IH; auto.
Qed.

Lemma combine_app {A B} (l l' : list A) (m m' : list B) : length l = length m ->
  combine (l ++ l') (m ++ m') = combine l m ++ combine l' m'.
Proof.
  revert m. induction l as [|x l IH]; intros [|y m] H; simpl in *; try lia; auto. f_equal. apply IH. lia.
Qed.

Lemma combine_map {A B C} (f : C -> A) (g : C -> B) l : combine (map f l) (map g l) = map (fun c => (f c, g c)) l.
Proof. induction l; simpl; congruence. Qed.

Lemma combine_flat_map {A B} (f : nat -> nat -> A) (g : nat -> nat -> B) L S :
  combine (flat_map (fun i => map (f i) L) S) (flat_map (fun i => map (g i) L) S) =
  flat_map (fun i => map (fun c => (f i c, g i c)) L) S.
Proof.
  induction S as [|i S IH]; simpl; auto. rewrite combine_app by (rewrite !map_length; reflexivity).
  rewrite IH, combine_map. reflexivity.
Qed.

Lemma filter_flat_map {A B} (p : B -> bool) (f : A -> list B) l :
  filter p (flat_map f l) = flat_map (fun x => filter p (f x)) l.
Proof. induction l; simpl; auto. rewrite filter_app, IHl. reflexivity. Qed.

Lemma map_flat_map {A B C} (g : B -> C) (f : A -> list B) l :
  map g (flat_map f l) = flat_map (fun x => map g (f x)) l.
Proof. induction l; simpl; auto. rewrite map_app, IHl. reflexivity. Qed.

Lemma flat_map_ext_in {A B} (f g : A -> list B) l :
  (forall x, In x l -> f x = g x) -> flat_map f l = flat_map g l.
Proof.
  induction l as [|x l IH]; intro H; simpl; auto. rewrite H by (left; auto). f_equal.
  apply IH. intros; apply H; right; auto.
Qed.

Lemma select_map_filter {A B} (p : B -> bool) (l : list A) (m : list B) : length l = length m ->
  select (map p m) l = map fst (filter (fun z => p (snd z)) (combine l m)).
Proof.
  revert m. induction l as [|x l IH]; intros [|y m] H; simpl in *; try lia; auto.
  destruct (p y); simpl; rewrite IH by lia; reflexivity.
Qed.

Lemma combine_select {A B} mask (l : list A) (m : list B) :
  combine (select mask l) (select mask m) = select mask (combine l m).
Proof.
  revert l m. induction mask as [|b mask IH]; intros l m; [reflexivity|].
  destruct l as [|x l]; [reflexivity|]. destruct m as [|y m].
  - cbn [select combine]. destruct (if b then _ else _); reflexivity.
  - cbn [select combine]. destruct b; cbn [combine]; rewrite IH; reflexivity.
Qed.

(** The pairs of all valid slots, with their distance index. *)
Definition pair_list (d : data) : list (nat * nat * nat) :=
  flat_map (fun i => map (fun c => (i, nb d i c, di d i c)) (valid_slots d i)) (seq 0 (nsites d)).

Lemma pair_table_spec d : wf_core d ->
  combine (fst (pair_table d)) (snd (pair_table d)) = pair_list d /\
  length (fst (pair_table d)) = length (snd (pair_table d)).
Proof.
  intro W. unfold pair_table. cbn [fst snd].
  set (mask := map (fun k => negb (k =? d_invalid_distidx d)) (concat (d_distances d))).
  assert (concat (map2 (fun i r => map (fun _ => i) r) (seq 0 (num_sites d)) (d_neighbors d)) =
          flat_map (fun i => map (fun _ => i) (seq 0 (d_cols d))) (seq 0 (nsites d))) as E1.
  { apply concat_sites. apply W. }
  rewrite E1.
  rewrite (concat_cells 0 _ _ _ (wf_neighbors _ W)).
  rewrite (combine_flat_map (fun i _ => i) (fun i => cell 0 (d_neighbors d) i)).
  set (P := flat_map _ (seq 0 (nsites d))).
  assert (concat (d_distances d) = flat_map (fun i => map (di d i) (seq 0 (d_cols d))) (seq 0 (nsites d))) as E2.
  { apply (concat_cells 0 _ _ _ (wf_distances _ W)). }
  assert (combine P (concat (d_distances d)) =
          flat_map (fun i => map (fun c => (i, nb d i c, di d i c)) (seq 0 (d_cols d))) (seq 0 (nsites d))) as E3.
  { rewrite E2. unfold P.
    rewrite (combine_flat_map (fun i c => (i, cell 0 (d_neighbors d) i c)) (fun i c => di d i c)). reflexivity. }
  assert (length P = length (concat (d_distances d))) as E4.
  { rewrite E2. unfold P. clear. induction (seq 0 (nsites d)) as [|i l IH]; simpl; auto.
    rewrite !app_length, !map_length, IH. reflexivity. }
  split.
  - rewrite combine_select, E3. unfold mask.
    rewrite select_map_filter.
    2:{ rewrite <- E3, combine_length. lia. }
    assert (forall (l : list (nat * nat * nat)) (m : list nat) p, map snd l = m ->
              map fst (filter (fun z => p (snd z)) (combine l m)) = filter (fun z => p (snd z)) l) as Hc.
    { clear. induction l as [|x l IH]; intros m p <-; simpl; auto.
      destruct (p (snd x)); simpl; rewrite (IH _ p eq_refl); reflexivity. }
    rewrite (Hc _ _ (fun k => negb (k =? d_invalid_distidx d))).
    + rewrite filter_flat_map. unfold pair_list. apply flat_map_ext_in. intros i Hi. apply in_seq in Hi.
      rewrite map_filter_comm. f_equal. unfold valid_slots. apply filter_ext_seq. intros c _ Hc'. simpl.
      symmetry. apply valid_ne; auto; lia.
    + rewrite E2, map_flat_map. apply flat_map_ext_in. intros i _. rewrite map_map. reflexivity.
  - apply select_length_same. exact E4.
Qed.

(** Labelled entries of a map. *)
Definition entries (m : datamap) : list (nat * nat * Z) := combine (dm_indices m) (dm_map m).

Lemma take_perm {A} (x : A) l idx : Permutation idx (seq 0 (length l)) -> Permutation (take x l idx) l.
Proof.
  intro H. unfold take. rewrite H. apply eq_Permutation.
  clear. induction l as [|y l IH]; simpl; auto. f_equal. rewrite <- seq_shift, map_map. exact IH.
Qed.

Lemma combine_take {A B} (x : A) (y : B) l m idx : length l = length m -> (forall i, In i idx -> i < length l) ->
  combine (take x l idx) (take y m idx) = take (x, y) (combine l m) idx.
Proof.
  intros H Hi. unfold take. rewrite combine_map. apply map_ext_in. intros i Hin.
  symmetry. apply combine_nth. exact H.
Qed.

Lemma datamap_init_spec argsort alphas pairs dists : is_argsort Nat.leb argsort -> length pairs = length dists ->
  let m := datamap_init argsort alphas pairs dists in
  length (dm_indices m) = length (dm_map m) /\
  StronglySorted le (dm_rows m) /\
  Permutation (entries m)
    (map (fun i => (i, i, (- nth i alphas 0 - 1)%Z)) (seq 0 (length alphas)) ++
     map (fun z => (fst z, Z.of_nat (snd z))) (combine pairs dists)).
Proof.
  intros Harg HL m.
  set (map_ := map (fun a => (- a - 1)%Z) alphas ++ map Z.of_nat dists).
  set (ind_ := map (fun i => (i, i)) (seq 0 (length alphas)) ++ pairs).
  set (ind := argsort (map fst ind_)).
  assert (length ind_ = length map_) as EL.
  { unfold ind_, map_. rewrite !app_length, !map_length, seq_length. lia. }
  destruct (Harg (map fst ind_)) as [HP HS]. fold ind in HP, HS. rewrite map_length in HP.
  assert (forall i, In i ind -> i < length ind_) as Hin.
  { intros i Hi. apply (Permutation_in _ HP) in Hi. apply in_seq in Hi. lia. }
  split; [unfold m, datamap_init; simpl; unfold take; rewrite !map_length; reflexivity|]. split.
  - unfold m, dm_rows, datamap_init. cbn [dm_indices]. fold ind_ ind.
    specialize (HS 0). unfold take. rewrite map_map.
    revert HS Hin. clear. induction 1 as [|i l H IH Hf]; intro Hin; simpl; constructor.
    + apply IH. intros; apply Hin; right; auto.
    + rewrite Forall_forall in *. intros r Hr. apply in_map_iff in Hr. destruct Hr as [j [<- Hj]].
      specialize (Hf j Hj). apply Nat.leb_le in Hf.
      rewrite !(nth_map_lt fst ind_ _ (0, 0)) in Hf by (apply Hin; simpl; auto). exact Hf.
  - unfold entries, m, datamap_init. cbn [dm_indices dm_map]. fold map_ ind_ ind.
    rewrite combine_take by auto.
    rewrite take_perm.
    2:{ rewrite combine_length, <- EL, Nat.min_id. exact HP. }
    unfold ind_, map_. rewrite combine_app by (rewrite !map_length, seq_length; reflexivity).
    apply Permutation_app.
    + apply eq_Permutation.
      assert (map (fun a => (- a - 1)%Z) alphas = map (fun i => (- nth i alphas 0 - 1)%Z) (seq 0 (length alphas))) as ->.
      { clear. induction alphas as [|a l IH]; simpl; auto. f_equal. rewrite <- seq_shift, map_map. exact IH. }
      apply combine_map.
    + apply eq_Permutation. clear -HL. revert dists HL. induction pairs as [|p l IH]; intros [|k ks] H; simpl in *; try lia; auto.
      f_equal. apply IH. lia.
Qed.

(** ** Index arrays *)

(** Number of entries of [l] below [r]. *)
Definition below (r : nat) (l : list nat) : nat := length (filter (fun x => x <? r) l).

Lemma sorted_filter_split {A} (key : A -> nat) l r : StronglySorted le (map key l) ->
  filter (fun x => key x <? S r) l = filter (fun x => key x <? r) l ++ filter (fun x => r =? key x) l.
Proof.
  induction l as [|x l IH]; intro H; simpl; auto. simpl in H. inversion H; subst.
  rewrite IH by assumption.
  destruct (Nat.lt_trichotomy (key x) r) as [Hl|[Hl|Hl]].
  - rewrite (proj2 (Nat.ltb_lt (key x) (S r))) by lia. rewrite (proj2 (Nat.ltb_lt (key x) r)) by lia.
    rewrite (proj2 (Nat.eqb_neq r (key x))) by lia. reflexivity.
  - rewrite (proj2 (Nat.ltb_lt (key x) (S r))) by lia. rewrite (proj2 (Nat.ltb_ge (key x) r)) by lia.
    rewrite (proj2 (Nat.eqb_eq r (key x))) by lia.
    assert (filter (fun x => key x <? r) l = []) as ->; [|reflexivity].
    apply filter_none. intros y Hy. apply Nat.ltb_ge. rewrite Forall_forall in H3.
    specialize (H3 (key y) (in_map key _ _ Hy)). lia.
  - rewrite (proj2 (Nat.ltb_ge (key x) (S r))) by lia. rewrite (proj2 (Nat.ltb_ge (key x) r)) by lia.
    rewrite (proj2 (Nat.eqb_neq r (key x))) by lia. reflexivity.
Qed.

Lemma indptr_fold m N : StronglySorted le (dm_rows m) ->
  fold_left (indptr_step m) (seq 0 N) ([], [0]) =
  (map snd (filter (fun p => fst p <? N) (dm_indices m)), map (fun r => below r (dm_rows m)) (seq 0 (S N))).
Proof.
  intro HS. induction N as [|N IH].
  - simpl. rewrite (filter_none _ (dm_indices m)) by reflexivity. simpl. f_equal. f_equal.
    unfold below. rewrite (filter_none _ (dm_rows m)) by reflexivity. reflexivity.
  - rewrite seq_S, fold_left_app, IH. cbn [fold_left Nat.add]. unfold indptr_step.
    assert (select (map (Nat.eqb N) (dm_rows m)) (dm_cols m) =
            map snd (filter (fun p => N =? fst p) (dm_indices m))) as ->.
    { unfold dm_rows, dm_cols. rewrite map_map, select_map, select_filter. reflexivity. }
    rewrite <- map_app, <- (sorted_filter_split fst (dm_indices m) N HS).
    f_equal. rewrite (seq_S (S N) 0), map_app. cbn [map Nat.add]. f_equal. f_equal.
    rewrite map_length. unfold below, dm_rows. rewrite map_filter_comm, map_length. reflexivity.
Qed.

Lemma unique_rows_all rows N : (forall r, In r rows <-> r < N) -> unique Nat.leb rows = seq 0 N.
Proof.
  intro H. apply (strict_unique Nat.leb).
  - intros x y Hx Hy. apply Nat.leb_le in Hx, Hy. lia.
  - apply unique_strict; intros; rewrite ?Nat.leb_le in *; lia.
  - pose proof (seq_sorted 0 N) as S. induction S as [|x l Hl IH Hf]; constructor; auto.
    eapply Forall_impl; [|exact Hf]. simpl. intros y Hy. rewrite Nat.leb_le. lia.
  - intro x. rewrite In_unique, in_seq, H; intros; rewrite ?Nat.leb_le in *; lia.
Qed.

Lemma below_all rows N : (forall r, In r rows -> r < N) -> below N rows = length rows.
Proof. intro H. unfold below. rewrite filter_all; auto. intros x Hx. apply Nat.ltb_lt. auto. Qed.

Lemma below_mono rows r : StronglySorted le rows -> below r rows <= below (S r) rows.
Proof.
  intro H. unfold below. pose proof (sorted_filter_split (fun x => x) rows r) as E. rewrite map_id in E.
  rewrite (E H), app_length. lia.
Qed.

Lemma nth_between rows r k : StronglySorted le rows -> below r rows <= k -> k < below (S r) rows -> nth k rows 0 = r.
Proof.
  unfold below. revert k. induction rows as [|x l IH]; intros k HS H1 H2; simpl in *; [lia|].
  inversion HS; subst.
  destruct (Nat.lt_trichotomy x r) as [Hl|[Hl|Hl]].
  - rewrite (proj2 (Nat.ltb_lt x (S r))) in H2 by lia. rewrite (proj2 (Nat.ltb_lt x r)) in H1 by lia. simpl in *.
    destruct k as [|k]; [lia|]. apply IH; auto; lia.
  - subst x. rewrite (proj2 (Nat.ltb_lt r (S r))) in H2 by lia. rewrite Nat.ltb_irrefl in H1. simpl in *.
    destruct k as [|k]; auto. apply IH; auto; [|lia].
    rewrite filter_none; simpl; [lia|]. intros y Hy. rewrite Forall_forall in H4. specialize (H4 y Hy).
    apply Nat.ltb_ge. auto.
  - rewrite (proj2 (Nat.ltb_ge x (S r))) in H2 by lia. rewrite filter_none in H2; simpl in H2; [lia|].
    intros y Hy. rewrite Forall_forall in H4. specialize (H4 y Hy). apply Nat.ltb_ge. lia.
Qed.

(** The matrix entries described by index pointers. *)
Definition csr_entries {A} (x : A) (indices indptr : list nat) (values : list A) : list (nat * nat * A) :=
  flat_map (fun r => map (fun k => (r, nth k indices 0, nth k values x))
                       (seq (nth r indptr 0) (nth (S r) indptr 0 - nth r indptr 0)))
    (seq 0 (length indptr - 1)).

Lemma csr_spec {A} (x : A) m N values : StronglySorted le (dm_rows m) -> (forall r, In r (dm_rows m) <-> r < N) ->
  length values = dm_size m ->
  csr_entries x (fst (indices_indptr m)) (snd (indices_indptr m)) values =
  combine (combine (dm_rows m) (dm_cols m)) values.
Proof.
  intros HS HR HL. unfold indices_indptr. rewrite (unique_rows_all _ N HR), (indptr_fold m N HS). cbn [fst snd].
  assert (map snd (filter (fun p => fst p <? N) (dm_indices m)) = dm_cols m) as ->.
  { unfold dm_cols. f_equal. apply filter_all. intros p Hp. apply Nat.ltb_lt. apply HR. apply in_map. auto. }
  unfold csr_entries. rewrite map_length, seq_length. replace (S N - 1) with N by lia.
  set (g := fun k => (nth k (dm_rows m) 0, nth k (dm_cols m) 0, nth k values x)).
  assert (forall n, n <= N ->
    flat_map (fun r => map (fun k => (r, nth k (dm_cols m) 0, nth k values x))
                 (seq (nth r (map (fun r => below r (dm_rows m)) (seq 0 (S N))) 0)
                    (nth (S r) (map (fun r => below r (dm_rows m)) (seq 0 (S N))) 0 -
                     nth r (map (fun r => below r (dm_rows m)) (seq 0 (S N))) 0))) (seq 0 n) =
    map g (seq 0 (below n (dm_rows m)))) as H.
  { induction n as [|n IH]; intro Hn.
    - simpl. unfold below. rewrite (filter_none _ (dm_rows m)) by reflexivity. reflexivity.
    - rewrite (seq_S n 0), flat_map_app, IH by lia. cbn [flat_map Nat.add]. rewrite app_nil_r.
      rewrite !nth_map_seq by lia.
      pose proof (below_mono (dm_rows m) n HS) as Hmono.
      replace (below (S n) (dm_rows m)) with (below n (dm_rows m) + (below (S n) (dm_rows m) - below n (dm_rows m))) at 2 by lia.
      rewrite seq_app, map_app. f_equal. apply map_ext_in_seq. intros k H1 H2. unfold g.
      rewrite (nth_between _ n k HS) by lia. reflexivity. }
  rewrite (H N (le_n N)). rewrite below_all by (intros r Hr; apply HR; auto).
  unfold g, dm_rows, dm_cols. rewrite map_length. unfold dm_size in HL.
  assert (forall (l : list (nat * nat)) (v : list A), length v = length l ->
    map (fun k => (nth k (map fst l) 0, nth k (map snd l) 0, nth k v x)) (seq 0 (length l)) =
    combine (combine (map fst l) (map snd l)) v) as Hf.
  { clear. induction l as [|p l IH]; intros [|y v] Hv; simpl in *; try lia; auto. f_equal.
    rewrite <- seq_shift, map_map. apply IH. lia. }
  apply Hf. exact HL.
Qed.
