(** * Proofs about the lattice data: sorting, adding and periodic neighbours *)
From Coq Require Import List ZArith QArith Bool Arith Lia Permutation Sorting.Sorted.
From Verif Require Import Np NpFacts LinAlg LinFacts UtilsModel SpecUtils UtilsProofs PropUtils NeighborCellProofs
  DataModel SpecData DataFacts DataProofs.
Import ListNotations.
Open Scope nat_scope.

(** ** sort *)

Definition rel1 (o : nat) (cur : nat) (no : nat * nat) : nat := let (new, old) := no in if o =? old then new else cur.

Lemma rect_relabel_step n m t cur no : rect n m t -> rect n m cur -> rect n m (relabel_step t cur no).
Proof.
  intros H1 H2. destruct no as [new old]. simpl. apply rect_map2; auto.
  intros r s Hr Hs. rewrite map2_length. lia.
Qed.

Lemma cell_relabel_step n m t cur no i c : rect n m t -> rect n m cur -> i < n -> c < m ->
  cell 0 (relabel_step t cur no) i c = rel1 (cell 0 t i c) (cell 0 cur i c) no.
Proof.
  intros H1 H2 Hi Hc. destruct no as [new old]. unfold relabel_step.
  rewrite (cell_map2 _ _ _ _ _ _ _ _ _ H1 H2 Hi).
  rewrite (nth_map2 _ _ _ _ 0 0) by (rewrite (rect_nth n m) by auto; auto). reflexivity.
Qed.

Lemma relabel_fold n m t L cur : rect n m t -> rect n m cur ->
  rect n m (fold_left (relabel_step t) L cur) /\
  forall i c, i < n -> c < m ->
    cell 0 (fold_left (relabel_step t) L cur) i c = fold_left (rel1 (cell 0 t i c)) L (cell 0 cur i c).
Proof.
  intros H1. revert cur. induction L as [|no L IH]; intros cur H2; cbn [fold_left]; auto.
  pose proof (rect_relabel_step _ _ _ _ no H1 H2) as H3.
  destruct (IH _ H3) as [H4 H5]. split; auto. intros i c Hi Hc. rewrite H5 by assumption.
  f_equal. eapply cell_relabel_step; eauto.
Qed.

Lemma rel1_notin idx o k : ~ In o idx -> forall cur, fold_left (rel1 o) (combine (seq k (length idx)) idx) cur = cur.
Proof.
  revert k. induction idx as [|x idx IH]; intros k Hn cur; simpl; auto.
  rewrite (proj2 (Nat.eqb_neq o x)) by (intros ->; apply Hn; left; auto).
  apply IH. intro H. apply Hn. right; auto.
Qed.

Lemma rel1_in idx o k p : NoDup idx -> nth_error idx p = Some o ->
  forall cur, fold_left (rel1 o) (combine (seq k (length idx)) idx) cur = k + p.
Proof.
  revert k p. induction idx as [|x idx IH]; intros k p Hnd Hp cur; [destruct p; discriminate|].
  inversion Hnd; subst. destruct p as [|p]; simpl in *.
  - injection Hp as ->. rewrite Nat.eqb_refl. rewrite rel1_notin by assumption. lia.
  - rewrite (IH (S k) p) by auto. lia.
Qed.

Lemma cell_relabel n m t idx i c : rect n m t -> i < n -> c < m -> NoDup idx ->
  (forall p, nth_error idx p = Some (cell 0 t i c) -> cell 0 (relabel idx t) i c = p) /\
  (~ In (cell 0 t i c) idx -> cell 0 (relabel idx t) i c = cell 0 t i c).
Proof.
  intros H Hi Hc Hnd. destruct (relabel_fold n m t (enumerate idx) t H H) as [_ E].
  unfold relabel. rewrite (E i c Hi Hc). unfold enumerate. split.
  - intros p Hp. rewrite (rel1_in _ _ _ p) by assumption. reflexivity.
  - intro Hn. rewrite rel1_notin by assumption. reflexivity.
Qed.

Definition perm_of (n : nat) (idx : list nat) : Prop := Permutation idx (seq 0 n).

Lemma perm_facts n idx : perm_of n idx ->
  length idx = n /\ NoDup idx /\ (forall i, In i idx <-> i < n).
Proof.
  intro H. split; [|split].
  - rewrite (Permutation_length H). apply seq_length.
  - eapply Permutation_NoDup; [symmetry; exact H|apply seq_NoDup].
  - intro i. split; intro Hi.
    + apply (Permutation_in _ H) in Hi. apply in_seq in Hi. lia.
    + apply (Permutation_in _ (Permutation_sym H)). apply in_seq. lia.
Qed.

(** The object after sorting with the permutation [idx]. *)
Definition sorted_by (d : data) (idx : list nat) : data :=
  mkData (d_dim d) (d_cols d) (take [] (d_indices d) idx) (take [] (d_positions d) idx)
    (relabel idx (take [] (d_neighbors d) idx)) (take [] (d_distances d) idx) (d_distvals d)
    (take [] (d_pmask d) idx) (take [] (d_pnvecs d) idx) (take [] (d_paxes d) idx)
    (d_invalid_idx d) (d_invalid_distidx d) (d_dmap d).

Lemma sorted_by_spec d idx : wf_core d -> perm_of (nsites d) idx ->
  let d' := sorted_by d idx in
  nsites d' = nsites d /\
  rect (nsites d) (d_cols d) (d_neighbors d') /\ rect (nsites d) (d_cols d) (d_distances d') /\
  (forall p c, p < nsites d -> c < d_cols d ->
     let q := nth p idx 0 in
     q < nsites d /\ di d' p c = di d q c /\
     (nb d q c < nsites d -> nb d' p c < nsites d /\ nth (nb d' p c) idx 0 = nb d q c) /\
     (nb d q c = nsites d -> nb d' p c = nsites d)).
Proof.
  intros W HP d'. destruct (perm_facts _ _ HP) as [L1 [L2 L3]].
  pose proof (wf_neighbors _ W) as Rn. pose proof (wf_distances _ W) as Rd.
  assert (rect (nsites d) (d_cols d) (take [] (d_neighbors d) idx)) as Rn'.
  { rewrite <- L1 at 1. eapply rect_take; eauto. intros i Hi. apply L3. auto. }
  assert (rect (nsites d) (d_cols d) (take [] (d_distances d) idx)) as Rd'.
  { rewrite <- L1 at 1. eapply rect_take; eauto. intros i Hi. apply L3. auto. }
  split; [unfold nsites, d'; simpl; unfold take; rewrite map_length; exact L1|].
  split; [unfold d'; simpl; apply (relabel_fold _ _ _ _ _ Rn' Rn')|].
  split; [exact Rd'|].
  intros p c Hp Hc q.
  assert (q < nsites d) as Hq by (apply L3; apply nth_In; lia).
  split; auto. split.
  { unfold di, d'. simpl. rewrite (cell_take 0 _ _ _ _ _ _ Rd) by lia. reflexivity. }
  assert (cell 0 (take [] (d_neighbors d) idx) p c = nb d q c) as EN.
  { rewrite (cell_take 0 _ _ _ _ _ _ Rn) by lia. reflexivity. }
  destruct (cell_relabel _ _ _ idx p c Rn' Hp Hc L2) as [R1 R2]. rewrite EN in R1, R2.
  change (cell 0 (relabel idx (take [] (d_neighbors d) idx)) p c) with (nb d' p c) in R1, R2.
  split.
  - intro Hj. apply L3 in Hj. apply In_nth_error in Hj. destruct Hj as [r Hr].
    rewrite (R1 r Hr). split.
    + rewrite <- L1. eapply nth_error_length_lt; eauto.
    + apply nth_of_nth_error. auto.
  - intro Hj. rewrite R2; auto. intro Hin. apply L3 in Hin. lia.
Qed.

Lemma take_nth {A} (x y : A) l idx p : p < length idx -> nth p (take x l idx) y = nth (nth p idx 0) l x.
Proof. apply nth_take. Qed.

Lemma sorted_by_wf_core d idx : wf_core d -> perm_of (nsites d) idx -> wf_core (sorted_by d idx).
Proof.
  intros W HP. destruct (sorted_by_spec d idx W HP) as [En [Rn [Rd H]]].
  destruct (perm_facts _ _ HP) as [L1 [L2 L3]].
  assert (forall i, In i idx -> i < nsites d) as L4 by (intros; apply L3; auto).
  constructor; rewrite ?En; try assumption.
  - simpl. rewrite <- L1 at 1. eapply rect_take; [apply (wf_indices _ W)|auto].
  - simpl. rewrite <- L1 at 1. eapply rect_take; [apply (wf_positions _ W)|auto].
  - simpl. rewrite <- (wf_invalid_idx _ W). reflexivity.
  - apply (wf_distvals _ W).
  - apply (wf_invalid _ W).
  - intros i c Hi Hc. destruct (H i c Hi Hc) as [Hq [E _]]. rewrite E.
    apply (wf_di _ W); auto.
  - intros i c Hi Hc Hv. destruct (H i c Hi Hc) as [Hq [E [F _]]]. apply F.
    apply (wf_nb _ W); auto. unfold valid in *. rewrite E in Hv. exact Hv.
Qed.

Lemma sorted_by_cell {A} (x : A) d idx (t : list (list A)) n p c :
  rect (nsites d) n t -> p < length idx -> cell x (take [] t idx) p c = cell x t (nth p idx 0) c.
Proof. intros R Hp. eapply cell_take; eauto. Qed.

Lemma sorted_by_wf d idx : wf d -> perm_of (nsites d) idx -> wf (sorted_by d idx).
Proof.
  intros W HP. destruct (sorted_by_spec d idx W HP) as [En [Rn [Rd H]]].
  destruct (perm_facts _ _ HP) as [L1 [L2 L3]].
  assert (forall i, In i idx -> i < nsites d) as L4 by (intros; apply L3; auto).
  constructor; rewrite ?En.
  - apply sorted_by_wf_core; auto. apply W.
  - simpl. rewrite <- L1 at 1. eapply rect_take; [apply (wf_pmask _ W)|auto].
  - simpl. rewrite <- L1 at 1. eapply rect_take; [apply (wf_pnvecs _ W)|auto].
  - simpl. rewrite <- L1 at 1. eapply rect_take; [apply (wf_paxes _ W)|auto].
  - simpl. intros i c Hi Hc. rewrite (sorted_by_cell _ d _ _ _ _ _ (wf_pnvecs _ W)) by lia.
    apply (wf_nvec _ W); auto. apply L3, nth_In. lia.
  - simpl. intros i c Hi Hc. rewrite (sorted_by_cell _ d _ _ _ _ _ (wf_paxes _ W)) by lia.
    apply (wf_ax _ W); auto. apply L3, nth_In. lia.
  - intros i c Hi Hc Hp. destruct (H i c Hi Hc) as [Hq [E _]]. unfold valid. rewrite E.
    apply (wf_pm _ W); auto. unfold pm in *. simpl in Hp.
    rewrite (sorted_by_cell _ d _ _ _ _ _ (wf_pmask _ W)) in Hp by lia. exact Hp.
Qed.

Lemma sort_indices d idx reverse : perm_of (nsites d) idx ->
  sort d None (Some idx) reverse = Some (sorted_by d (if reverse then rev idx else idx)).
Proof.
  intro HP. unfold sort.
  assert (perm_of (nsites d) (if reverse then rev idx else idx)) as HP'.
  { destruct reverse; auto. unfold perm_of. rewrite <- HP. symmetry. apply Permutation_rev. }
  destruct (perm_facts _ _ HP') as [_ [_ L3]].
  assert (forallb (fun i => i <? num_sites d) (if reverse then rev idx else idx) = true) as ->.
  { apply forallb_forall. intros i Hi. apply Nat.ltb_lt. apply L3. auto. }
  reflexivity.
Qed.

Lemma argsort_stable_perm {A} leb (x : A) keys : Permutation (argsort_stable leb x keys) (seq 0 (length keys)).
Proof. apply sort_stable_perm. Qed.

Lemma sort_axis d a reverse : a <= d_dim d ->
  exists idx, perm_of (nsites d) idx /\ sort d (Some a) None reverse = sort d None (Some idx) reverse /\
    StronglySorted (fun i j => (nth a (nth i (d_indices d) []) 0 <= nth a (nth j (d_indices d) []) 0)%Z) idx.
Proof.
  intro Ha. exists (argsort_stable Z.leb 0%Z (map (fun ind => nth a ind 0%Z) (d_indices d))).
  split; [|split].
  - unfold perm_of. rewrite argsort_stable_perm, map_length. reflexivity.
  - unfold sort. rewrite (proj2 (Nat.ltb_lt a (S (d_dim d)))) by lia. reflexivity.
  - set (keys := map (fun ind => nth a ind 0%Z) (d_indices d)).
    assert (StronglySorted (fun i j => (nth i keys 0 <=? nth j keys 0)%Z = true) (argsort_stable Z.leb 0%Z keys)) as H.
    { apply (sort_stable_sorted (fun i j => Z.leb (nth i keys 0%Z) (nth j keys 0%Z))).
      - intros i j. rewrite !Z.leb_le. lia.
      - intros i j k. rewrite !Z.leb_le. lia. }
    assert (forall i, In i (argsort_stable Z.leb 0%Z keys) -> i < length (d_indices d)) as Hin.
    { intros i Hi. apply (Permutation_in _ (argsort_stable_perm _ _ _)) in Hi. apply in_seq in Hi.
      unfold keys in Hi. rewrite map_length in Hi. lia. }
    revert H Hin. generalize (argsort_stable Z.leb 0%Z keys). induction 1 as [|i l Hl IH Hf]; intro Hin; constructor.
    + apply IH. intros; apply Hin; right; auto.
    + rewrite Forall_forall in *. intros j Hj. specialize (Hf j Hj). apply Z.leb_le in Hf.
      unfold keys in Hf. rewrite !(nth_map_lt (fun ind : list Z => nth a ind 0%Z) (d_indices d) _ []) in Hf
        by (apply Hin; simpl; auto). exact Hf.
Qed.

(** ** sort_neighbors *)

Lemma sort_neighbors_cell {A} (x : A) n m t (ps : list (list nat)) i c :
  rect n m t -> rect n m ps -> i < n -> c < m ->
  cell x (map2 (fun r p => take x r p) t ps) i c = cell x t i (cell 0 ps i c).
Proof.
  intros Rt Rp Hi Hc. rewrite (cell_map2 _ _ _ _ _ _ _ _ _ Rt Rp Hi).
  rewrite nth_take by (rewrite (rect_nth _ _ _ _ Rp Hi); auto). reflexivity.
Qed.

Lemma rect_take_rows {A} (x : A) n m t (ps : list (list nat)) :
  rect n m t -> rect n m ps -> rect n m (map2 (fun r p => take x r p) t ps).
Proof. intros. eapply rect_map2; eauto. intros r s _ Hs. unfold take. rewrite map_length. auto. Qed.

Section SortNeighbors.
  Variable argsort : list dist -> list nat.
  Hypothesis Harg : is_argsort dleb argsort.

  Let ps (d : data) := map argsort (distance_table d).

  Lemma distance_table_rect d : rect (nsites d) (d_cols d) (d_distances d) ->
    rect (nsites d) (d_cols d) (distance_table d).
  Proof. intro H. apply rect_map_map. auto. Qed.

  Lemma ps_row d i : rect (nsites d) (d_cols d) (d_distances d) -> i < nsites d ->
    nth i (ps d) [] = argsort (nth i (distance_table d) []).
  Proof.
    intros H Hi. unfold ps. apply nth_map_lt.
    rewrite (proj1 (distance_table_rect d H)). auto.
  Qed.

  Lemma ps_perm d i : rect (nsites d) (d_cols d) (d_distances d) -> i < nsites d ->
    perm_of (d_cols d) (nth i (ps d) []).
  Proof.
    intros H Hi. rewrite ps_row by assumption.
    destruct (Harg (nth i (distance_table d) [])) as [H1 _].
    rewrite (rect_nth _ _ _ _ (distance_table_rect d H) Hi) in H1. exact H1.
  Qed.

  Lemma ps_rect d : rect (nsites d) (d_cols d) (d_distances d) -> rect (nsites d) (d_cols d) (ps d).
  Proof.
    intro H. split.
    - unfold ps. rewrite map_length. apply (distance_table_rect d H).
    - intros r Hr. apply In_nth_error in Hr. destruct Hr as [i Hi].
      assert (i < nsites d) as Hlt.
      { apply nth_error_length_lt in Hi. unfold ps in Hi. rewrite map_length in Hi.
        rewrite (proj1 (distance_table_rect d H)) in Hi. auto. }
      rewrite <- (nth_of_nth_error _ _ [] _ Hi). apply (proj1 (perm_facts _ _ (ps_perm d i H Hlt))).
  Qed.

  Lemma filter_map_nth (f : nat -> bool) p n : length p = n ->
    map (fun c => nth c p 0) (filter (fun c => f (nth c p 0)) (seq 0 n)) = filter f p.
  Proof.
    intros <-. rewrite <- (map_filter_comm (fun c => nth c p 0) f). f_equal.
    clear. induction p as [|x p IH]; simpl; auto. f_equal.
    rewrite <- seq_shift, map_map. exact IH.
  Qed.

  Lemma sort_neighbors_slots d i : wf d -> i < nsites d ->
    exists p, perm_of (d_cols d) p /\
      StronglySorted (fun a b => dleb (nth (di d i a) (d_distvals d) Inf) (nth (di d i b) (d_distvals d) Inf) = true) p /\
      (forall c, c < d_cols d -> slot_at (sort_neighbors argsort d) i c = slot_at d i (nth c p 0) /\
         valid (sort_neighbors argsort d) i c = valid d i (nth c p 0) /\
         di (sort_neighbors argsort d) i c = di d i (nth c p 0)) /\
      slots (sort_neighbors argsort d) i = map (slot_at d i) (filter (valid d i) p).
  Proof.
    intros W Hi. pose proof (wf_c _ W) as C.
    pose proof (wf_neighbors _ C) as Rn. pose proof (wf_distances _ C) as Rd.
    pose proof (ps_rect d Rd) as Rp. exists (nth i (ps d) []).
    pose proof (ps_perm d i Rd Hi) as HP. destruct (perm_facts _ _ HP) as [L1 [L2 L3]].
    assert (forall c, c < d_cols d -> slot_at (sort_neighbors argsort d) i c = slot_at d i (nth c (nth i (ps d) []) 0) /\
         valid (sort_neighbors argsort d) i c = valid d i (nth c (nth i (ps d) []) 0) /\
         di (sort_neighbors argsort d) i c = di d i (nth c (nth i (ps d) []) 0)) as HS.
    { intros c Hc.
      assert (di (sort_neighbors argsort d) i c = di d i (nth c (nth i (ps d) []) 0)) as Edi.
      { unfold di. simpl. fold (ps d). apply (sort_neighbors_cell 0 _ _ _ _ _ _ Rd Rp Hi Hc). }
      split; [|split; [unfold valid; rewrite Edi; reflexivity|exact Edi]].
      unfold slot_at. rewrite Edi. unfold nb, pm. simpl. fold (ps d). f_equal.
      - apply (sort_neighbors_cell 0 _ _ _ _ _ _ Rn Rp Hi Hc).
      - apply (sort_neighbors_cell false _ _ _ _ _ _ (wf_pmask _ W) Rp Hi Hc).
      - apply (sort_neighbors_cell [] _ _ _ _ _ _ (wf_pnvecs _ W) Rp Hi Hc).
      - apply (sort_neighbors_cell [] _ _ _ _ _ _ (wf_paxes _ W) Rp Hi Hc). }
    split; [exact HP|]. split; [|split; [exact HS|]].
    - rewrite ps_row by assumption.
      destruct (Harg (nth i (distance_table d) [])) as [_ H2]. specialize (H2 Inf).
      assert (forall a, In a (argsort (nth i (distance_table d) [])) -> a < d_cols d) as Hin.
      { intros a Ha. apply L3. rewrite ps_row by assumption. auto. }
      revert H2 Hin. generalize (argsort (nth i (distance_table d) [])).
      induction 1 as [|a l Hl IH Hf]; intro Hin; constructor.
      + apply IH. intros; apply Hin; right; auto.
      + rewrite Forall_forall in *. intros b Hb. specialize (Hf b Hb).
        assert (forall a, a < d_cols d -> nth a (nth i (distance_table d) []) Inf = nth (di d i a) (d_distvals d) Inf) as E.
        { intros a' Ha'. change (nth a' (nth i (distance_table d) []) Inf) with (cell Inf (distance_table d) i a').
          unfold distance_table. rewrite (cell_map_map _ 0 Inf _ _ _ _ _ Rd Hi Ha'). reflexivity. }
        rewrite !E in Hf by (apply Hin; simpl; auto). exact Hf.
    - unfold slots, valid_slots. change (d_cols (sort_neighbors argsort d)) with (d_cols d).
      rewrite <- (filter_map_nth (valid d i) (nth i (ps d) []) (d_cols d)) by assumption.
      rewrite map_map.
      rewrite (filter_ext_seq _ (fun c => valid d i (nth c (nth i (ps d) []) 0))).
      2:{ intros c _ Hc. apply HS. lia. }
      apply map_ext_in. intros c Hc. apply filter_In in Hc. destruct Hc as [Hc _]. apply in_seq in Hc.
      apply HS. lia.
  Qed.

  Lemma sort_neighbors_wf d : wf d -> wf (sort_neighbors argsort d).
  Proof.
    intros W. pose proof (wf_c _ W) as C.
    pose proof (wf_neighbors _ C) as Rn. pose proof (wf_distances _ C) as Rd.
    pose proof (ps_rect d Rd) as Rp.
    assert (forall i c, i < nsites d -> c < d_cols d -> exists c', c' < d_cols d /\
              slot_at (sort_neighbors argsort d) i c = slot_at d i c' /\
              valid (sort_neighbors argsort d) i c = valid d i c' /\
              di (sort_neighbors argsort d) i c = di d i c') as H.
    { intros i c Hi Hc. destruct (sort_neighbors_slots d i W Hi) as [p [HP [_ [HS _]]]].
      exists (nth c p 0). destruct (perm_facts _ _ HP) as [L1 [L2 L3]].
      split; [apply L3, nth_In; lia|]. auto. }
    constructor; [constructor|..]; unfold nsites; simpl; fold (ps d); fold (nsites d); try apply C;
      try (apply rect_take_rows; [apply C || apply W|apply Rp]).
    - intros i c Hi Hc. destruct (H i c Hi Hc) as [c' [Hc' [_ [_ E]]]]. rewrite E. apply C; auto.
    - intros i c Hi Hc Hv. destruct (H i c Hi Hc) as [c' [Hc' [E [F _]]]].
      assert (nb (sort_neighbors argsort d) i c = nb d i c') as -> by exact (f_equal s_nbr E).
      apply C; auto. congruence.
    - intros i c Hi Hc. destruct (H i c Hi Hc) as [c' [Hc' [E _]]].
      pose proof (f_equal s_nvec E) as E2. simpl in E2. fold (ps d) in E2. rewrite E2. apply W; auto.
    - intros i c Hi Hc. destruct (H i c Hi Hc) as [c' [Hc' [E _]]].
      pose proof (f_equal s_axes E) as E2. simpl in E2. fold (ps d) in E2. rewrite E2. apply W; auto.
    - intros i c Hi Hc Hv. destruct (H i c Hi Hc) as [c' [Hc' [E [F _]]]].
      rewrite F. apply W; auto.
      pose proof (f_equal s_per E) as E2. simpl in E2. congruence.
  Qed.
End SortNeighbors.

(** ** Writing into rows *)

Lemma put_row_spec {A} (x : A) n m i i0 vs t :
  rect n m t -> i < n -> i0 + length vs <= m ->
  exists t', put_row i i0 vs t = Some t' /\ rect n m t' /\
    (forall j c, j < n -> c < m ->
       cell x t' j c = if (j =? i) && ((i0 <=? c) && (c <? i0 + length vs)) then nth (c - i0) vs x else cell x t j c).
Proof.
  intros R Hi Hl. unfold put_row. destruct (rect_row _ _ _ _ R Hi) as [r [Hr [Lr Nr]]]. rewrite Hr.
  unfold put_slice. rewrite (proj2 (Nat.leb_le (i0 + length vs) (length r))) by lia.
  eexists. split; [reflexivity|]. split.
  - apply rect_set_nth; auto. rewrite assign_slice_length. auto.
  - intros j c Hj Hc. unfold cell. rewrite nth_set_nth.
    rewrite (proj1 R), (proj2 (Nat.ltb_lt j n)) by assumption. rewrite andb_true_r.
    destruct (j =? i) eqn:E; simpl; auto. apply Nat.eqb_eq in E. subst j.
    rewrite nth_assign_slice, Lr, (proj2 (Nat.ltb_lt c m)) by assumption. rewrite andb_true_r.
    rewrite Nr. reflexivity.
Qed.

(** A single value is dropped when the row is full. *)
Lemma put_row_full {A} n m i (v : A) t : rect n m t -> i < n ->
  put_row i m [v] t = Some (set_nth i (nth i t []) t).
Proof.
  intros R Hi. unfold put_row. destruct (rect_row _ _ _ _ R Hi) as [r [Hr [Lr Nr]]]. rewrite Hr.
  unfold put_slice. simpl. rewrite (proj2 (Nat.leb_gt (m + 1) (length r))) by lia. rewrite Nr. reflexivity.
Qed.

Lemma set_nth_same {A} (x : A) i t : set_nth i (nth i t x) t = t.
Proof. revert i. induction t as [|y t IH]; intros [|i]; simpl; auto. f_equal. apply IH. Qed.

Lemma count_prefix (f : nat -> bool) n m : m <= n -> (forall c, c < n -> f c = (c <? m)) ->
  filter f (seq 0 n) = seq 0 m.
Proof.
  intros Hm H. replace n with (m + (n - m)) by lia. rewrite seq_app, filter_app.
  assert (filter f (seq 0 m) = seq 0 m) as ->.
  { rewrite (filter_ext_seq f (fun _ => true)).
    - clear. generalize (seq 0 m). induction l; simpl; congruence.
    - intros i _ Hi. rewrite H by lia. apply Nat.ltb_lt. lia. }
  rewrite (filter_ext_seq f (fun _ => false)).
  - simpl. replace (filter (fun _ => false) (seq m (n - m))) with (@nil nat); [apply app_nil_r|].
    generalize (seq m (n - m)). induction l; simpl; auto.
  - intros i Hi1 Hi2. rewrite H by lia. apply Nat.ltb_ge. lia.
Qed.

(** ** add_neighbors *)

Lemma valid_ne d i c : wf_core d -> i < nsites d -> c < d_cols d ->
  valid d i c = negb (di d i c =? d_invalid_distidx d).
Proof.
  intros W Hi Hc. pose proof (inf_last _ _ (wf_distvals _ W) (wf_invalid _ W)) as Hl.
  pose proof (wf_di _ W i c Hi Hc). unfold valid.
  destruct (di d i c =? d_invalid_distidx d) eqn:E; simpl.
  - apply Nat.eqb_eq in E. apply Nat.ltb_ge. lia.
  - apply Nat.eqb_neq in E. apply Nat.ltb_lt. lia.
Qed.

Lemma add_count d i dists : wf_core d -> i < nsites d -> nth_error (d_distances d) i = Some dists ->
  length (select (map (fun k => negb (k =? d_invalid_distidx d)) dists) dists) = length (valid_slots d i).
Proof.
  intros W Hi Hd. destruct (rect_row _ _ _ _ (wf_distances _ W) Hi) as [dr [Hdr [Ldr Ndr]]].
  assert (dists = dr) as -> by congruence.
  rewrite (select_seq 0) by (rewrite map_length; reflexivity). rewrite map_length, Ldr.
  unfold valid_slots. f_equal. apply filter_ext_seq. intros c _ Hc.
  rewrite (nth_map_lt _ _ _ 0) by lia. rewrite valid_ne by (auto; lia).
  unfold di, cell. rewrite Ndr. reflexivity.
Qed.

Lemma add_neighbor_spec d i j v k m :
  wf_core d -> i < nsites d -> j < nsites d -> m < d_cols d ->
  (forall c, c < d_cols d -> valid d i c = (c <? m)) ->
  nth_error (d_distvals d) k = Some v -> v <> Inf ->
  exists d', add_neighbor d i j v = Some d' /\
    d_dim d' = d_dim d /\ d_cols d' = d_cols d /\ d_indices d' = d_indices d /\ d_positions d' = d_positions d /\
    d_distvals d' = d_distvals d /\ d_invalid_idx d' = d_invalid_idx d /\
    d_invalid_distidx d' = d_invalid_distidx d /\
    d_pmask d' = d_pmask d /\ d_pnvecs d' = d_pnvecs d /\ d_paxes d' = d_paxes d /\ d_dmap d' = d_dmap d /\
    rect (nsites d) (d_cols d) (d_neighbors d') /\ rect (nsites d) (d_cols d) (d_distances d') /\
    (forall i' c, i' < nsites d -> c < d_cols d ->
       nb d' i' c = (if (i' =? i) && (c =? m) then j else nb d i' c) /\
       di d' i' c = (if (i' =? i) && (c =? m) then k else di d i' c)).
Proof.
  intros W Hi Hj Hm Hpk Hk Hv. unfold add_neighbor.
  destruct (rect_row _ _ _ _ (wf_distances _ W) Hi) as [dr [Hdr [Ldr Ndr]]]. rewrite Hdr.
  rewrite (add_count d i dr W Hi Hdr).
  assert (length (valid_slots d i) = m) as ->.
  { unfold valid_slots. rewrite (count_prefix _ _ m) by (auto; lia). apply seq_length. }
  rewrite (searchsorted_found _ _ k (wf_distvals _ W) Hk).
  destruct (put_row_spec 0 _ _ i m [j] _ (wf_neighbors _ W) Hi) as [t1 [-> [R1 C1]]]; [simpl; lia|].
  destruct (put_row_spec 0 _ _ i m [k] _ (wf_distances _ W) Hi) as [t2 [-> [R2 C2]]]; [simpl; lia|].
  eexists. split; [reflexivity|]. cbn [d_dim d_cols d_indices d_positions d_distvals d_invalid_idx
    d_invalid_distidx d_pmask d_pnvecs d_paxes d_dmap d_neighbors d_distances].
  repeat (split; [reflexivity|]). split; auto. split; auto.
  intros i' c Hi' Hc. unfold nb, di. cbn [d_neighbors d_distances].
  rewrite C1, C2 by assumption. cbn [length].
  replace ((m <=? c) && (c <? m + 1)) with (c =? m).
  2:{ destruct (c =? m) eqn:E.
      - apply Nat.eqb_eq in E. subst. symmetry. apply andb_true_iff. rewrite Nat.leb_le, Nat.ltb_lt. lia.
      - apply Nat.eqb_neq in E. symmetry. apply andb_false_iff. rewrite Nat.leb_gt, Nat.ltb_ge. lia. }
  destruct (i' =? i); simpl; auto. destruct (c =? m) eqn:E; auto.
  apply Nat.eqb_eq in E. subst. rewrite Nat.sub_diag. auto.
Qed.

Lemma add_neighbor_full d i j v : wf_core d -> i < nsites d ->
  (forall c, c < d_cols d -> valid d i c = true) -> add_neighbor d i j v = Some d.
Proof.
  intros W Hi Hf. unfold add_neighbor.
  destruct (rect_row _ _ _ _ (wf_distances _ W) Hi) as [dr [Hdr [Ldr Ndr]]]. rewrite Hdr.
  rewrite (add_count d i dr W Hi Hdr).
  assert (length (valid_slots d i) = d_cols d) as ->.
  { unfold valid_slots. rewrite (count_prefix _ _ (d_cols d)); auto; [apply seq_length|].
    intros c Hc. rewrite Hf by assumption. symmetry. apply Nat.ltb_lt. auto. }
  rewrite (put_row_full _ _ _ _ _ (wf_neighbors _ W) Hi), (put_row_full _ _ _ _ _ (wf_distances _ W) Hi).
  rewrite !set_nth_same. destruct d; reflexivity.
Qed.

(** ** remove_periodic *)

Lemma remove_periodic_spec d : wf d ->
  let d' := remove_periodic d in
  wf d' /\
  (forall i c, i < nsites d -> c < d_cols d ->
     nb d' i c = (if pm d i c then nsites d else nb d i c) /\
     di d' i c = (if pm d i c then d_invalid_distidx d else di d i c) /\
     valid d' i c = negb (pm d i c) && valid d i c /\
     pm d' i c = false /\
     cell [] (d_pnvecs d') i c = repeat 0%Z (d_dim d) /\
     cell [] (d_paxes d') i c = repeat (d_dim d) (d_dim d)).
Proof.
  intros W d'. pose proof (wf_c _ W) as C.
  pose proof (wf_neighbors _ C) as Rn. pose proof (wf_distances _ C) as Rd. pose proof (wf_pmask _ W) as Rm.
  assert (forall (X Y : Type) (y : Y) (l : list X), map (fun _ => y) l = repeat y (length l)) as Hrep.
  { intros X Y y l. induction l; simpl; congruence. }
  assert (forall i c, i < nsites d -> c < d_cols d ->
     nb d' i c = (if pm d i c then nsites d else nb d i c) /\
     di d' i c = (if pm d i c then d_invalid_distidx d else di d i c) /\
     valid d' i c = negb (pm d i c) && valid d i c /\
     pm d' i c = false /\
     cell [] (d_pnvecs d') i c = repeat 0%Z (d_dim d) /\
     cell [] (d_paxes d') i c = repeat (d_dim d) (d_dim d)) as H.
  { intros i c Hi Hc.
    assert (di d' i c = (if pm d i c then d_invalid_distidx d else di d i c)) as Edi.
    { unfold di, d'. simpl. rewrite (cell_map2 _ _ _ _ _ _ _ _ _ Rm Rd Hi).
      rewrite nth_assign_mask by (rewrite (rect_nth _ _ _ _ Rd Hi); auto). reflexivity. }
    split; [|split; [exact Edi|split; [|split; [|split]]]].
    - unfold nb, d'. simpl. rewrite (cell_map2 _ _ _ _ _ _ _ _ _ Rm Rn Hi).
      rewrite nth_assign_mask by (rewrite (rect_nth _ _ _ _ Rn Hi); auto).
      rewrite (wf_invalid_idx _ C). reflexivity.
    - unfold valid. rewrite Edi. change (d_invalid_distidx d') with (d_invalid_distidx d).
      destruct (pm d i c); simpl; auto. apply Nat.ltb_irrefl.
    - unfold pm, d'. simpl. rewrite (cell_map_map _ false _ _ _ _ _ _ Rm Hi Hc). reflexivity.
    - unfold d'. simpl. rewrite (cell_map_map _ [] _ _ _ _ _ _ (wf_pnvecs _ W) Hi Hc).
      rewrite Hrep, (wf_nvec _ W) by assumption. reflexivity.
    - unfold d'. simpl. rewrite (cell_map_map _ [] _ _ _ _ _ _ (wf_paxes _ W) Hi Hc).
      rewrite Hrep, (wf_ax _ W) by assumption. reflexivity. }
  split; [|exact H].
  pose proof (inf_last _ _ (wf_distvals _ C) (wf_invalid _ C)) as Hlast.
  constructor; [constructor|..]; unfold nsites; cbn [d' remove_periodic d_dim d_cols d_indices d_positions d_distvals
    d_invalid_idx d_invalid_distidx d_pmask d_pnvecs d_paxes d_dmap d_neighbors d_distances];
    fold (nsites d); try apply C.
  - apply (rect_map2 _ _ _ _ _ Rm Rn). intros. rewrite assign_mask_length. auto.
  - apply (rect_map2 _ _ _ _ _ Rm Rd). intros. rewrite assign_mask_length. auto.
  - intros i c Hi Hc. destruct (H i c Hi Hc) as [_ [E _]]. change (remove_periodic d) with d'. rewrite E.
    destruct (pm d i c); [lia|]. apply C; auto.
  - intros i c Hi Hc Hv. destruct (H i c Hi Hc) as [E [_ [F _]]]. change (remove_periodic d) with d' in Hv |- *. rewrite E.
    rewrite F in Hv. apply andb_true_iff in Hv. destruct Hv as [H1 H2]. apply negb_true_iff in H1. rewrite H1.
    apply C; auto.
  - apply rect_map_map. auto.
  - apply rect_map_map. apply W.
  - apply rect_map_map. apply W.
  - intros i c Hi Hc. destruct (H i c Hi Hc) as [_ [_ [_ [_ [E _]]]]]. simpl in E. rewrite E. apply repeat_length.
  - intros i c Hi Hc. destruct (H i c Hi Hc) as [_ [_ [_ [_ [_ E]]]]]. simpl in E. rewrite E. apply repeat_length.
  - intros i c Hi Hc Hp. destruct (H i c Hi Hc) as [_ [_ [_ [E _]]]]. change (remove_periodic d) with d' in Hp.
    congruence.
Qed.

(** ** set_periodic *)

(** Row [i] has [m] regular neighbours, then free slots. *)
Definition fresh (d : data) i m : Prop :=
  m <= d_cols d /\
  forall c, c < d_cols d -> valid d i c = (c <? m) /\ pm d i c = false /\
    cell [] (d_paxes d) i c = repeat (d_dim d) (d_dim d).

(** The slot a periodic neighbour should occupy. *)
Definition pslot (dim : nat) (p : pneighbor) : slot :=
  mkSlot (pn_idx p) (pn_dist p) true (pn_nvec p) (pn_axes p ++ repeat dim (dim - length (pn_axes p))).

Definition pn_ok (d : data) (p : pneighbor) : Prop :=
  pn_idx p < nsites d /\ In (pn_dist p) (d_distvals d) /\ pn_dist p <> Inf /\
  length (pn_nvec p) = d_dim d /\ length (pn_axes p) <= d_dim d.

Lemma assign_slice_0_repeat {A} (l : list A) (x : A) n : length l <= n ->
  assign_slice 0 l (repeat x n) = l ++ repeat x (n - length l).
Proof.
  revert n. induction l as [|y l IH]; intros [|n] H; simpl in *; try lia; auto.
  f_equal. apply IH. lia.
Qed.

Lemma seq_split3 i0 k n : i0 + k <= n -> seq 0 n = seq 0 i0 ++ seq i0 k ++ seq (i0 + k) (n - i0 - k).
Proof.
  intro H. replace n with (i0 + (k + (n - i0 - k))) at 1 by lia. rewrite !seq_app. simpl. reflexivity.
Qed.

Lemma filter_all {A} (f : A -> bool) l : (forall x, In x l -> f x = true) -> filter f l = l.
Proof.
  induction l as [|x l IH]; intro H; simpl; auto. rewrite (H x) by (left; auto).
  f_equal. apply IH. intros; apply H; right; auto.
Qed.

Lemma filter_none {A} (f : A -> bool) l : (forall x, In x l -> f x = false) -> filter f l = [].
Proof.
  induction l as [|x l IH]; intro H; simpl; auto. rewrite (H x) by (left; auto).
  apply IH. intros; apply H; right; auto.
Qed.

Lemma map_seq_nth {A} (x : A) (l : list A) k : map (fun c => nth (c - k) l x) (seq k (length l)) = l.
Proof.
  revert k. induction l as [|y l IH]; intro k; simpl; auto. rewrite Nat.sub_diag. f_equal.
  rewrite <- (IH (S k)) at 2. apply map_ext_in_seq. intros c H1 H2.
  replace (c - k) with (S (c - S k)) by lia. reflexivity.
Qed.

Lemma set_periodic_step_spec d i pn m :
  wf d -> i < nsites d -> fresh d i m -> m + length pn <= d_cols d -> Forall (pn_ok d) pn ->
  exists d', set_periodic_step d (i, pn) = Some d' /\ wf d' /\
    d_dim d' = d_dim d /\ d_cols d' = d_cols d /\ d_indices d' = d_indices d /\ d_positions d' = d_positions d /\
    d_distvals d' = d_distvals d /\ d_invalid_distidx d' = d_invalid_distidx d /\ d_dmap d' = d_dmap d /\
    (forall i' c, i' < nsites d -> c < d_cols d -> i' <> i -> slot_at d' i' c = slot_at d i' c /\
       valid d' i' c = valid d i' c /\ nb d' i' c = nb d i' c) /\
    (forall c, c < d_cols d -> valid d' i c = (c <? m + length pn) /\ pm d' i c = (m <=? c) && (c <? m + length pn) /\
       (c < m \/ m + length pn <= c -> slot_at d' i c = slot_at d i c) /\
       (valid d' i c = false -> nb d' i c = nb d i c)) /\
    slots d' i = slots d i ++ map (pslot (d_dim d)) pn.
Proof.
  intros W Hi [Hm Hfr] Hfit Hok. pose proof (wf_c _ W) as C. unfold set_periodic_step.
  rewrite (get_neighbors_wf d i None (Some false) false W Hi).
  assert (filter (selects d i None (Some false) false) (seq 0 (d_cols d)) = seq 0 m) as Ereg.
  { apply count_prefix; auto. intros c Hc. unfold selects. destruct (Hfr c Hc) as [E1 [E2 _]]. rewrite E1, E2.
    simpl. rewrite !andb_true_r. reflexivity. }
  rewrite Ereg, map_length, seq_length.
  set (distidx := map (fun p => searchsorted dltb (d_distvals d) (pn_dist p)) pn).
  set (L := length pn) in *.
  assert (length distidx = L) as Ld by (unfold distidx; apply map_length).
  destruct (put_row_spec 0 _ _ i m (map pn_idx pn) _ (wf_neighbors _ C) Hi) as [t1 [-> [R1 C1]]];
    [rewrite map_length; lia|].
  destruct (put_row_spec 0 _ _ i m distidx _ (wf_distances _ C) Hi) as [t2 [-> [R2 C2]]];
    [lia|].
  unfold put_axes. destruct (rect_row _ _ _ _ (wf_paxes _ W) Hi) as [ar [Har [Lar Nar]]]. rewrite Har.
  set (axs := map2 (fun p old => assign_slice 0 (pn_axes p) old) pn (skipn m ar)).
  assert (length axs = L) as La by (unfold axs; rewrite map2_length, skipn_length; unfold L; lia).
  destruct (put_row_spec [] _ _ i m axs _ (wf_paxes _ W) Hi) as [t3 [-> [R3 C3]]]; [lia|].
  destruct (put_row_spec [] _ _ i m (map pn_nvec pn) _ (wf_pnvecs _ W) Hi) as [t4 [-> [R4 C4]]];
    [rewrite map_length; unfold L in *; lia|].
  destruct (put_row_spec false _ _ i m (map (fun _ => true) pn) _ (wf_pmask _ W) Hi) as [t5 [-> [R5 C5]]];
    [rewrite map_length; unfold L in *; lia|].
  rewrite map_length in C1, C4, C5. fold L in C1, C4, C5. rewrite Ld in C2. rewrite La in C3.
  eexists. split; [reflexivity|].
  set (d' := mkData _ _ _ _ _ _ _ _ _ _ _ _ _).
  assert (forall c, c < L -> exists p, nth_error pn c = Some p /\ pn_ok d p /\
            nth c (map pn_idx pn) 0 = pn_idx p /\
            nth_error (d_distvals d) (nth c distidx 0) = Some (pn_dist p) /\ nth c distidx 0 < d_invalid_distidx d /\
            nth c (map pn_nvec pn) [] = pn_nvec p /\
            nth c axs [] = pn_axes p ++ repeat (d_dim d) (d_dim d - length (pn_axes p)) /\
            nth c (map (fun _ => true) pn) false = true) as Hp.
  { intros c Hc. destruct (nth_error_lt pn c Hc) as [p Ep]. exists p. split; auto.
    assert (pn_ok d p) as Ok by (rewrite Forall_forall in Hok; apply Hok; eapply nth_error_In; eauto).
    split; auto.
    assert (forall (B : Type) (f : pneighbor -> B) x, nth c (map f pn) x = f p) as Hn.
    { intros B f x. apply nth_of_nth_error. rewrite nth_error_map', Ep. reflexivity. }
    destruct Ok as [O1 [O2 [O3 [O4 O5]]]].
    apply In_nth_error in O2. destruct O2 as [k Hk].
    assert (nth c distidx 0 = k) as Ek.
    { unfold distidx. rewrite Hn. apply searchsorted_found; auto. apply C. }
    split; [apply Hn|]. rewrite Ek. split; [exact Hk|]. split.
    { pose proof (inf_last _ _ (wf_distvals _ C) (wf_invalid _ C)) as Hl.
      pose proof (nth_error_length_lt _ _ _ Hk).
      destruct (Nat.eq_dec k (d_invalid_distidx d)) as [->|]; [|lia].
      exfalso. apply O3. pose proof (wf_invalid _ C). congruence. }
    split; [apply Hn|]. split; [|apply Hn].
    unfold axs. rewrite (nth_map2 _ _ _ _ (mkPN 0 Inf [] []) []) by (rewrite ?skipn_length; unfold L in *; lia).
    rewrite (nth_of_nth_error _ _ _ _ Ep).
    assert (nth c (skipn m ar) [] = repeat (d_dim d) (d_dim d)) as ->.
    { assert (forall k (l : list (list nat)) c, nth c (skipn k l) [] = nth (k + c) l []) as Hsk.
      { clear. induction k as [|k IH]; intros l c; simpl; auto. destruct l; simpl; auto. destruct c; auto. }
      rewrite Hsk. destruct (Hfr (m + c)) as [_ [_ E]]; [unfold L in *; lia|]. unfold cell in E. rewrite Nar in E.
      exact E. }
    apply assign_slice_0_repeat. auto. }
  assert (forall i' c, i' < nsites d -> c < d_cols d -> i' <> i -> slot_at d' i' c = slot_at d i' c /\
       valid d' i' c = valid d i' c /\ nb d' i' c = nb d i' c /\ di d' i' c = di d i' c) as Hother.
  { intros i' c Hi' Hc Hne. apply Nat.eqb_neq in Hne.
    specialize (C1 i' c Hi' Hc). specialize (C2 i' c Hi' Hc). specialize (C3 i' c Hi' Hc).
    specialize (C4 i' c Hi' Hc). specialize (C5 i' c Hi' Hc).
    rewrite Hne in C1, C2, C3, C4, C5. cbn [andb] in C1, C2, C3, C4, C5.
    unfold valid, slot_at, nb, di, pm. simpl. rewrite C1, C2, C3, C4, C5. auto. }
  assert (forall c, c < d_cols d -> (m <=? c) && (c <? m + L) = false ->
            slot_at d' i c = slot_at d i c /\ valid d' i c = valid d i c /\ nb d' i c = nb d i c /\
            di d' i c = di d i c) as Hout.
  { intros c Hc E.
    specialize (C1 i c Hi Hc). specialize (C2 i c Hi Hc). specialize (C3 i c Hi Hc).
    specialize (C4 i c Hi Hc). specialize (C5 i c Hi Hc).
    rewrite E, andb_false_r in C1, C2, C3, C4, C5.
    unfold valid, slot_at, nb, di, pm. simpl. rewrite C1, C2, C3, C4, C5. auto. }
  assert (forall c, c < d_cols d -> (m <=? c) && (c <? m + L) = true ->
            exists p, nth_error pn (c - m) = Some p /\ pn_ok d p /\ slot_at d' i c = pslot (d_dim d) p /\
              di d' i c < d_invalid_distidx d /\ di d' i c < length (d_distvals d)) as Hin.
  { intros c Hc E. pose proof E as E'. apply andb_true_iff in E'. destruct E' as [E1 E2].
    apply Nat.leb_le in E1. apply Nat.ltb_lt in E2.
    destruct (Hp (c - m)) as [p [P1 [P2 [P3 [P4 [P5 [P6 [P7 P8]]]]]]]]; [lia|]. exists p. split; auto. split; auto.
    specialize (C1 i c Hi Hc). specialize (C2 i c Hi Hc). specialize (C3 i c Hi Hc).
    specialize (C4 i c Hi Hc). specialize (C5 i c Hi Hc).
    rewrite Nat.eqb_refl, E in C1, C2, C3, C4, C5. cbn [andb] in C1, C2, C3, C4, C5.
    unfold slot_at, nb, di, pm, pslot. simpl. rewrite C1, C2, C3, C4, C5.
    rewrite P3, P6, P7, P8, (nth_of_nth_error _ _ Inf _ P4).
    split; auto. split; auto. eapply nth_error_length_lt; eauto. }
  assert (forall c, c < d_cols d -> valid d' i c = (c <? m + L)) as Hval.
  { intros c Hc. destruct ((m <=? c) && (c <? m + L)) eqn:E.
    - destruct (Hin c Hc E) as [p [_ [_ [_ [H _]]]]]. unfold valid.
      change (d_invalid_distidx d') with (d_invalid_distidx d). rewrite (proj2 (Nat.ltb_lt _ _) H).
      apply andb_true_iff in E. symmetry. apply E.
    - destruct (Hout c Hc E) as [_ [-> _]]. destruct (Hfr c Hc) as [-> _].
      apply andb_false_iff in E. rewrite Nat.leb_gt, Nat.ltb_ge in E.
      destruct (c <? m) eqn:E2; [apply Nat.ltb_lt in E2; symmetry; apply Nat.ltb_lt; lia|].
      apply Nat.ltb_ge in E2. symmetry. apply Nat.ltb_ge. lia. }
  split.
  { constructor; [constructor|..]; unfold nsites; cbn [d' d_dim d_cols d_indices d_positions d_distvals
      d_invalid_idx d_invalid_distidx d_pmask d_pnvecs d_paxes d_dmap d_neighbors d_distances];
      fold (nsites d); try apply C; auto.
    - intros i' c Hi' Hc. change (di d' i' c < length (d_distvals d)). destruct (Nat.eq_dec i' i) as [->|Hne].
      + destruct ((m <=? c) && (c <? m + L)) eqn:E.
        * destruct (Hin c Hc E) as [p [_ [_ [_ [_ H]]]]]. exact H.
        * destruct (Hout c Hc E) as [_ [_ [_ ->]]]. apply C; auto.
      + destruct (Hother i' c Hi' Hc Hne) as [_ [_ [_ ->]]]. apply C; auto.
    - intros i' c Hi' Hc Hv. change (valid d' i' c = true) in Hv. change (nb d' i' c < nsites d).
      destruct (Nat.eq_dec i' i) as [->|Hne].
      + destruct ((m <=? c) && (c <? m + L)) eqn:E.
        * destruct (Hin c Hc E) as [p [_ [H [E2 _]]]]. pose proof (f_equal s_nbr E2) as E3. simpl in E3.
          rewrite E3. apply H.
        * destruct (Hout c Hc E) as [_ [E2 [-> _]]]. apply C; auto. congruence.
      + destruct (Hother i' c Hi' Hc Hne) as [_ [E2 [-> _]]]. apply C; auto. congruence.
    - intros i' c Hi' Hc. change (cell [] t4 i' c) with (s_nvec (slot_at d' i' c)).
      destruct (Nat.eq_dec i' i) as [->|Hne].
      + destruct ((m <=? c) && (c <? m + L)) eqn:E.
        * destruct (Hin c Hc E) as [p [_ [H [-> _]]]]. apply H.
        * destruct (Hout c Hc E) as [-> _]. apply W; auto.
      + destruct (Hother i' c Hi' Hc Hne) as [-> _]. apply W; auto.
    - intros i' c Hi' Hc. change (cell [] t3 i' c) with (s_axes (slot_at d' i' c)).
      destruct (Nat.eq_dec i' i) as [->|Hne].
      + destruct ((m <=? c) && (c <? m + L)) eqn:E.
        * destruct (Hin c Hc E) as [p [_ [H [-> _]]]]. simpl. rewrite app_length, repeat_length.
          destruct H as [_ [_ [_ [_ H]]]]. lia.
        * destruct (Hout c Hc E) as [-> _]. apply W; auto.
      + destruct (Hother i' c Hi' Hc Hne) as [-> _]. apply W; auto.
    - intros i' c Hi' Hc Hv. change (pm d' i' c = true) in Hv. change (valid d' i' c = true).
      destruct (Nat.eq_dec i' i) as [->|Hne].
      + destruct ((m <=? c) && (c <? m + L)) eqn:E.
        * rewrite Hval by assumption. apply andb_true_iff in E. apply E.
        * destruct (Hout c Hc E) as [E2 [-> _]]. pose proof (f_equal s_per E2) as E3. simpl in E3.
          apply W; auto. congruence.
      + destruct (Hother i' c Hi' Hc Hne) as [E2 [-> _]]. pose proof (f_equal s_per E2) as E3. simpl in E3.
        apply W; auto. congruence. }
  do 7 (split; [reflexivity|]). split.
  { intros i' c Hi' Hc Hne. destruct (Hother i' c Hi' Hc Hne) as [H1 [H2 [H3 _]]]. auto. }
  split.
  { intros c Hc. split; [auto|]. split; [|split].
    - destruct ((m <=? c) && (c <? m + L)) eqn:E.
      + destruct (Hin c Hc E) as [p [_ [_ [E2 _]]]]. exact (f_equal s_per E2).
      + destruct (Hout c Hc E) as [E2 _]. pose proof (f_equal s_per E2) as E3. simpl in E3. rewrite E3.
        apply Hfr. auto.
    - intro H. apply Hout; auto. apply andb_false_iff. rewrite Nat.leb_gt, Nat.ltb_ge. lia.
    - rewrite Hval by assumption. intro H. apply Nat.ltb_ge in H. apply Hout; auto.
      apply andb_false_iff. rewrite Nat.leb_gt, Nat.ltb_ge. lia. }
  unfold slots, valid_slots. change (d_cols d') with (d_cols d).
  rewrite (count_prefix (valid d' i) (d_cols d) (m + L)) by (auto; lia).
  rewrite (count_prefix (valid d i) (d_cols d) m) by (auto; apply Hfr).
  rewrite seq_app, map_app. f_equal.
  - apply map_ext_in_seq. intros c _ Hc. apply Hout; [lia|].
    apply andb_false_iff. rewrite Nat.leb_gt, Nat.ltb_ge. lia.
  - simpl. rewrite <- (map_seq_nth (mkPN 0 Inf [] []) pn m) at 1. fold L. rewrite map_map.
    apply map_ext_in_seq. intros c H1 H2.
    destruct (Hin c) as [p [E1 [_ [E2 _]]]]; [lia| |].
    + apply andb_true_iff. rewrite Nat.leb_le, Nat.ltb_lt. lia.
    + rewrite E2. f_equal. symmetry. apply nth_of_nth_error. auto.
Qed.
