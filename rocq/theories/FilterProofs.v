(** * The neighbour table computed for built sites *)
From Coq Require Import List ZArith QArith Bool Arith Lia Permutation Sorting.Sorted.
From Verif Require Import Np NpFacts LinAlg LinFacts SpecUtils SpecBasis SpecSpatial SpecData BasisModel BasisProofs SpatialModel SpatialProofs
  ShapeModel SpecStructure StructureModel StructureFacts.
Import ListNotations.
Open Scope nat_scope.
Open Scope list_scope.

Notation nentry := (nat * dist)%type (only parsing).

Definition fin (e : nentry) : bool := negb (deqb (snd e) Inf).

(** ** Removing unconnected pairs *)

Section Clean.
  Variables (indices : list (list Z)) (distmat : list (list (list dist))).
  Let N := length indices.

  Definition hit (a : Z) (e : nentry) (pair : nat * nat) : bool :=
    (a =? Z.of_nat (fst pair))%Z && (padded_alpha indices (fst e) =? Z.of_nat (snd pair))%Z
      && negb (existsb (deqb (snd e)) (entry2 [] distmat (fst pair) (snd pair))).

  Definition clean_pairs (pairs : list (nat * nat)) (a : Z) (e : nentry) : nentry :=
    if existsb (hit a e) pairs then (N, Inf) else e.

  Lemma padded_invalid : padded_alpha indices N = (-1)%Z.
  Proof. unfold padded_alpha, N. rewrite nth_overflow by lia. reflexivity. Qed.

  Lemma hit_invalid a pairs x : existsb (hit a (N, x)) pairs = false.
  Proof.
    apply not_true_iff_false. intro H. apply existsb_exists in H. destruct H as [p [_ H]]. unfold hit in H. cbn [fst] in H.
    rewrite padded_invalid in H. apply andb_true_iff in H. destruct H as [H _]. apply andb_true_iff in H. destruct H as [_ H].
    apply Z.eqb_eq in H. lia.
  Qed.

  Lemma fold_disconnect pairs : forall rows : list (Z * list nentry),
    fold_left (disconnect indices distmat) pairs rows = map (fun xr => (fst xr, map (clean_pairs pairs (fst xr)) (snd xr))) rows.
  Proof.
    induction pairs as [|p pairs IH]; intro rows; cbn [fold_left].
    - symmetry. rewrite <- (map_id rows) at 2. apply map_ext. intros [a r]. cbn. f_equal. rewrite <- (map_id r) at 2. apply map_ext. reflexivity.
    - rewrite IH. unfold disconnect. destruct p as [a1 a2]. rewrite map_map. apply map_ext. intros [a r]. cbn [fst snd]. f_equal.
      rewrite map_map. apply map_ext. intro e. unfold clean_pairs. cbn [existsb].
      change ((a =? Z.of_nat a1)%Z && (padded_alpha indices (fst e) =? Z.of_nat a2)%Z && negb (existsb (deqb (snd e)) (entry2 [] distmat a1 a2)))
        with (hit a e (a1, a2)).
      destruct (hit a e (a1, a2)); cbn [orb]; auto. fold N. rewrite hit_invalid. reflexivity.
  Qed.

  Definition all_pairs := list_prod (seq 0 (length distmat)) (seq 0 (length distmat)).
  Definition clean := clean_pairs all_pairs.

  Lemma clean_in_range a e b : (0 <= a < Z.of_nat (length distmat))%Z -> padded_alpha indices (fst e) = Z.of_nat b -> b < length distmat ->
    clean a e = if existsb (deqb (snd e)) (entry2 [] distmat (Z.to_nat a) b) then e else (N, Inf).
  Proof.
    intros Ha Hb Hlt. unfold clean, clean_pairs.
    assert (existsb (hit a e) all_pairs = negb (existsb (deqb (snd e)) (entry2 [] distmat (Z.to_nat a) b))) as ->; [|destruct (existsb _ _); reflexivity].
    apply eq_true_iff_eq. rewrite existsb_exists. split.
    - intros [[a1 a2] [_ H]]. unfold hit in H. cbn [fst snd] in H. rewrite Hb in H. apply andb_true_iff in H. destruct H as [H H1].
      apply andb_true_iff in H. destruct H as [H2 H3]. apply Z.eqb_eq in H2, H3.
      assert (a1 = Z.to_nat a /\ a2 = b) as [-> ->] by lia. exact H1.
    - intro H. exists (Z.to_nat a, b). split; [apply in_prod; apply in_seq; lia|]. unfold hit. cbn [fst snd]. rewrite Hb, H.
      rewrite Z2Nat.id by lia. rewrite !Z.eqb_refl. reflexivity.
  Qed.

  Lemma clean_invalid a : clean a (N, Inf) = (N, Inf).
  Proof. unfold clean, clean_pairs. destruct (existsb _ _); reflexivity. Qed.
End Clean.

(** ** Sorting a row *)

Lemma Permutation_take {A} (x : A) l p : Permutation p (seq 0 (length l)) -> Permutation (take x l p) l.
Proof.
  intro H. unfold take. etransitivity; [apply Permutation_map; exact H|].
  replace (map (fun i => nth i l x) (seq 0 (length l))) with l; auto.
  apply (nth_ext _ _ x x); [rewrite map_length, seq_length; auto|]. intros n Hn.
  rewrite (nth_map_in _ _ _ 0) by (rewrite seq_length; auto). rewrite seq_nth by auto. reflexivity.
Qed.

Lemma sort_row_spec argsort row : is_argsort dleb argsort ->
  Permutation (sort_row argsort row) row /\ StronglySorted (fun e f => dleb (snd e) (snd f) = true) (sort_row argsort row).
Proof.
  intro Harg. destruct (Harg (map snd row)) as [Hp Hs]. unfold sort_row. rewrite map_length in Hp. split.
  - apply Permutation_take. exact Hp.
  - specialize (Hs Inf). unfold take. assert (forall i, In i (argsort (map snd row)) -> i < length row) as Hlt.
    { intros i Hi. apply (Permutation_in _ Hp) in Hi. apply in_seq in Hi. lia. }
    clear Hp. induction Hs as [|i l H IH Hf]; cbn; constructor.
    + apply IH. intros; apply Hlt; right; auto.
    + rewrite Forall_forall in *. intros e He. apply in_map_iff in He. destruct He as [j [<- Hj]]. specialize (Hf j Hj).
      rewrite !(nth_map_in _ _ _ (0, Inf)) in Hf by (apply Hlt; cbn; auto). exact Hf.
Qed.

(** A sorted row: the finite entries first. *)
Lemma sorted_split (N : nat) l : StronglySorted (fun e f => dleb (snd e) (snd f) = true) l ->
  (forall e, In e l -> snd e = Inf -> fst e = N) ->
  l = filter fin l ++ repeat (N, Inf) (length l - length (filter fin l)).
Proof.
  intros Hs Hpad. induction Hs as [|e l H IH Hf]; [reflexivity|].
  cbn [filter length]. destruct (fin e) eqn:E.
  - cbn [app length]. rewrite IH at 1 by (intros; apply Hpad; cbn; auto). reflexivity.
  - assert (filter fin l = []) as Hnil.
    { apply filter_none. intros f Hin. rewrite Forall_forall in Hf. specialize (Hf f Hin). unfold fin in *.
      apply negb_false_iff in E. apply deqb_eq in E. rewrite E in Hf. destruct (snd f) as [z|]; [discriminate Hf|reflexivity]. }
    rewrite Hnil in *. cbn [length app] in *. rewrite Nat.sub_0_r in *. cbn [repeat].
    rewrite <- IH by (intros; apply Hpad; cbn; auto). f_equal.
    unfold fin in E. apply negb_false_iff in E. apply deqb_eq in E. specialize (Hpad e (or_introl eq_refl) E). destruct e; cbn in *; congruence.
Qed.

Lemma filter_fin_length (l : list nentry) : length (filter fin l) <= length l.
Proof. induction l as [|e l IH]; cbn; auto. destruct (fin e); cbn; lia. Qed.

Lemma Permutation_filter {A} (p : A -> bool) l m : Permutation l m -> Permutation (filter p l) (filter p m).
Proof.
  induction 1; cbn; auto.
  - destruct (p x); auto.
  - destruct (p x), (p y); auto. constructor.
  - etransitivity; eauto.
Qed.

Lemma StronglySorted_filter' {A} (R : A -> A -> Prop) (p : A -> bool) l : StronglySorted R l -> StronglySorted R (filter p l).
Proof.
  induction 1 as [|x l H IH Hf]; cbn; [constructor|]. destruct (p x); auto. constructor; auto.
  rewrite Forall_forall in *. intros y Hy. apply filter_In in Hy. apply Hf. tauto.
Qed.

(** ** Columns *)

Lemma select_firstn {A} n m (l : list A) : length l = n + m -> select (repeat true n ++ repeat false m) l = firstn n l.
Proof.
  revert l. induction n as [|n IH]; intros l Hl; cbn [repeat app firstn].
  - clear Hl. revert l. induction m as [|m IH]; intros [|x l]; cbn; auto.
  - destruct l as [|x l]; [discriminate|]. cbn. f_equal. apply IH. cbn in Hl. lia.
Qed.

Definition list_max' (l : list nat) : nat := fold_right Nat.max 0 l.

Lemma list_max_ge l x : In x l -> x <= list_max' l.
Proof. unfold list_max'. induction l as [|y l IH]; cbn; [tauto|]. intros [->|H]; [lia|]. specialize (IH H). lia. Qed.

Lemma list_max_in l : l <> [] -> In (list_max' l) l.
Proof.
  induction l as [|y l IH]; [congruence|]. intros _. destruct l as [|z l]; [left; cbn; lia|].
  change (list_max' (y :: z :: l)) with (Nat.max y (list_max' (z :: l))).
  specialize (IH ltac:(discriminate)). destruct (Nat.max_spec y (list_max' (z :: l))) as [[_ ->]|[_ ->]]; [right; auto|left; auto].
Qed.

(** ** The whole filter *)

Definition full (argsort : list dist -> list nat) distmat indices (a : Z) (row : list nentry) : list nentry :=
  filter fin (sort_row argsort (map (clean indices distmat a) row)).

Definition padded_row (N W : nat) (f : list nentry) : list nentry := f ++ repeat (N, Inf) (W - length f).

(** Number of columns of the result: one more than [M] if nothing is missing, otherwise the largest row. *)
Definition out_width (M : nat) (F : list (list nentry)) : nat :=
  if forallb (fun f => length f =? M) F then S M else list_max' (map (@length _) F).

Lemma filter_neighbors_eq argsort distmat indices alphas rows M :
  is_argsort dleb argsort -> length alphas = length rows ->
  (forall row, In row rows -> length row = M) ->
  (forall row e, In row rows -> In e row -> snd e = Inf -> fst e = length indices) ->
  let F := map2 (full argsort distmat indices) alphas rows in
  filter_neighbors argsort distmat indices alphas rows = map (padded_row (length indices) (out_width M F)) F /\
  forall f, In f F -> length f <= M /\ length f <= out_width M F.
Proof.
  intros Harg Hlen Hrect Hpad F. set (N := length indices).
  unfold filter_neighbors. fold all_pairs. rewrite fold_disconnect. fold (all_pairs distmat). rewrite map_map. cbn [fst snd].
  set (sorted := map (fun xr => sort_row argsort (map (clean_pairs indices distmat (all_pairs distmat) (fst xr)) (snd xr))) (combine alphas rows)).
  assert (forall xr, In xr (combine alphas rows) ->
    sort_row argsort (map (clean_pairs indices distmat (all_pairs distmat) (fst xr)) (snd xr)) =
    padded_row N M (full argsort distmat indices (fst xr) (snd xr)) /\ length (full argsort distmat indices (fst xr) (snd xr)) <= M) as Hrow.
  { intros [a row] Hin. apply in_combine_r in Hin. cbn [fst snd].
    destruct (sort_row_spec argsort (map (clean indices distmat a) row) Harg) as [Hp Hs].
    assert (length (sort_row argsort (map (clean indices distmat a) row)) = M) as Hl.
    { rewrite (Permutation_length Hp), map_length. auto. }
    split.
    - unfold padded_row, full. rewrite <- Hl at 1. apply sorted_split; auto. intros e He Hinf. apply (Permutation_in _ Hp) in He.
      apply in_map_iff in He. destruct He as [e' [<- He']]. unfold clean, clean_pairs in *. destruct (existsb _ _); auto.
      apply (Hpad row e' Hin He' Hinf).
    - unfold full. rewrite <- Hl. apply filter_fin_length. }
  assert (F = map (fun xr => full argsort distmat indices (fst xr) (snd xr)) (combine alphas rows)) as EF.
  { unfold F. clear. revert rows. induction alphas as [|a al IH]; intros [|r rows]; cbn; auto. f_equal. apply IH. }
  assert (sorted = map (padded_row N M) F) as Es.
  { rewrite EF, map_map. apply map_ext_in. intros xr Hin. apply Hrow. auto. }
  assert (forall f, In f F -> length f <= M) as HM.
  { intros f Hf. rewrite EF in Hf. apply in_map_iff in Hf. destruct Hf as [xr [<- Hin]]. apply Hrow. auto. }
  assert (forall f, In f F -> forall e, In e f -> fin e = true) as Hfin.
  { intros f Hf e He. rewrite EF in Hf. apply in_map_iff in Hf. destruct Hf as [xr [<- Hin]]. unfold full in He. apply filter_In in He. tauto. }
  assert (existsb (existsb (fun e => deqb (snd e) Inf)) sorted = negb (forallb (fun f => length f =? M) F)) as Einf.
  { rewrite Es. clear -HM Hfin. induction F as [|f F IH]; cbn; auto. rewrite IH by (intros; first [apply HM; cbn; auto|eapply Hfin; cbn; eauto]).
    rewrite negb_andb. f_equal. unfold padded_row. rewrite existsb_app.
    replace (existsb (fun e => deqb (snd e) Inf) f) with false.
    2:{ symmetry. apply not_true_iff_false. intro H. apply existsb_exists in H. destruct H as [e [He H]].
        specialize (Hfin f (or_introl eq_refl) e He). unfold fin in Hfin. rewrite H in Hfin. discriminate. }
    cbn [orb]. specialize (HM f (or_introl eq_refl)). destruct (Nat.eqb_spec (length f) M) as [->|Hne].
    - rewrite Nat.sub_diag. reflexivity.
    - destruct (M - length f) eqn:E; [lia|]. reflexivity. }
  rewrite Einf, negb_involutive. unfold out_width.
  destruct (forallb (fun f => length f =? M) F) eqn:Eall.
  - split.
    + rewrite Es, map_map. apply map_ext_in. intros f Hf. rewrite forallb_forall in Eall. specialize (Eall f Hf). apply Nat.eqb_eq in Eall.
      unfold padded_row. rewrite Eall, Nat.sub_diag, Nat.sub_succ_l, Nat.sub_diag by lia. cbn. rewrite app_nil_r. reflexivity.
    + intros f Hf. specialize (HM f Hf). lia.
  - set (W := list_max' (map (@length _) F)).
    assert (F <> []) as HFne by (intro E; rewrite E in Eall; discriminate).
    assert (W <= M) as HW.
    { unfold W. destruct F as [|f0 F0] eqn:EF0; [congruence|]. rewrite <- EF0 in *.
      assert (In (list_max' (map (@length _) F)) (map (@length _) F)) as Hin by (apply list_max_in; rewrite EF0; discriminate).
      apply in_map_iff in Hin. destruct Hin as [f [<- Hf]]. auto. }
    split.
    + assert ((match sorted with [] => 0 | r :: _ => length r end) = M) as Ecols.
      { rewrite Es. destruct F as [|f F0]; [congruence|]. cbn. unfold padded_row. rewrite app_length, repeat_length.
        specialize (HM f (or_introl eq_refl)). lia. }
      rewrite Ecols.
      assert (map (fun c => existsb (fun r => match nth_error r c with Some e => negb (deqb (snd e) Inf) | None => false end) sorted) (seq 0 M) =
              repeat true W ++ repeat false (M - W)) as ->.
      { apply (nth_ext _ _ false false); [rewrite map_length, seq_length, app_length, !repeat_length; lia|].
        rewrite map_length, seq_length. intros c Hc. rewrite (nth_map_in _ _ _ 0) by (rewrite seq_length; auto). rewrite seq_nth by auto. cbn [Nat.add].
        destruct (Nat.lt_ge_cases c W) as [Hlt|Hge].
        - rewrite app_nth1 by (rewrite repeat_length; auto). rewrite (nth_indep _ false true) by (rewrite repeat_length; auto). rewrite nth_repeat.
          apply existsb_exists.
          assert (In W (map (@length _) F)) as Hin by (apply list_max_in; destruct F; [congruence|discriminate]).
          apply in_map_iff in Hin. destruct Hin as [f [Ef Hf]].
          exists (padded_row N M f). split; [rewrite Es; apply in_map; auto|]. unfold padded_row.
          destruct (nth_error f c) as [e|] eqn:Ee.
          + rewrite nth_error_app1 by (apply nth_error_length_lt in Ee; auto). rewrite Ee. apply (Hfin f Hf e). apply (nth_error_In _ _ Ee).
          + apply nth_error_None in Ee. lia.
        - rewrite app_nth2 by (rewrite repeat_length; auto). rewrite nth_repeat. apply not_true_iff_false. intro H. apply existsb_exists in H.
          destruct H as [r [Hr H]]. rewrite Es in Hr. apply in_map_iff in Hr. destruct Hr as [f [<- Hf]].
          assert (length f <= W) as Hle by (apply list_max_ge, in_map; auto).
          unfold padded_row in H. rewrite nth_error_app2 in H by lia.
          destruct (nth_error (repeat (N, Inf) (M - length f)) (c - length f)) as [e|] eqn:Ee; [|discriminate].
          apply nth_error_In, repeat_spec in Ee. subst e. discriminate. }
      rewrite Es, map_map. apply map_ext_in. intros f Hf.
      assert (length f <= W) as Hle by (apply list_max_ge, in_map; auto).
      rewrite select_firstn by (unfold padded_row; rewrite app_length, repeat_length; specialize (HM f Hf); lia).
      unfold padded_row. rewrite firstn_app. rewrite firstn_all2 by auto. f_equal.
      specialize (HM f Hf). clear -HM Hle HW.
      assert (forall n m, n <= m -> firstn n (repeat (N, Inf) m) = repeat (N, Inf) n) as H.
      { induction n as [|n IH]; intros [|m] Hnm; cbn; auto; [lia|]. f_equal. apply IH. lia. }
      apply H. lia.
    + intros f Hf. split; auto. apply list_max_ge, in_map. auto.
Qed.
