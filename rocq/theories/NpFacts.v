(** * Lemmas about the primitives of Np.v *)
From Coq Require Import List ZArith QArith Qround Qabs Bool Arith Lia Sorting.Sorted Permutation Lqa.
From Verif Require Import Np.
Import ListNotations.
Open Scope nat_scope.

(** ** Generic list lemmas *)

(** Case analysis on natural number comparisons. *)
Ltac ncase :=
  repeat match goal with
  | |- context [?a <? ?b] => destruct (Nat.ltb_spec a b)
  | |- context [?a <=? ?b] => destruct (Nat.leb_spec a b)
  | |- context [?a =? ?b] => destruct (Nat.eqb_spec a b)
  end.

Lemma list_eq_nth_error {A} (l m : list A) :
  (forall i, nth_error l i = nth_error m i) -> l = m.
Proof.
  revert m. induction l as [|x l IH]; intros [|y m] H; auto.
  - specialize (H 0). discriminate.
  - specialize (H 0). discriminate.
  - pose proof (H 0) as H0. simpl in H0. injection H0 as ->. f_equal.
    apply IH. intro i. exact (H (S i)).
Qed.

Lemma nth_error_seq n k i : nth_error (seq k n) i = if i <? n then Some (k + i) else None.
Proof.
  revert k i. induction n as [|n IH]; intros k i.
  - rewrite (proj2 (Nat.ltb_ge i 0)) by lia. destruct i; reflexivity.
  - destruct i as [|i]; simpl seq; simpl nth_error.
    + rewrite (proj2 (Nat.ltb_lt 0 (S n))) by lia. f_equal. lia.
    + rewrite IH. replace (S i <? S n) with (i <? n).
      * destruct (i <? n); f_equal. lia.
      * apply eq_true_iff_eq. rewrite !Nat.ltb_lt. lia.
Qed.

Lemma nth_error_map' {A B} (f : A -> B) l i :
  nth_error (map f l) i = option_map f (nth_error l i).
Proof. revert i. induction l; destruct i; simpl; auto. Qed.

Lemma nth_error_combine {A B} (l : list A) (m : list B) i :
  nth_error (combine l m) i =
  match nth_error l i, nth_error m i with Some x, Some y => Some (x, y) | _, _ => None end.
Proof.
  revert m i. induction l as [|x l IH]; intros [|y m] [|i]; simpl; auto.
  - destruct (nth_error l i); auto.
Qed.

Lemma nth_error_length_lt {A} (l : list A) i x : nth_error l i = Some x -> i < length l.
Proof. intro H. apply nth_error_Some. congruence. Qed.

Lemma nth_error_lt {A} (l : list A) i : i < length l -> exists x, nth_error l i = Some x.
Proof. intro H. apply nth_error_Some in H. destruct (nth_error l i); eauto. congruence. Qed.

Lemma nth_error_ge {A} (l : list A) i : length l <= i -> nth_error l i = None.
Proof. apply nth_error_None. Qed.

Lemma nth_nth_error {A} (l : list A) i d :
  nth i l d = match nth_error l i with Some x => x | None => d end.
Proof. revert i. induction l; destruct i; simpl; auto. Qed.

Lemma nth_of_nth_error {A} (l : list A) i d x : nth_error l i = Some x -> nth i l d = x.
Proof. intro H. rewrite nth_nth_error, H. reflexivity. Qed.

Lemma enumerate_length {A} (l : list A) : length (enumerate l) = length l.
Proof. unfold enumerate. rewrite combine_length, seq_length. lia. Qed.

Lemma nth_error_enumerate {A} (l : list A) i :
  nth_error (enumerate l) i = option_map (fun x => (i, x)) (nth_error l i).
Proof.
  unfold enumerate. rewrite nth_error_combine, nth_error_seq.
  destruct (i <? length l) eqn:E.
  - simpl. destruct (nth_error l i); reflexivity.
  - apply Nat.ltb_ge in E. rewrite (nth_error_ge l i) by assumption. reflexivity.
Qed.

Lemma In_enumerate {A} (l : list A) i x : In (i, x) (enumerate l) <-> nth_error l i = Some x.
Proof.
  split.
  - intro H. apply In_nth_error in H. destruct H as [k H].
    rewrite nth_error_enumerate in H. destruct (nth_error l k) eqn:E; simpl in H; congruence.
  - intro H. apply nth_error_In with (n := i). rewrite nth_error_enumerate, H. reflexivity.
Qed.

Lemma enumerate_app {A} (l : list A) x :
  enumerate (l ++ [x]) = enumerate l ++ [(length l, x)].
Proof.
  unfold enumerate. rewrite app_length. simpl. rewrite Nat.add_1_r, seq_S. simpl.
  assert (forall k, combine (seq k (length l) ++ [k + length l]) (l ++ [x]) =
                    combine (seq k (length l)) l ++ [(k + length l, x)]) as H.
  { induction l as [|y l IH]; intro k; simpl.
    - reflexivity.
    - f_equal. specialize (IH (S k)). replace (k + S (length l)) with (S k + length l) by lia.
      exact IH. }
  exact (H 0).
Qed.

(** ** Masks *)

Lemma nth_error_assign_mask {A} mask (v : A) l i :
  nth_error (assign_mask mask v l) i =
  match nth_error l i with
  | None => None
  | Some x => if nth i mask false then Some v else Some x
  end.
Proof.
  revert l i. induction mask as [|b mask IH]; intros [|x l] [|i]; simpl; auto.
  - destruct (nth_error l i); reflexivity.
  - destruct b; reflexivity.
Qed.

Lemma assign_mask_length {A} mask (v : A) l : length (assign_mask mask v l) = length l.
Proof. revert l. induction mask; intros [|x l]; simpl; auto. Qed.

Lemma In_where_from k mask i :
  In i (where_from k mask) <-> k <= i /\ nth (i - k) mask false = true.
Proof.
  revert k. induction mask as [|b mask IH]; intro k; simpl.
  - split; [tauto|]. intros [_ H]. destruct (i - k); discriminate.
  - assert (i = k \/ i < k \/ S k <= i) as [->|[Hlt|Hge]] by lia.
    + rewrite Nat.sub_diag. destruct b; simpl.
      * split; auto.
      * rewrite IH. split; intros [H1 H2]; [lia|discriminate].
    + split.
      * intro H. destruct b; simpl in H; [destruct H as [H|H]; [lia|]|]; apply IH in H; lia.
      * lia.
    + replace (i - k) with (S (i - S k)) by lia.
      destruct b; simpl; rewrite IH; intuition lia.
Qed.

Lemma In_where mask i : In i (where_ mask) <-> nth i mask false = true.
Proof.
  unfold where_. rewrite In_where_from, Nat.sub_0_r. intuition lia.
Qed.

Lemma where_from_sorted k mask :
  StronglySorted lt (where_from k mask) /\ Forall (fun i => k <= i) (where_from k mask).
Proof.
  revert k. induction mask as [|b mask IH]; intro k; simpl.
  - split; constructor.
  - destruct (IH (S k)) as [H1 H2].
    assert (Forall (fun i => k <= i) (where_from (S k) mask)) as H3.
    { eapply Forall_impl; [|exact H2]. simpl. intros. lia. }
    destruct b; split; auto.
    + constructor; auto.
Qed.

Lemma where_sorted mask : StronglySorted lt (where_ mask).
Proof. apply where_from_sorted. Qed.

Lemma StronglySorted_lt_NoDup l : StronglySorted lt l -> NoDup l.
Proof.
  induction 1; constructor; auto. intro Hin. rewrite Forall_forall in H0.
  specialize (H0 _ Hin). lia.
Qed.

Lemma where_NoDup mask : NoDup (where_ mask).
Proof. apply StronglySorted_lt_NoDup, where_sorted. Qed.

Lemma In_select {A} mask (l : list A) x :
  In x (select mask l) <-> exists i, nth i mask false = true /\ nth_error l i = Some x.
Proof.
  revert l. induction mask as [|b mask IH]; intros [|y l]; simpl.
  - split; [tauto|]. intros [[|i] [H1 H2]]; discriminate.
  - split; [tauto|]. intros [[|i] [H1 H2]]; discriminate.
  - split; [tauto|]. intros [[|i] [H1 H2]]; discriminate.
  - destruct b; simpl; rewrite ?IH; split.
    + intros [->|[i [H1 H2]]]; [exists 0|exists (S i)]; auto.
    + intros [[|i] [H1 H2]]; [left; simpl in H2; congruence|right; exists i; auto].
    + intros [i [H1 H2]]. exists (S i). auto.
    + intros [[|i] [H1 H2]]; [discriminate|exists i; auto].
Qed.

Lemma select_map {A B} (f : A -> B) mask l : select mask (map f l) = map f (select mask l).
Proof.
  revert l. induction mask as [|b mask IH]; intros [|x l]; simpl; auto.
  destruct b; simpl; rewrite IH; reflexivity.
Qed.

Lemma select_filter {A} (p : A -> bool) l : select (map p l) l = filter p l.
Proof. induction l as [|x l IH]; simpl; auto. destruct (p x); rewrite IH; reflexivity. Qed.

Lemma select_length_le {A} mask (l : list A) : length (select mask l) <= length l.
Proof.
  revert l. induction mask as [|b mask IH]; intros [|x l]; simpl; try lia.
  specialize (IH l). destruct b; simpl; lia.
Qed.

Lemma select_length_same {A B} mask (l : list A) (m : list B) :
  length l = length m -> length (select mask l) = length (select mask m).
Proof.
  revert l m. induction mask as [|b mask IH]; intros [|x l] [|y m] H; simpl in *; try lia.
  specialize (IH l m). destruct b; simpl; lia.
Qed.

Lemma NoDup_select {A} mask (l : list A) : NoDup l -> NoDup (select mask l).
Proof.
  revert l. induction mask as [|b mask IH]; intros [|x l] H; simpl; try constructor.
  inversion H; subst. destruct b; auto. constructor; auto.
  rewrite In_select. intros [i [_ Hi]]. apply nth_error_In in Hi. contradiction.
Qed.

Lemma select_where {A} mask (l : list A) d :
  length mask <= length l -> select mask l = map (fun i => nth i l d) (where_ mask).
Proof.
  unfold where_.
  assert (forall k, length mask <= length l ->
     select mask l = map (fun i => nth (i - k) l d) (where_from k mask)) as H.
  { revert l. induction mask as [|b mask IH]; intros [|x l] k H; simpl in *; try lia; auto.
    specialize (IH l (S k)).
    assert (map (fun i => nth (i - S k) l d) (where_from (S k) mask) =
            map (fun i => nth (i - k) (x :: l) d) (where_from (S k) mask)) as E.
    { apply map_ext_in. intros i Hi. apply In_where_from in Hi.
      replace (i - k) with (S (i - S k)) by lia. reflexivity. }
    destruct b; simpl; rewrite IH by lia; rewrite E; auto.
    rewrite Nat.sub_diag. reflexivity. }
  intros Hl. rewrite (H 0 Hl). apply map_ext. intro i. rewrite Nat.sub_0_r. reflexivity.
Qed.

Lemma isin_In l x : isin l x = true <-> In x l.
Proof.
  unfold isin. rewrite existsb_exists. split.
  - intros [y [H1 H2]]. apply Nat.eqb_eq in H2. subst. auto.
  - intro H. exists x. rewrite Nat.eqb_refl. auto.
Qed.

Lemma isin_false l x : isin l x = false <-> ~ In x l.
Proof. rewrite <- isin_In. destruct (isin l x); intuition congruence. Qed.

(** ** set_nth, assign_slice *)

Lemma set_nth_length {A} i (v : A) l : length (set_nth i v l) = length l.
Proof. revert i. induction l; destruct i; simpl; auto. Qed.

Lemma nth_error_set_nth {A} i (v : A) l k :
  nth_error (set_nth i v l) k =
  if Nat.eqb k i then (if k <? length l then Some v else None) else nth_error l k.
Proof.
  revert i k. induction l as [|x l IH]; intros [|i] [|k]; simpl; auto.
  - destruct (k =? i); auto.
  - rewrite IH. destruct (k =? i); auto.
Qed.

Lemma assign_slice_length {A} i (vs : list A) l : length (assign_slice i vs l) = length l.
Proof.
  revert i vs. induction l as [|x l IH]; intros [|i] [|v vs]; simpl; auto.
Qed.

Lemma nth_error_assign_slice {A} i (vs : list A) l k :
  nth_error (assign_slice i vs l) k =
  if (i <=? k) && (k <? i + length vs) && (k <? length l) then nth_error vs (k - i)
  else nth_error l k.
Proof.
  revert i vs k. induction l as [|x l IH]; intros i vs k.
  - replace (k <? length (@nil A)) with false by (symmetry; apply Nat.ltb_ge; simpl; lia).
    rewrite andb_false_r. destruct i, vs; reflexivity.
  - destruct i as [|i].
    + destruct vs as [|v vs].
      * cbn [assign_slice length]. ncase; simpl; auto; lia.
      * destruct k as [|k]; cbn [assign_slice length nth_error].
        -- ncase; simpl; auto; lia.
        -- rewrite IH. rewrite Nat.sub_0_r. ncase; simpl; auto; try lia.
    + destruct k as [|k]; cbn [assign_slice length nth_error].
      * ncase; simpl; auto; lia.
      * rewrite IH. ncase; simpl; auto; try lia.
Qed.

(** ** Sorting *)

Section SortFacts.
  Context {A : Type} (leb : A -> A -> bool).

  Lemma insert_stable_perm x l : Permutation (insert_stable leb x l) (x :: l).
  Proof.
    induction l as [|y l IH]; simpl; auto.
    destruct (leb x y); auto. rewrite IH. constructor.
  Qed.

  Lemma sort_stable_perm l : Permutation (sort_stable leb l) l.
  Proof.
    induction l as [|x l IH]; simpl; auto. rewrite insert_stable_perm. auto.
  Qed.

  Lemma sort_stable_length l : length (sort_stable leb l) = length l.
  Proof. apply Permutation_length, sort_stable_perm. Qed.

  Lemma In_sort_stable x l : In x (sort_stable leb l) <-> In x l.
  Proof.
    split; apply Permutation_in; [|symmetry]; apply sort_stable_perm.
  Qed.

  Hypothesis leb_total : forall x y, leb x y = true \/ leb y x = true.
  Hypothesis leb_trans : forall x y z, leb x y = true -> leb y z = true -> leb x z = true.

  Lemma insert_stable_sorted x l :
    StronglySorted (fun a b => leb a b = true) l ->
    StronglySorted (fun a b => leb a b = true) (insert_stable leb x l).
  Proof.
    induction 1 as [|y l Hs IH Hf]; simpl.
    - constructor; constructor.
    - destruct (leb x y) eqn:E.
      + constructor; [constructor; auto|]. constructor; auto.
        eapply Forall_impl; [|exact Hf]. simpl. intros. eauto.
      + constructor; auto. rewrite Forall_forall in *. intros z Hz.
        apply (Permutation_in _ (insert_stable_perm x l)) in Hz. destruct Hz as [<-|Hz]; auto.
        destruct (leb_total x y); congruence.
  Qed.

  Lemma sort_stable_sorted l : StronglySorted (fun a b => leb a b = true) (sort_stable leb l).
  Proof. induction l; simpl; [constructor|apply insert_stable_sorted; auto]. Qed.

  Hypothesis leb_antisym : forall x y, leb x y = true -> leb y x = true -> x = y.

  Lemma In_dedup_sorted x l : In x (dedup_sorted leb l) <-> In x l.
  Proof.
    induction l as [|y l IH]; simpl; [tauto|].
    destruct (dedup_sorted leb l) as [|z r] eqn:E; simpl in *.
    - tauto.
    - destruct (leb y z && leb z y) eqn:B; simpl.
      + apply andb_prop in B. destruct B as [B1 B2].
        pose proof (leb_antisym _ _ B1 B2) as ->. tauto.
      + tauto.
  Qed.

  Lemma dedup_sorted_strict l :
    StronglySorted (fun a b => leb a b = true) l ->
    StronglySorted (fun a b => leb a b = true /\ a <> b) (dedup_sorted leb l).
  Proof.
    induction 1 as [|y l Hs IH Hf]; simpl; [constructor|].
    destruct (dedup_sorted leb l) as [|z r] eqn:E.
    - repeat constructor.
    - destruct (leb y z && leb z y) eqn:B; auto.
      assert (y <> z) as Hne.
      { intros ->. assert (leb z z = true) as R by (destruct (leb_total z z); auto).
        rewrite R in B. discriminate. }
      constructor; auto. rewrite Forall_forall in *. intros w Hw.
      assert (leb y w = true) as Hyw.
      { apply Hf. apply In_dedup_sorted. rewrite E. exact Hw. }
      split; auto. intro Heq. subst w.
      assert (leb y z = true) as Hyz.
      { apply Hf. apply In_dedup_sorted. rewrite E. left; auto. }
      simpl in Hw. destruct Hw as [Hw|Hw]; [congruence|].
      inversion IH as [|? ? ? Hf']; subst. rewrite Forall_forall in Hf'.
      destruct (Hf' _ Hw). apply Hne. apply leb_antisym; auto.
    Qed.

  Lemma In_unique x l : In x (unique leb l) <-> In x l.
  Proof. unfold unique. rewrite In_dedup_sorted. apply In_sort_stable. Qed.

  Lemma unique_strict l :
    StronglySorted (fun a b => leb a b = true /\ a <> b) (unique leb l).
  Proof. apply dedup_sorted_strict, sort_stable_sorted. Qed.

  Lemma strict_NoDup (l : list A) :
    StronglySorted (fun a b => leb a b = true /\ a <> b) l -> NoDup l.
  Proof.
    induction 1 as [|x l H IH Hf]; constructor; auto. intro Hin.
    rewrite Forall_forall in Hf. destruct (Hf _ Hin). congruence.
  Qed.

  Lemma unique_NoDup l : NoDup (unique leb l).
  Proof. apply strict_NoDup, unique_strict. Qed.

  (** A strictly increasing list is determined by its elements. *)
  Lemma strict_unique (l m : list A) :
    StronglySorted (fun a b => leb a b = true /\ a <> b) l ->
    StronglySorted (fun a b => leb a b = true /\ a <> b) m ->
    (forall x, In x l <-> In x m) -> l = m.
  Proof.
    intro Hl. revert m. induction Hl as [|x l Hl IH Hf]; intros m Hm Hin.
    - destruct m as [|y m]; auto. destruct (proj2 (Hin y)); left; auto.
    - destruct m as [|y m].
      + destruct (proj1 (Hin x)); left; auto.
      + inversion Hm as [|? ? Hm' Hfm]; subst.
        rewrite Forall_forall in Hf, Hfm.
        assert (x = y) as ->.
        { destruct (proj1 (Hin x)) as [H|H]; [left; auto|auto|].
          destruct (proj2 (Hin y)) as [H'|H']; [left; auto|auto|].
          destruct (Hfm _ H), (Hf _ H'). apply leb_antisym; auto. }
        f_equal. apply IH; auto. intro z. split; intro Hz.
        * destruct (proj1 (Hin z)) as [H|H]; [right; auto| |auto].
          subst z. destruct (Hf _ Hz). congruence.
        * destruct (proj2 (Hin z)) as [H|H]; [right; auto| |auto].
          subst z. destruct (Hfm _ Hz). congruence.
  Qed.

End SortFacts.

(** ** Distances *)

Lemma dleb_total a b : dleb a b = true \/ dleb b a = true.
Proof. destruct a, b; simpl; auto. rewrite !Z.leb_le. lia. Qed.

Lemma dleb_trans a b c : dleb a b = true -> dleb b c = true -> dleb a c = true.
Proof. destruct a, b, c; simpl; auto; try discriminate. rewrite !Z.leb_le. lia. Qed.

Lemma dleb_antisym a b : dleb a b = true -> dleb b a = true -> a = b.
Proof.
  destruct a, b; simpl; auto; try discriminate. rewrite !Z.leb_le. intros. f_equal. lia.
Qed.

Lemma dleb_refl a : dleb a a = true.
Proof. destruct (dleb_total a a); auto. Qed.

Lemma deqb_eq a b : deqb a b = true <-> a = b.
Proof.
  destruct a, b; simpl; split; intro H; try discriminate; auto.
  - apply Z.eqb_eq in H. congruence.
  - injection H as ->. apply Z.eqb_refl.
Qed.

Lemma deqb_refl a : deqb a a = true.
Proof. apply deqb_eq. reflexivity. Qed.

Lemma deqb_neq a b : deqb a b = false <-> a <> b.
Proof. rewrite <- deqb_eq. destruct (deqb a b); intuition congruence. Qed.

(** ** Rounding *)

Lemma Qrint_near q : (Qabs (inject_Z (Qrint q) - q) <= 1#2)%Q.
Proof.
  unfold Qrint.
  pose proof (Qfloor_le q) as H1. pose proof (Qlt_floor q) as H2.
  rewrite inject_Z_plus in H2. change (inject_Z 1) with 1%Q in H2.
  set (f := Qfloor q) in *.
  apply Qabs_Qle_condition.
  destruct (Qle_bool (1 # 2) (q - inject_Z f)) eqn:E1;
  destruct (Qle_bool (q - inject_Z f) (1 # 2)) eqn:E2; simpl;
  try (apply Qle_bool_iff in E1); try (apply Qle_bool_iff in E2);
  try (assert (~ (1 # 2 <= q - inject_Z f)%Q) by (rewrite <- Qle_bool_iff; congruence));
  try (assert (~ (q - inject_Z f <= 1 # 2)%Q) by (rewrite <- Qle_bool_iff; congruence));
  destruct (Qeq_bool (q - inject_Z f) (1 # 2)) eqn:E3;
  try (apply Qeq_bool_iff in E3); try destruct (Z.even f);
  rewrite ?inject_Z_plus; try change (inject_Z 1) with 1%Q; split; lra.
Qed.
