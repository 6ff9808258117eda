(** * Tables: lemmas about the primitives used by the data model *)
From Coq Require Import List ZArith QArith Bool Arith Lia Permutation Sorting.Sorted.
From Verif Require Import Np NpFacts LinAlg LinFacts UtilsModel SpecUtils UtilsProofs PropUtils NeighborCellProofs
  DataModel SpecData.
Import ListNotations.
Open Scope nat_scope.

Lemma eq_Permutation {A} (l m : list A) : l = m -> Permutation l m.
Proof. intros ->. apply Permutation_refl. Qed.

Lemma filter_seq_shift (f : nat -> bool) k n :
  filter f (seq (S k) n) = map S (filter (fun c => f (S c)) (seq k n)).
Proof.
  revert k. induction n as [|n IH]; intro k; simpl; auto.
  destruct (f (S k)); simpl; rewrite IH; reflexivity.
Qed.

Lemma select_seq {A} (x : A) mask l :
  length mask = length l ->
  select mask l = map (fun c => nth c l x) (filter (fun c => nth c mask false) (seq 0 (length l))).
Proof.
  revert l. induction mask as [|b mask IH]; intros [|y l] H; simpl in *; try lia; auto.
  rewrite filter_seq_shift. injection H as H. rewrite IH by assumption.
  destruct b; simpl; rewrite map_map; reflexivity.
Qed.

Lemma map2_length {A B C} (f : A -> B -> C) l m : length (map2 f l m) = Nat.min (length l) (length m).
Proof. revert m. induction l; intros [|y m]; simpl; auto. Qed.

Lemma nth_error_map2 {A B C} (f : A -> B -> C) l m i :
  nth_error (map2 f l m) i =
  match nth_error l i, nth_error m i with Some x, Some y => Some (f x y) | _, _ => None end.
Proof.
  revert m i. induction l as [|x l IH]; intros [|y m] [|i]; simpl; auto.
  destruct (nth_error l i); reflexivity.
Qed.

Lemma map_ext_in_seq {A} (f g : nat -> A) n k :
  (forall i, k <= i -> i < k + n -> f i = g i) -> map f (seq k n) = map g (seq k n).
Proof. intro H. apply map_ext_in. intros i Hi. apply in_seq in Hi. apply H; lia. Qed.

Lemma filter_ext_seq (f g : nat -> bool) n k :
  (forall i, k <= i -> i < k + n -> f i = g i) -> filter f (seq k n) = filter g (seq k n).
Proof. intro H. apply filter_ext_in. intros i Hi. apply in_seq in Hi. apply H; lia. Qed.

Lemma map_filter_comm {A B} (f : A -> B) (p : B -> bool) l :
  filter p (map f l) = map f (filter (fun x => p (f x)) l).
Proof. induction l as [|x l IH]; simpl; auto. destruct (p (f x)); simpl; rewrite IH; reflexivity. Qed.

Lemma filter_filter {A} (p q : A -> bool) l : filter p (filter q l) = filter (fun x => q x && p x) l.
Proof.
  induction l as [|x l IH]; simpl; auto. destruct (q x); simpl; [destruct (p x)|]; rewrite IH; reflexivity.
Qed.

(** ** Rectangular tables *)

Lemma rect_row {A} n m (t : list (list A)) i : rect n m t -> i < n ->
  exists r, nth_error t i = Some r /\ length r = m /\ nth i t [] = r.
Proof.
  intros [H1 H2] Hi. destruct (nth_error_lt t i) as [r Hr]; [lia|]. exists r.
  split; auto. split; [apply H2; eapply nth_error_In; eauto|]. apply nth_of_nth_error. auto.
Qed.

Lemma rect_nth {A} n m (t : list (list A)) i : rect n m t -> i < n -> length (nth i t []) = m.
Proof. intros H Hi. destruct (rect_row _ _ _ _ H Hi) as [r [_ [Hl ->]]]. exact Hl. Qed.

Lemma rect_map {A B} n m (f : list A -> list B) (t : list (list A)) :
  rect n m t -> (forall r, length r = m -> length (f r) = m) -> rect n m (map f t).
Proof.
  intros [H1 H2] Hf. split; [rewrite map_length; auto|].
  intros r Hr. apply in_map_iff in Hr. destruct Hr as [r' [<- Hr']]. auto.
Qed.

Lemma rect_map_map {A B} n m (f : A -> B) (t : list (list A)) : rect n m t -> rect n m (map (map f) t).
Proof. intro H. apply rect_map; auto. intros r Hr. rewrite map_length. auto. Qed.

Lemma rect_map2 {A B C} n m (f : list A -> list B -> list C) t u :
  rect n m t -> rect n m u -> (forall r s, length r = m -> length s = m -> length (f r s) = m) ->
  rect n m (map2 f t u).
Proof.
  intros [H1 H2] [H3 H4] Hf. split; [rewrite map2_length; lia|].
  intros r Hr. apply In_nth_error in Hr. destruct Hr as [i Hi]. rewrite nth_error_map2 in Hi.
  destruct (nth_error t i) eqn:E1; [|discriminate]. destruct (nth_error u i) eqn:E2; [|discriminate].
  injection Hi as <-. apply nth_error_In in E1, E2. auto.
Qed.

Lemma rect_app {A} n m k (t u : list (list A)) : rect n m t -> rect k m u -> rect (n + k) m (t ++ u).
Proof.
  intros [H1 H2] [H3 H4]. split; [rewrite app_length; lia|].
  intros r Hr. apply in_app_or in Hr. destruct Hr; auto.
Qed.

Lemma rect_take {A} n m (t : list (list A)) idx :
  rect n m t -> (forall i, In i idx -> i < n) -> rect (length idx) m (take [] t idx).
Proof.
  intros H Hi. unfold take. split; [apply map_length|].
  intros r Hr. apply in_map_iff in Hr. destruct Hr as [i [<- Hin]]. apply (rect_nth n); auto.
Qed.

Lemma rect_set_nth {A} n m (t : list (list A)) i r :
  rect n m t -> length r = m -> rect n m (set_nth i r t).
Proof.
  intros [H1 H2] Hr. split; [rewrite set_nth_length; auto|].
  intros r' Hin. apply In_nth_error in Hin. destruct Hin as [k Hk]. rewrite nth_error_set_nth in Hk.
  destruct (k =? i).
  - destruct (k <? length t); [injection Hk as <-; auto|discriminate].
  - apply H2. eapply nth_error_In; eauto.
Qed.

Lemma cell_map_map {A B} (f : A -> B) x y t i c n m :
  rect n m t -> i < n -> c < m -> cell y (map (map f) t) i c = f (cell x t i c).
Proof.
  intros H Hi Hc. unfold cell. destruct (rect_row _ _ _ _ H Hi) as [r [Hr [Hl Hn]]].
  rewrite (nth_of_nth_error (map (map f) t) i [] (map f r)) by (rewrite nth_error_map', Hr; reflexivity).
  rewrite Hn. apply nth_map_lt. lia.
Qed.

Lemma cell_map2 {A B C} (f : list A -> list B -> list C) x t u i c n m k :
  rect n m t -> rect n k u -> i < n ->
  cell x (map2 f t u) i c = nth c (f (nth i t []) (nth i u [])) x.
Proof.
  intros H1 H2 Hi. unfold cell.
  destruct (rect_row _ _ _ _ H1 Hi) as [r [Hr [_ Hn]]].
  destruct (rect_row _ _ _ _ H2 Hi) as [s [Hs [_ Hm]]].
  rewrite (nth_of_nth_error (map2 f t u) i [] (f r s)); [congruence|].
  rewrite nth_error_map2, Hr, Hs. reflexivity.
Qed.

Lemma nth_assign_mask {A} (x : A) mask v l c : c < length l ->
  nth c (assign_mask mask v l) x = if nth c mask false then v else nth c l x.
Proof.
  intro H. rewrite !(nth_nth_error _ c x), nth_error_assign_mask.
  destruct (nth_error_lt l c H) as [y ->]. destruct (nth c mask false); reflexivity.
Qed.

Lemma nth_set_nth {A} (x : A) i v l k : nth k (set_nth i v l) x =
  if (k =? i) && (k <? length l) then v else nth k l x.
Proof.
  rewrite !(nth_nth_error _ k x), nth_error_set_nth.
  destruct (k =? i) eqn:E; simpl; auto. destruct (k <? length l) eqn:E2; simpl; auto.
  apply Nat.ltb_ge in E2. rewrite nth_error_ge; auto.
Qed.

Lemma nth_assign_slice {A} (x : A) i vs l k :
  nth k (assign_slice i vs l) x =
  if (i <=? k) && (k <? i + length vs) && (k <? length l) then nth (k - i) vs x else nth k l x.
Proof.
  rewrite !(nth_nth_error _ _ x), nth_error_assign_slice.
  destruct ((i <=? k) && (k <? i + length vs) && (k <? length l)); reflexivity.
Qed.

Lemma nth_take {A} (x : A) y l idx k : k < length idx -> nth k (take x l idx) y = nth (nth k idx 0) l x.
Proof. intro H. unfold take. apply (nth_map_lt (fun i => nth i l x) idx k 0 y H). Qed.

Lemma cell_take {A} (x : A) t idx i c n m :
  rect n m t -> i < length idx -> cell x (take [] t idx) i c = cell x t (nth i idx 0) c.
Proof. intros H Hi. unfold cell. rewrite nth_take by assumption. reflexivity. Qed.

Lemma cell_app {A} (x : A) t u i c n m : rect n m t ->
  cell x (t ++ u) i c = if i <? n then cell x t i c else cell x u (i - n) c.
Proof.
  intros [H1 _]. unfold cell. destruct (i <? n) eqn:E.
  - apply Nat.ltb_lt in E. rewrite app_nth1 by lia. reflexivity.
  - apply Nat.ltb_ge in E. rewrite app_nth2 by lia. rewrite H1. reflexivity.
Qed.

Lemma rect_ext {A} (x : A) n m (t u : list (list A)) :
  rect n m t -> rect n m u -> (forall i c, i < n -> c < m -> cell x t i c = cell x u i c) -> t = u.
Proof.
  intros H1 H2 H. apply list_eq_nth_error. intro i.
  destruct (Nat.lt_ge_cases i n) as [Hi|Hi].
  - destruct (rect_row _ _ _ _ H1 Hi) as [r [Hr [Hlr Hnr]]].
    destruct (rect_row _ _ _ _ H2 Hi) as [s [Hs [Hls Hns]]].
    rewrite Hr, Hs. f_equal. apply (nth_ext r s x x); [lia|].
    intros c Hc. specialize (H i c Hi). unfold cell in H. rewrite Hnr, Hns in H. apply H. lia.
  - destruct H1 as [H1 _], H2 as [H2 _]. rewrite !nth_error_ge by lia. reflexivity.
Qed.

Lemma In_cell {A} (x : A) n m t v : rect n m t ->
  (In v (concat t) <-> exists i c, i < n /\ c < m /\ cell x t i c = v).
Proof.
  intros H. rewrite in_concat. split.
  - intros [r [Hr Hv]]. apply In_nth_error in Hr. destruct Hr as [i Hi].
    assert (i < n) as Hin by (destruct H as [<- _]; eapply nth_error_length_lt; eauto).
    destruct (rect_row _ _ _ _ H Hin) as [r' [Hr' [Hl Hn]]].
    assert (r' = r) as -> by congruence.
    apply In_nth_error in Hv. destruct Hv as [c Hc]. exists i, c. split; auto.
    split; [rewrite <- Hl; eapply nth_error_length_lt; eauto|].
    unfold cell. rewrite Hn. apply nth_of_nth_error. auto.
  - intros [i [c [Hi [Hc Hv]]]]. destruct (rect_row _ _ _ _ H Hi) as [r [Hr [Hl Hn]]].
    exists r. split; [eapply nth_error_In; eauto|]. unfold cell in Hv. rewrite Hn in Hv.
    subst v. apply nth_In. lia.
Qed.

(** ** Maximum *)

Lemma fold_max_spec l x : (forall y, In y (x :: l) -> y <= fold_left Nat.max l x) /\ In (fold_left Nat.max l x) (x :: l).
Proof.
  revert x. induction l as [|z l IH]; intro x; simpl.
  - split; auto. intros y [->|[]]; auto.
  - destruct (IH (Nat.max x z)) as [H1 H2]. split.
    + intros y [->|[->|Hy]].
      * specialize (H1 (Nat.max y z) (or_introl eq_refl)). lia.
      * specialize (H1 (Nat.max x y) (or_introl eq_refl)). lia.
      * apply H1. right; auto.
    + destruct H2 as [H2|H2]; [|auto]. rewrite <- H2.
      destruct (Nat.max_spec x z) as [[_ ->]|[_ ->]]; auto.
Qed.

Lemma nat_max_spec l m : nat_max l = Some m -> In m l /\ forall y, In y l -> y <= m.
Proof.
  destruct l as [|x l]; simpl; [discriminate|]. intro H. injection H as <-.
  destruct (fold_max_spec l x). split; auto.
Qed.

(** ** Increasing lists *)

Lemma increasing_nth {A} (leb : A -> A -> bool) l : increasing leb l ->
  forall i j x y, i < j -> nth_error l i = Some x -> nth_error l j = Some y -> leb x y = true /\ x <> y.
Proof.
  induction 1 as [|a l H IH Hf]; intros i j x y Hij Hi Hj.
  - destruct i; discriminate.
  - destruct j as [|j]; [lia|]. simpl in Hj. destruct i as [|i]; simpl in Hi.
    + injection Hi as <-. rewrite Forall_forall in Hf. apply Hf. eapply nth_error_In; eauto.
    + eapply IH; [|eassumption|eassumption]. lia.
Qed.

Lemma increasing_inj {A} (leb : A -> A -> bool) l : increasing leb l ->
  forall i j x, nth_error l i = Some x -> nth_error l j = Some x -> i = j.
Proof.
  intros H i j x Hi Hj. destruct (Nat.lt_trichotomy i j) as [Hl|[Hl|Hl]]; auto.
  - destruct (increasing_nth _ _ H _ _ _ _ Hl Hi Hj). congruence.
  - destruct (increasing_nth _ _ H _ _ _ _ Hl Hj Hi). congruence.
Qed.

(** Infinity is the last distance. *)
Lemma inf_last l k : increasing dleb l -> nth_error l k = Some Inf -> length l = S k.
Proof.
  intros H Hk. assert (k < length l) by (eapply nth_error_length_lt; eauto).
  destruct (Nat.eq_dec (length l) (S k)) as [|Hne]; auto. exfalso.
  destruct (nth_error_lt l (S k)) as [y Hy]; [lia|].
  destruct (increasing_nth _ _ H k (S k) _ _ ltac:(lia) Hk Hy) as [H1 H2].
  destruct y; simpl in H1; congruence.
Qed.

Lemma dist_order : total_order dleb.
Proof. constructor; [apply dleb_total|apply dleb_trans|apply dleb_antisym]. Qed.

Lemma dist_eq : decides_eq deqb.
Proof. intros x y. apply deqb_eq. Qed.

Lemma dltb_spec a b : dltb a b = true <-> dleb a b = true /\ a <> b.
Proof.
  unfold dltb. rewrite andb_true_iff, negb_true_iff. split.
  - intros [H1 H2]. split; auto. intros ->. rewrite dleb_refl in H2. discriminate.
  - intros [H1 H2]. split; auto. destruct (dleb b a) eqn:E; auto. exfalso. apply H2. apply dleb_antisym; auto.
Qed.

Lemma searchsorted_found l v k : increasing dleb l -> nth_error l k = Some v -> searchsorted dltb l v = k.
Proof.
  intro H. revert k. induction H as [|a l H IH Hf]; intros k Hk.
  - destruct k; discriminate.
  - destruct k as [|k]; simpl in *.
    + injection Hk as ->. destruct (dltb v v) eqn:E; auto. apply dltb_spec in E. tauto.
    + rewrite Forall_forall in Hf. pose proof (Hf v (nth_error_In _ _ Hk)) as Hlt.
      rewrite (proj2 (dltb_spec a v)) by exact Hlt. f_equal. auto.
Qed.

(** For examples: a successful computation with a property of the result. *)
Lemma ex_some {A} (o : option A) (P : A -> Prop) :
  match o with Some x => P x | None => False end -> exists x, o = Some x /\ P x.
Proof. destruct o as [x|]; [|tauto]. intro H. exists x. auto. Qed.
