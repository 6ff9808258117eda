(** * Facts about the data structures of StructureModel.v *)
From Coq Require Import List ZArith QArith Qround Bool Arith Lia Permutation Sorting.Sorted.
From Verif Require Import Np NpFacts UtilsModel UtilsProofs LinAlg SpecUtils SpecBasis SpecSpatial SpecStructure
  BasisModel BasisProofs SpatialModel KDProofs StructureModel.
Import ListNotations.
Open Scope nat_scope.
Open Scope list_scope.

(** ** Index arrays *)

Lemma flat_map_length_const {A B} (f : A -> list B) l m :
  (forall x, In x l -> length (f x) = m) -> length (flat_map f l) = length l * m.
Proof.
  induction l as [|a l IH]; intro H; cbn; auto. rewrite app_length, H by (left; auto).
  rewrite IH by (intros; apply H; right; auto). lia.
Qed.

Lemma nth_flat_map_const {A B} (f : A -> list B) l m i j x y :
  (forall x, In x l -> length (f x) = m) -> i < length l -> j < m ->
  nth (i * m + j) (flat_map f l) y = nth j (f (nth i l x)) y.
Proof.
  revert i. induction l as [|a l IH]; intros i H Hi Hj; cbn in Hi; [lia|].
  cbn [flat_map]. destruct i as [|i].
  - cbn [Nat.mul Nat.add nth]. rewrite app_nth1; auto. rewrite H by (left; auto). auto.
  - rewrite app_nth2; rewrite H by (left; auto); [|lia].
    replace (S i * m + j - m) with (i * m + j) by lia. cbn [nth]. apply IH; auto; [|lia].
    intros; apply H; right; auto.
Qed.

(** Sites cell by cell, atoms within a cell. *)
Definition sites_of (nbase : nat) (nvecs : list (list Z)) : list (list Z) :=
  flat_map (fun n => map (fun a => n ++ [Z.of_nat a]) (seq 0 nbase)) nvecs.

Lemma sites_of_length nbase nvecs : length (sites_of nbase nvecs) = length nvecs * nbase.
Proof. unfold sites_of. rewrite (flat_map_length_const _ _ nbase); auto. intros. rewrite map_length, seq_length. auto. Qed.

Lemma nth_sites_of nbase nvecs c a :
  c < length nvecs -> a < nbase -> nth (c * nbase + a) (sites_of nbase nvecs) [] = nth c nvecs [] ++ [Z.of_nat a].
Proof.
  intros Hc Ha. unfold sites_of. rewrite (nth_flat_map_const _ _ nbase _ _ []); auto.
  - rewrite (nth_indep _ [] (nth c nvecs [] ++ [Z.of_nat 0])) by (rewrite map_length, seq_length; auto).
    rewrite (map_nth (fun a => nth c nvecs [] ++ [Z.of_nat a])). rewrite seq_nth by auto. reflexivity.
  - intros. rewrite map_length, seq_length. auto.
Qed.

Lemma length_ravel_f cols ncells arrays : length (ravel_f cols ncells arrays) = cols * (ncells * length arrays).
Proof.
  unfold ravel_f. rewrite (flat_map_length_const _ _ (ncells * length arrays)).
  - rewrite seq_length. auto.
  - intros j _. rewrite (flat_map_length_const _ _ (length arrays)).
    + rewrite seq_length. auto.
    + intros. rewrite map_length. auto.
Qed.

Lemma nth_ravel_f cols ncells arrays j c a :
  j < cols -> c < ncells -> a < length arrays ->
  nth (j * (ncells * length arrays) + (c * length arrays + a)) (ravel_f cols ncells arrays) 0%Z
  = nth j (nth c (nth a arrays []) []) 0%Z.
Proof.
  intros Hj Hc Ha. unfold ravel_f.
  rewrite (nth_flat_map_const _ _ (ncells * length arrays) _ _ 0); [|  |rewrite seq_length; auto|nia].
  - rewrite seq_nth by auto. cbn [Nat.add].
    rewrite (nth_flat_map_const _ _ (length arrays) _ _ 0); [|  |rewrite seq_length; auto|auto].
    + rewrite seq_nth by auto. cbn [Nat.add].
      rewrite (nth_indep _ 0%Z (nth j (nth c [] []) 0%Z)) by (rewrite map_length; auto).
      rewrite (map_nth (fun arr => nth j (nth c arr []) 0%Z)). reflexivity.
    + intros. rewrite map_length. auto.
  - intros j' _. rewrite (flat_map_length_const _ _ (length arrays)).
    + rewrite seq_length. auto.
    + intros. rewrite map_length. auto.
Qed.

Lemma nth_map_in {A B} (f : A -> B) l i da db : i < length l -> nth i (map f l) db = f (nth i l da).
Proof. intro H. rewrite (nth_indep _ db (f da)) by (rewrite map_length; auto). apply map_nth. Qed.

Lemma list_eq_nth {A} (l m : list A) d :
  length l = length m -> (forall i, i < length l -> nth i l d = nth i m d) -> l = m.
Proof. intros. apply (nth_ext l m d d); auto. Qed.

Lemma site_indices_eq dim nbase nvecs :
  (forall n, In n nvecs -> length n = dim) -> site_indices dim nbase nvecs = sites_of nbase nvecs.
Proof.
  intro Hd. unfold site_indices, reshape_t.
  set (arrays := map (fun i => map (fun n => n ++ [Z.of_nat i]) nvecs) (seq 0 nbase)).
  assert (length arrays = nbase) as Ha by (unfold arrays; rewrite map_length, seq_length; auto).
  rewrite length_ravel_f, Ha, Nat.mul_comm, Nat.div_mul by lia.
  apply (list_eq_nth _ _ []); [rewrite map_length, seq_length, sites_of_length; auto|].
  intros i Hi. rewrite map_length, seq_length in Hi.
  assert (nbase <> 0) by (intros ->; lia).
  rewrite (nth_map_in _ _ _ 0) by (rewrite seq_length; auto). rewrite seq_nth by auto. cbn [Nat.add].
  pose proof (Nat.div_mod i nbase ltac:(auto)) as Ei. pose proof (Nat.mod_upper_bound i nbase ltac:(auto)) as Hm.
  set (c := i / nbase) in *. set (a := i mod nbase) in *.
  assert (c < length nvecs) as Hc by (apply Nat.div_lt_upper_bound; lia).
  assert (nth i (sites_of nbase nvecs) [] = nth c nvecs [] ++ [Z.of_nat a]) as Es.
  { rewrite <- (nth_sites_of nbase) by auto. f_equal. lia. }
  rewrite Es.
  assert (length (nth c nvecs []) = dim) as Hl by (apply Hd, nth_In; auto).
  apply (list_eq_nth _ _ 0%Z); [rewrite map_length, seq_length, app_length, Hl; cbn; lia|].
  intros j Hj. rewrite map_length, seq_length in Hj.
  rewrite (nth_map_in _ _ _ 0) by (rewrite seq_length; auto). rewrite seq_nth by auto. cbn [Nat.add].
  replace (j * (length nvecs * nbase) + i) with (j * (length nvecs * length arrays) + (c * length arrays + a))
    by (rewrite Ha; lia).
  rewrite nth_ravel_f by lia. unfold arrays.
  rewrite (nth_map_in _ _ _ 0) by (rewrite seq_length; auto). rewrite seq_nth by auto. cbn [Nat.add].
  rewrite (nth_map_in _ _ _ []) by auto. reflexivity.
Qed.

Lemma site_cell_app n a : site_cell (n ++ [Z.of_nat a]) = n.
Proof. unfold site_cell. apply removelast_last. Qed.

Lemma site_atom_app n a : site_atom (n ++ [Z.of_nat a]) = a.
Proof. unfold site_atom. rewrite last_last. apply Nat2Z.id. Qed.

Lemma last_app_one n a : last (n ++ [Z.of_nat a]) 0%Z = Z.of_nat a.
Proof. apply last_last. Qed.

Lemma In_sites_of nbase nvecs s :
  In s (sites_of nbase nvecs) <-> exists n a, In n nvecs /\ a < nbase /\ s = n ++ [Z.of_nat a].
Proof.
  unfold sites_of. rewrite in_flat_map. split.
  - intros [n [Hn Hs]]. apply in_map_iff in Hs. destruct Hs as [a [<- Ha]]. apply in_seq in Ha.
    exists n, a. split; auto. split; auto. lia.
  - intros [n [a [Hn [Ha ->]]]]. exists n. split; auto. apply in_map_iff. exists a. split; auto. apply in_seq. lia.
Qed.

Lemma site_app_inj n n' a a' : n ++ [Z.of_nat a] = n' ++ [Z.of_nat a'] -> n = n' /\ a = a'.
Proof. intro H. apply app_inj_tail in H. destruct H as [-> H]. split; auto. lia. Qed.

Lemma NoDup_sites_of nbase nvecs : NoDup nvecs -> NoDup (sites_of nbase nvecs).
Proof.
  induction 1 as [|n nvecs Hn Hd IH]; cbn; [constructor|].
  apply LinFacts.NoDup_app_intro; auto.
  - apply FinFun.Injective_map_NoDup; [|apply seq_NoDup]. intros a a' E. apply site_app_inj in E. apply E.
  - intros s Hs Hs'. apply in_map_iff in Hs. destruct Hs as [a [<- _]]. fold (sites_of nbase nvecs) in Hs'.
    apply In_sites_of in Hs'. destruct Hs' as [n' [a' [Hn' [_ E]]]]. apply site_app_inj in E. destruct E as [-> _]. auto.
Qed.

(** ** Dictionaries *)

Lemma dd_get_extend d k sites k' :
  dd_get (dd_extend d k sites) k' = if deqb k k' then dd_get d k ++ sites else dd_get d k'.
Proof.
  induction d as [|[q v] d IH]; cbn [dd_extend dd_get].
  - destruct (deqb k k') eqn:E.
    + apply deqb_eq in E. subst. rewrite deqb_refl. reflexivity.
    + replace (deqb k' k) with false; auto. symmetry. apply deqb_neq. apply deqb_neq in E. auto.
  - destruct (deqb k q) eqn:Ekq.
    + apply deqb_eq in Ekq. subst q. cbn [dd_get]. destruct (deqb k k') eqn:E.
      * apply deqb_eq in E. subst. rewrite deqb_refl. reflexivity.
      * replace (deqb k' k) with false; auto. symmetry. apply deqb_neq. apply deqb_neq in E. auto.
    + cbn [dd_get]. rewrite IH. destruct (deqb k' q) eqn:Eq; auto.
      apply deqb_eq in Eq. subst q. rewrite Ekq. reflexivity.
Qed.

Lemma In_keys_extend d k sites k' : In k' (dd_keys (dd_extend d k sites)) <-> k' = k \/ In k' (dd_keys d).
Proof.
  induction d as [|[q v] d IH]; cbn [dd_extend].
  - cbn. intuition auto.
  - destruct (deqb k q) eqn:E.
    + apply deqb_eq in E. subst. cbn. intuition auto.
    + cbn in *. rewrite IH. intuition auto.
Qed.

Lemma NoDup_keys_extend d k sites : NoDup (dd_keys d) -> NoDup (dd_keys (dd_extend d k sites)).
Proof.
  induction d as [|[q v] d IH]; cbn [dd_extend]; intro H.
  - cbn. constructor; auto.
  - cbn in H. inversion H as [|? ? Hq Hd]; subst. destruct (deqb k q) eqn:E.
    + cbn. constructor; auto.
    + cbn. constructor; auto. intro Hin. apply In_keys_extend in Hin. destruct Hin as [->|Hin]; auto.
      rewrite deqb_refl in E. discriminate.
Qed.

(** Appending a key that is not smaller than the others keeps the keys increasing. *)
Lemma keys_extend_sorted d k sites :
  increasing dleb (dd_keys d) -> (forall q, In q (dd_keys d) -> dleb q k = true) ->
  increasing dleb (dd_keys (dd_extend d k sites)).
Proof.
  unfold increasing. induction d as [|[q v] d IH]; cbn [dd_extend]; intros H Hk.
  - cbn. repeat constructor.
  - cbn in H. inversion H as [|? ? Hs Hf]; subst. destruct (deqb k q) eqn:E; [exact H|].
    cbn. constructor; [apply IH; auto; intros; apply Hk; right; auto|].
    rewrite Forall_forall in *. intros x Hx. apply In_keys_extend in Hx. destruct Hx as [->|Hx]; auto.
    split; [apply Hk; left; auto|]. apply deqb_neq in E. auto.
Qed.

Lemma dd_get_missing d k : ~ In k (dd_keys d) -> dd_get d k = [].
Proof.
  induction d as [|[q v] d IH]; cbn; intro H; auto. destruct (deqb k q) eqn:E.
  - apply deqb_eq in E. subst. tauto.
  - apply IH. tauto.
Qed.

(** Grouping a list of (distance, site). *)
Definition group (l : list (dist * list Z)) : distdict :=
  fold_left (fun acc e => dd_extend acc (fst e) [snd e]) l [].

Lemma group_snoc l e : group (l ++ [e]) = dd_extend (group l) (fst e) [snd e].
Proof. unfold group. rewrite fold_left_app. reflexivity. Qed.

Lemma dd_get_group l k : dd_get (group l) k = map snd (filter (fun e => deqb (fst e) k) l).
Proof.
  induction l as [|e l IH] using rev_ind; [reflexivity|].
  rewrite group_snoc, dd_get_extend, filter_app, map_app. cbn [filter].
  destruct (deqb (fst e) k) eqn:E.
  - apply deqb_eq in E. subst k. rewrite IH. reflexivity.
  - cbn. rewrite app_nil_r. exact IH.
Qed.

Lemma In_keys_group l k : In k (dd_keys (group l)) <-> exists s, In (k, s) l.
Proof.
  induction l as [|e l IH] using rev_ind; cbn.
  - split; [tauto|]. intros [s []].
  - rewrite group_snoc, In_keys_extend, IH. split.
    + intros [->|[s Hs]]; [exists (snd e)|exists s]; apply in_or_app; [right; left; destruct e; auto|auto].
    + intros [s Hs]. apply in_app_or in Hs. destruct Hs as [Hs|[->|[]]]; eauto.
Qed.

Lemma keys_group_sorted l :
  StronglySorted (fun a b => dleb a b = true) (map fst l) -> increasing dleb (dd_keys (group l)).
Proof.
  induction l as [|e l IH] using rev_ind; intro H; [constructor|].
  rewrite group_snoc. rewrite map_app in H. cbn in H.
  assert (StronglySorted (fun a b => dleb a b = true) (map fst l) /\ forall q, In q (map fst l) -> dleb q (fst e) = true) as [H1 H2].
  { clear IH. induction (map fst l) as [|x m IH]; [split; [apply SSorted_nil|intros q []]|].
    cbn in H. inversion H as [|? ? Hs Hf]; subst. destruct (IH Hs) as [A B]. rewrite Forall_forall in Hf. split.
    - constructor; auto. rewrite Forall_forall. intros z Hz. apply Hf. apply in_or_app. auto.
    - intros q [->|Hq]; auto. apply Hf. apply in_or_app. right. left. auto. }
  apply keys_extend_sorted; auto. intros q Hq. apply In_keys_group in Hq. destruct Hq as [s Hs].
  apply H2. apply in_map_iff. exists (q, s). auto.
Qed.

(** ** Collecting the query result *)

Lemma collect_length dicts e : length (collect dicts e) = length dicts.
Proof. unfold collect. destruct (dist_truthy (fst e)); auto. apply set_nth_length. Qed.

Definition relevant (a : nat) (e : dist * list Z) : bool :=
  dist_truthy (fst e) && (site_atom (snd e) =? a).

Lemma nth_set_nth' {A} (x : A) i v l k : k < length l -> nth k (set_nth i v l) x = if k =? i then v else nth k l x.
Proof.
  intro Hk. revert i k Hk. induction l as [|y l IH]; intros [|i] [|k] Hk; cbn in *; auto; try lia.
  apply IH. lia.
Qed.

Lemma nth_collect l n a :
  a < n -> nth a (fold_left collect l (repeat [] n)) [] = group (filter (relevant a) l).
Proof.
  intro Ha. assert (length (fold_left collect l (repeat [] n)) = n /\ nth a (fold_left collect l (repeat [] n)) [] = group (filter (relevant a) l)) as [_ H]; auto.
  induction l as [|e l IH] using rev_ind.
  - cbn. rewrite repeat_length, nth_repeat. auto.
  - rewrite fold_left_app, filter_app. destruct IH as [Hl IH]. cbn [fold_left filter].
    rewrite collect_length. split; auto. unfold collect at 1, relevant at 2. destruct (dist_truthy (fst e)); cbn [andb].
    + rewrite nth_set_nth' by lia. rewrite (Nat.eqb_sym a). destruct (Nat.eqb_spec (site_atom (snd e)) a) as [->|].
      * rewrite group_snoc, IH. reflexivity.
      * rewrite app_nil_r. exact IH.
    + rewrite app_nil_r. exact IH.
Qed.

(** ** Keeping the first distances *)

Lemma increasing_sorted_id l : increasing dleb l -> sort_stable dleb l = l.
Proof.
  induction 1 as [|x l H IH Hf]; cbn; auto. rewrite IH. destruct l as [|y l]; auto. cbn.
  rewrite Forall_forall in Hf. destruct (Hf y) as [-> _]; auto. left. auto.
Qed.

Lemma increasing_NoDup l : increasing dleb l -> NoDup l.
Proof. apply strict_NoDup. Qed.

Lemma existsb_deqb l k : existsb (deqb k) l = true <-> In k l.
Proof.
  rewrite existsb_exists. split.
  - intros [x [Hx E]]. apply deqb_eq in E. subst. auto.
  - intro H. exists k. split; auto. apply deqb_refl.
Qed.

Lemma keys_filter (d : distdict) (p : dist -> bool) :
  dd_keys (filter (fun kv => p (fst kv)) d) = filter p (dd_keys d).
Proof. unfold dd_keys. induction d as [|[k v] d IH]; cbn; auto. destruct (p k); cbn; rewrite IH; auto. Qed.

Lemma dd_get_filter (d : distdict) (p : dist -> bool) k :
  p k = true -> dd_get (filter (fun kv => p (fst kv)) d) k = dd_get d k.
Proof.
  intro H. induction d as [|[q v] d IH]; cbn; auto. destruct (p q) eqn:E; cbn.
  - rewrite IH. auto.
  - rewrite IH. destruct (deqb k q) eqn:E'; auto. apply deqb_eq in E'. congruence.
Qed.

Lemma filter_all {A} (p : A -> bool) l : (forall x, In x l -> p x = true) -> filter p l = l.
Proof.
  induction l as [|x l IH]; intro H; cbn; auto. rewrite H by (left; auto). f_equal. apply IH. intros; apply H; right; auto.
Qed.

Lemma filter_none {A} (p : A -> bool) l : (forall x, In x l -> p x = false) -> filter p l = [].
Proof.
  induction l as [|x l IH]; intro H; cbn; auto. rewrite H by (left; auto). apply IH. intros; apply H; right; auto.
Qed.

Lemma filter_prefix_keys l m : NoDup (l ++ m) -> filter (fun k => existsb (deqb k) l) (l ++ m) = l.
Proof.
  intro H. rewrite filter_app, filter_all, filter_none, app_nil_r; auto.
  - intros k Hk. destruct (existsb (deqb k) l) eqn:E; auto. apply existsb_deqb in E. exfalso.
    clear - H E Hk. induction l as [|x l IH]; [destruct E|].
    cbn in H. inversion H; subst. destruct E as [->|E]; auto. apply H2. apply in_or_app. auto.
  - intros k Hk. apply existsb_deqb. auto.
Qed.

Lemma filter_firstn_keys l n : NoDup l -> filter (fun k => existsb (deqb k) (firstn n l)) l = firstn n l.
Proof.
  intro H. pose proof (filter_prefix_keys (firstn n l) (skipn n l)) as E. rewrite firstn_skipn in E. auto.
Qed.

Lemma drop_extra_keys n d : increasing dleb (dd_keys d) -> dd_keys (drop_extra n d) = firstn n (dd_keys d).
Proof.
  intro H. unfold drop_extra. rewrite increasing_sorted_id by auto. rewrite (keys_filter d (fun k => existsb (deqb k) (firstn n (dd_keys d)))).
  apply filter_firstn_keys, increasing_NoDup, H.
Qed.

Lemma drop_extra_get n d k :
  increasing dleb (dd_keys d) -> In k (firstn n (dd_keys d)) -> dd_get (drop_extra n d) k = dd_get d k.
Proof.
  intros H Hk. unfold drop_extra. rewrite increasing_sorted_id by auto.
  apply (dd_get_filter d (fun q => existsb (deqb q) (firstn n (dd_keys d)))). apply existsb_deqb. auto.
Qed.

Lemma increasing_firstn n l : increasing dleb l -> increasing dleb (firstn n l).
Proof.
  unfold increasing. intro H. revert n. induction H as [|x l H IH Hf]; intros [|n]; cbn; constructor; auto.
  rewrite Forall_forall in *. intros y Hy. apply Hf. rewrite <- (firstn_skipn n l). apply in_or_app. auto.
Qed.

Lemma In_firstn {A} (x : A) n l : In x (firstn n l) <-> exists i, i < n /\ nth_error l i = Some x.
Proof.
  revert n. induction l as [|y l IH]; intros [|n]; cbn.
  - split; [tauto|]. intros [i [H _]]. lia.
  - split; [tauto|]. intros [i [_ H]]. destruct i; discriminate.
  - split; [tauto|]. intros [i [H _]]. lia.
  - rewrite IH. split.
    + intros [->|[i [Hi E]]]; [exists 0|exists (S i)]; split; auto; lia.
    + intros [[|i] [Hi E]]; cbn in E; [left; congruence|right; exists i; split; auto; lia].
Qed.
