(** * A nearest-neighbour search by brute force

    Not a model of scipy: it shows that the assumption on [cKDTree.query] can be met and serves to compute
    examples. *)
From Coq Require Import List ZArith QArith Qminmax Bool Arith Lia Lqa Permutation Sorting.Sorted.
From Verif Require Import Np NpFacts UtilsProofs LinAlg SpecBasis SpecSpatial BasisProofs KDProofs StructureModel.
Import ListNotations.
Open Scope nat_scope.

Definition near_leb (a b : nat * Q) : bool := Qle_bool (snd a) (snd b).

Definition brute_near (P : list vec) (x : vec) (r2 : option Q) : list (nat * Q) :=
  sort_stable near_leb
    (filter (fun e => match r2 with None => true | Some r => negb (Qle_bool r (snd e)) end)
       (map (fun jp => (fst jp, Qred (sqdist x (snd jp)))) (enumerate P))).

Definition brute : kd_tree := fun P x k r2 =>
  let top := firstn k (brute_near P x r2) in
  map (fun e => (fst e, Some (snd e))) top ++ repeat (length P, None) (k - length top).

Lemma near_total a b : near_leb a b = true \/ near_leb b a = true.
Proof. unfold near_leb. rewrite !Qle_bool_iff. destruct (Qlt_le_dec (snd a) (snd b)); [left|right]; lra. Qed.

Lemma near_trans a b c : near_leb a b = true -> near_leb b c = true -> near_leb a c = true.
Proof. unfold near_leb. rewrite !Qle_bool_iff. lra. Qed.

Lemma In_brute_near P x r2 j q :
  In (j, q) (brute_near P x r2) <->
  exists p, nth_error P j = Some p /\ q = Qred (sqdist x p) /\
    match r2 with Some r => (q < r)%Q | None => True end.
Proof.
  unfold brute_near. rewrite In_sort_stable, filter_In, in_map_iff. split.
  - intros [[[j' p] [E Hin]] Hf]. cbn in E. injection E as <- <-. apply In_enumerate in Hin.
    exists p. split; auto. split; auto. destruct r2 as [r|]; auto. cbn [snd] in Hf.
    apply negb_true_iff in Hf. apply Qle_bool_false_iff in Hf. assumption.
  - intros [p [Hp [-> Hr]]]. split.
    + exists (j, p). split; auto. apply In_enumerate. assumption.
    + destruct r2 as [r|]; auto. cbn [snd]. rewrite Qle_bool_false; auto.
Qed.

Lemma NoDup_brute_near P x r2 : NoDup (map fst (brute_near P x r2)).
Proof.
  unfold brute_near. eapply Permutation_NoDup.
  { apply Permutation_map. symmetry. apply sort_stable_perm. }
  set (f := fun e : nat * Q => _).
  assert (forall l, NoDup (map fst l) -> NoDup (map fst (filter f l))) as H.
  { induction l as [|a l IH]; cbn; intro Hn; auto. inversion Hn; subst. destruct (f a); cbn; auto.
    constructor; auto. intro Hin. apply H1. apply in_map_iff in Hin. destruct Hin as [e [E He]].
    apply filter_In in He. apply in_map_iff. exists e. tauto. }
  apply H. rewrite map_map. cbn [fst]. unfold enumerate.
  assert (forall (l : list vec) k, map (fun x0 : nat * vec => fst x0) (combine (seq k (length l)) l) = seq k (length l)) as E.
  { induction l; intro k; cbn; auto. f_equal. apply IHl. }
  rewrite E. apply seq_NoDup.
Qed.

Lemma NoDup_firstn {A} n (l : list A) : NoDup l -> NoDup (firstn n l).
Proof.
  revert n. induction l as [|a l IH]; intros [|n] H; cbn; try constructor; inversion H; subst; auto.
  intro Hin. apply H2. rewrite <- (firstn_skipn n l). apply in_or_app. auto.
Qed.

Lemma StronglySorted_nth {A} (R : A -> A -> Prop) l i j x y :
  StronglySorted R l -> i < j -> nth_error l i = Some x -> nth_error l j = Some y -> R x y.
Proof.
  intro H. revert i j. induction H as [|a l H IH Hf]; intros i j Hij Hi Hj; [destruct i; discriminate|].
  destruct j as [|j]; [lia|]. destruct i as [|i]; cbn in *.
  - injection Hi as <-. rewrite Forall_forall in Hf. apply Hf. eapply nth_error_In; eauto.
  - eapply IH; [|eauto|eauto]. lia.
Qed.

Theorem brute_nearest P x k r2 : nearest_row (fun _ => True) P x k k r2 (brute P x k r2).
Proof.
  unfold brute. set (near := brute_near P x r2). set (top := firstn k near).
  assert (length top <= k) as Hlen by (unfold top; rewrite firstn_length; lia).
  split; [rewrite app_length, map_length, repeat_length; lia|].
  exists (length top). split; auto.
  assert (forall c, c < length top -> nth_error (map (fun e => (fst e, Some (snd e))) top ++ repeat (length P, None) (k - length top)) c
            = option_map (fun e => (fst e, Some (snd e))) (nth_error near c)) as Hn.
  { intros c Hc. rewrite nth_error_app1 by (rewrite map_length; auto). rewrite nth_error_map'. f_equal.
    unfold top in *. rewrite nth_error_firstn. rewrite firstn_length in Hc. destruct (Nat.ltb_spec c k); auto; lia. }
  split; [|split; [|split; [|split]]].
  - intros c j d Hc E. rewrite Hn in E by auto. split; auto. destruct (nth_error near c) as [[j' q]|] eqn:Ec; [|discriminate].
    cbn in E. injection E as <- <-. apply nth_error_In in Ec. apply In_brute_near in Ec. destruct Ec as [p [Hp [Hq Hr]]].
    exists p, q. split; auto. split; auto. split; [rewrite Hq; apply Qred_correct|]. destruct r2; auto. lra.
  - intros c Hc. rewrite nth_error_app2; rewrite map_length; [|lia].
    assert (forall n i (y : nat * option Q), i < n -> nth_error (repeat y n) i = Some y) as Hrep.
    { induction n; intros i y Hi; [lia|]. destruct i; cbn; auto. apply IHn. lia. }
    apply Hrep. lia.
  - intros c c' j d d' Hc Hc' E E'. rewrite Hn in E, E' by auto.
    assert (forall c d, option_map (fun e => (fst e, Some (snd e))) (nth_error near c) = Some (j, d) ->
              nth_error (map fst near) c = Some j) as Hj.
    { intros c0 d0. rewrite nth_error_map'. destruct (nth_error near c0); cbn; congruence. }
    pose proof (NoDup_brute_near P x r2) as Hnd. rewrite NoDup_nth_error in Hnd. apply Hnd.
    + pose proof (Hj c d E) as H. eapply nth_error_length_lt. exact H.
    + fold near. rewrite (Hj c d E), (Hj c' d' E'). reflexivity.
  - intros c c' j j' d d' Hc E E'. rewrite Hn in E, E' by lia.
    destruct (nth_error near c) as [[a q]|] eqn:Ec; [|discriminate]. destruct (nth_error near c') as [[a' q']|] eqn:Ec'; [|discriminate].
    cbn in E, E'. injection E as _ <-. injection E' as _ <-.
    pose proof (sort_stable_sorted near_leb near_total near_trans) as Hs.
    assert (near_leb (a, q) (a', q') = true) as H.
    { eapply (StronglySorted_nth (fun a b => near_leb a b = true) near c c'); [apply Hs|lia|exact Ec|exact Ec']. }
    apply Qle_bool_iff in H. exact H.
  - intros j p _ Hp Hr. set (q := Qred (sqdist x p)).
    assert (In (j, q) near) as Hin.
    { apply In_brute_near. exists p. split; auto. split; auto. destruct r2; auto. unfold q. rewrite Qred_correct. auto. }
    apply In_nth_error in Hin. destruct Hin as [c Hc]. destruct (Nat.lt_ge_cases c k) as [Hk|Hk].
    + left. assert (c < length top).
      { unfold top. rewrite firstn_length. apply nth_error_length_lt in Hc. lia. }
      exists c, (Some q). split; auto. rewrite Hn by auto. rewrite Hc. reflexivity.
    + right. assert (length top = k) as Hk'.
      { unfold top. rewrite firstn_length. apply nth_error_length_lt in Hc. lia. }
      split; auto. intros c' j' d E. destruct (Nat.lt_ge_cases c' (length top)) as [Hc'|Hc'].
      * rewrite Hn in E by auto. destruct (nth_error near c') as [[a q']|] eqn:Ec'; [|discriminate].
        cbn in E. injection E as _ <-.
        assert (near_leb (a, q') (j, q) = true) as H.
        { eapply (StronglySorted_nth (fun a b => near_leb a b = true) near c' c);
            [apply (sort_stable_sorted near_leb near_total near_trans)|lia|exact Ec'|exact Hc]. }
        apply Qle_bool_iff in H. cbn [snd] in H. unfold q in H. rewrite Qred_correct in H. exact H.
      * rewrite nth_error_app2 in E by (rewrite map_length; lia). apply nth_error_In, repeat_spec in E. discriminate.
Qed.

(** What is assumed of the search: correct for every set of points, every point, count and bound. *)
Corollary brute_rows P k r2 : nearest_rows P P k r2 (map (fun x => brute P x k r2) P).
Proof.
  unfold nearest_rows. generalize P at 2 4. intro xs. induction xs; cbn; constructor; auto. apply brute_nearest.
Qed.
