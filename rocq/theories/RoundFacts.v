(** * Rounding of square roots to six decimals *)
From Coq Require Import List ZArith QArith Qround Qabs Bool Arith Lia Lqa.
From Verif Require Import Np LinAlg BasisProofs SpecStructure.
Import ListNotations.
Open Scope Q_scope.

Lemma Zsq_mono a b : (0 <= a)%Z -> (a <= b)%Z -> (a * a <= b * b)%Z.
Proof. nia. Qed.

Lemma sqrt_bracket s : 0 <= s ->
  let n := Z.sqrt (Qfloor s) in
  (0 <= n)%Z /\ inject_Z n * inject_Z n <= s /\ s < inject_Z (n + 1) * inject_Z (n + 1).
Proof.
  intros Hs n. assert (0 <= Qfloor s)%Z as Hf by (change 0%Z with (Qfloor 0); apply Qfloor_resp_le; assumption).
  pose proof (Z.sqrt_spec _ Hf) as [H1 H2]. fold n in H1, H2. pose proof (Z.sqrt_nonneg (Qfloor s)) as Hn. fold n in Hn.
  split; auto. rewrite <- !inject_Z_mult. split.
  - apply Qle_trans with (inject_Z (Qfloor s)); [rewrite <- Zle_Qle; lia|apply Qfloor_le].
  - apply Qlt_le_trans with (inject_Z (Qfloor s + 1)); [apply Qlt_floor|]. rewrite <- Zle_Qle. lia.
Qed.

Lemma sqrt_micro_rounds q : 0 <= q -> rounds_to_micro q (sqrt_micro q).
Proof.
  intro Hq. unfold sqrt_micro. set (s := q * (1000000000000 # 1)).
  assert (0 <= s) as Hs by (unfold s; lra).
  destruct (sqrt_bracket s Hs) as [Hn [H1 H2]]. set (n := Z.sqrt (Qfloor s)) in *.
  set (half := inject_Z (2 * n + 1) * inject_Z (2 * n + 1) * (1 # 4)).
  rewrite inject_Z_plus in H2. change (inject_Z 1) with 1 in H2.
  assert (half == (inject_Z n + (1#2)) * (inject_Z n + (1#2))) as Eh.
  { unfold half. rewrite inject_Z_plus, inject_Z_mult. change (inject_Z 2) with 2. change (inject_Z 1) with 1. ring. }
  assert (0 <= inject_Z n) as Hn' by (change 0 with (inject_Z 0); rewrite <- Zle_Qle; exact Hn).
  unfold rounds_to_micro. fold s.
  assert (forall z, (z = n \/ z = n + 1)%Z -> inject_Z z == inject_Z n \/ inject_Z z == inject_Z n + 1) as _ by
    (intros z [->| ->]; [left|right; rewrite inject_Z_plus]; reflexivity).
  destruct (Qle_bool half s) eqn:E1.
  - apply Qle_bool_iff in E1. destruct (Qle_bool s half) eqn:E2.
    + apply Qle_bool_iff in E2. assert (s == half) as Es by lra.
      destruct (Z.even n) eqn:Ev.
      * split; [lia|]. split; [rewrite Es, Eh; (first [lra|nra])|]. split; [intro; rewrite Es, Eh; (first [lra|nra])|].
        auto.
      * split; [lia|]. rewrite inject_Z_plus. change (inject_Z 1) with 1.
        split; [rewrite Es, Eh; (first [lra|nra])|]. split; [intro; rewrite Es, Eh; (first [lra|nra])|].
        assert (Z.even (n + 1) = true) as Ev' by (rewrite Z.even_add, Ev; reflexivity). auto.
    + apply Qle_bool_false_iff in E2. split; [lia|]. rewrite inject_Z_plus. change (inject_Z 1) with 1.
      split; [(first [lra|nra])|]. split; [intro; (first [lra|nra])|]. split; intros; exfalso; (first [lra|nra]).
  - apply Qle_bool_false_iff in E1. split; [lia|]. split; [(first [lra|nra])|].
    split; [intro Hz; assert (1 <= inject_Z n) by (change 1 with (inject_Z 1); rewrite <- Zle_Qle; lia); (first [lra|nra])|].
    split; [intro E; exfalso; (first [lra|nra])|]. intros Hz E.
    assert (1 <= inject_Z n) by (change 1 with (inject_Z 1); rewrite <- Zle_Qle; lia). exfalso. (first [lra|nra]).
Qed.

Lemma rounds_mono q q' z z' : rounds_to_micro q z -> rounds_to_micro q' z' -> q <= q' -> (z <= z')%Z.
Proof.
  intros [H0 [H1 [H2 [H3 H4]]]] [K0 [K1 [K2 [K3 K4]]]] Hle.
  destruct (Z.le_gt_cases z z') as [H|H]; auto. exfalso.
  assert (0 <= inject_Z z') as Z0 by (change 0 with (inject_Z 0); rewrite <- Zle_Qle; lia).
  assert (inject_Z z' + 1 <= inject_Z z) as Z1.
  { change 1 with (inject_Z 1). rewrite <- inject_Z_plus, <- Zle_Qle. lia. }
  specialize (H2 ltac:(lia)).
  set (s := q * (1000000000000 # 1)) in *. set (s' := q' * (1000000000000 # 1)) in *.
  assert (s <= s') as Hs by (unfold s, s'; lra).
  assert (inject_Z z == inject_Z z' + 1) as Ez by nra.
  assert (s == (inject_Z z - (1#2)) * (inject_Z z - (1#2))) as E1 by nra.
  assert (s' == (inject_Z z' + (1#2)) * (inject_Z z' + (1#2))) as E2 by nra.
  specialize (H4 ltac:(lia) E1). specialize (K3 E2).
  assert (inject_Z z == inject_Z (z' + 1)) as Ez' by (rewrite inject_Z_plus; exact Ez).
  apply (proj1 (inject_Z_injective _ _)) in Ez'. rewrite Ez' in H4.
  rewrite Z.even_add, K3 in H4. discriminate.
Qed.

Lemma rounds_unique q q' z z' : rounds_to_micro q z -> rounds_to_micro q' z' -> q == q' -> z = z'.
Proof.
  intros H H' E. apply Z.le_antisymm; eapply rounds_mono; eauto; lra.
Qed.

Lemma sqrt_micro_mono q q' : 0 <= q -> q <= q' -> (sqrt_micro q <= sqrt_micro q')%Z.
Proof. intros. eapply rounds_mono; [apply sqrt_micro_rounds|apply sqrt_micro_rounds|]; lra. Qed.

Lemma sqrt_micro_eq q q' : 0 <= q -> q == q' -> sqrt_micro q = sqrt_micro q'.
Proof. intros. eapply rounds_unique; [apply sqrt_micro_rounds|apply sqrt_micro_rounds|]; lra. Qed.

Lemma sqrt_micro_nonneg q : 0 <= q -> (0 <= sqrt_micro q)%Z.
Proof. intro H. apply sqrt_micro_rounds in H. apply H. Qed.
