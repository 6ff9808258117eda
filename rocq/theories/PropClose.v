(** * Property C81, continued: comparison of lengths (lattpy/basis.py:491, [np.isclose]) *)
From Coq Require Import List ZArith QArith Qreals Reals Bool Lia Lqa Lra Psatz.
From Verif Require Import Np LinAlg BasisModel VoronoiModel.
Open Scope R_scope.

Lemma Q2R_nonneg q : (0 <= q)%Q -> 0 <= Q2R q.
Proof. intro H. apply Qle_Rle in H. rewrite RMicromega.Q2R_0 in H. exact H. Qed.

Lemma sqrt_le_real c e x y : (0 <= c)%Q -> (0 <= e)%Q -> (0 <= x)%Q -> (0 <= y)%Q ->
  sqrt_le c e x y = true <-> sqrt (Q2R x) <= Q2R c * sqrt (Q2R y) + Q2R e.
Proof.
  intros Hc He Hx Hy. unfold sqrt_le. rewrite orb_true_iff, !Qle_bool_iff.
  assert (forall p q, (p <= q)%Q <-> Q2R p <= Q2R q) as Hq by (intros p q; split; [apply Qle_Rle|apply Rle_Qle]).
  rewrite !Hq. rewrite !Q2R_mult, !Q2R_minus, !Q2R_mult, RMicromega.Q2R_0.
  assert (Q2R 4 = 4) as -> by (unfold Q2R; cbn; lra).
  apply Q2R_nonneg in Hc, He, Hx, Hy. generalize dependent (Q2R c). generalize dependent (Q2R e). generalize dependent (Q2R x). generalize dependent (Q2R y).
  clear. intros Y HY X HX E HE C HC.
  pose proof (sqrt_pos X) as PX. pose proof (sqrt_pos Y) as PY. pose proof (sqrt_sqrt X HX) as SX. pose proof (sqrt_sqrt Y HY) as SY.
  set (u := sqrt X) in *. set (v := sqrt Y) in *. rewrite <- SX, <- SY. clear SX SY HX HY.
  assert (0 <= C * v) as HCv by (apply Rmult_le_pos; auto). assert (0 <= 2 * (C * v) * E) as HP by (apply Rmult_le_pos; auto; lra). split.
  - intro H. apply Rsqr_incr_0_var; [|lra]. unfold Rsqr. destruct H as [H|H]; [nra|].
    set (r := u * u - C * C * (v * v) - E * E) in *. assert (r <= 2 * (C * v) * E) as Hr.
    { apply Rsqr_incr_0_var; auto. unfold Rsqr. nra. }
    unfold r in Hr. nra.
  - intro H. set (r := u * u - C * C * (v * v) - E * E) in *. assert (r <= 2 * (C * v) * E) as Hr.
    { unfold r. assert (u * u <= (C * v + E) * (C * v + E)) by (apply Rmult_le_compat; auto). nra. }
    destruct (Rle_dec r 0) as [G|G]; [left; auto|right]. assert (0 <= r) as G' by lra.
    assert (r * r <= (2 * (C * v) * E) * (2 * (C * v) * E)) as Hrr by (apply Rmult_le_compat; auto). nra.
Qed.

(** The lengths are compared with numpy's default tolerances. *)
Theorem C81_close_lengths :
  forall x y, (0 <= x)%Q -> (0 <= y)%Q ->
    isclose2 x y = true <-> Rabs (sqrt (Q2R x) - sqrt (Q2R y)) <= / 10 ^ 8 + / 10 ^ 5 * sqrt (Q2R y).
Proof.
  intros x y Hx Hy. unfold isclose2. rewrite andb_true_iff.
  assert (0 <= (99999 # 100000) * (99999 # 100000) * y)%Q as Hz by (apply Qmult_le_0_compat; [unfold Qle; cbn; lia|auto]).
  rewrite !sqrt_le_real by (auto; unfold Qle; cbn; lia).
  rewrite !Q2R_mult. assert (Q2R (99999 # 100000) = 99999 / 100000) as -> by (unfold Q2R; cbn; lra).
  assert (Q2R (100001 # 100000) = 100001 / 100000) as -> by (unfold Q2R; cbn; lra).
  assert (Q2R (1 # 100000000) = / 10 ^ 8) as -> by (unfold Q2R; cbn; lra). rewrite RMicromega.Q2R_1.
  rewrite sqrt_mult_alt by lra. rewrite sqrt_square by lra.
  set (u := sqrt (Q2R x)). set (v := sqrt (Q2R y)).
  split.
  - intros [H1 H2]. apply Rabs_le. lra.
  - intro H. assert (- (/ 10 ^ 8 + / 10 ^ 5 * v) <= u - v <= / 10 ^ 8 + / 10 ^ 5 * v) as [H1 H2].
    { split; [|apply Rle_trans with (2 := H), Rle_abs]. apply Ropp_le_cancel. rewrite Ropp_involutive. apply Rle_trans with (2 := H). rewrite <- Rabs_Ropp. apply Rle_abs. }
    split; lra.
Qed.

(** The lengths 1 and sqrt(1 + 2e-5) are close, 1 and sqrt(1 + 3e-5) are not. *)
Example C81_close_example : isclose2 (100002 # 100000) 1 = true /\ isclose2 (100003 # 100000) 1 = false /\ isclose2 (1 # 10000000000000000) 0 = true /\
  isclose2 (2 # 10000000000000000) 0 = false /\ isclose2 0 (1 # 10000000000000000) = true /\ isclose2 0 (2 # 10000000000000000) = false.
Proof. vm_compute. auto 10. Qed.

Print Assumptions C81_close_lengths.
