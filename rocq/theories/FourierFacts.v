(** * Sums of periodic functions and their Fourier coefficients *)
From Coq Require Import List ZArith Bool Arith Lia Reals Lra.
From Verif Require Import RealModel SpecBloch PropBloch.
Import ListNotations.
Open Scope nat_scope.
Open Scope list_scope.

(** The sum over one period. *)
Definition period_sum (N : nat) (f : Z -> cplx) : cplx := csum (map (fun n => f (Z.of_nat n)) (seq 0 N)).

Definition periodic_in (N : nat) (f : Z -> cplx) : Prop := forall n, f (n + Z.of_nat N)%Z = f n.

Lemma period_sum_ext N f g : (forall n, f n = g n) -> period_sum N f = period_sum N g.
Proof. intro H. unfold period_sum. f_equal. apply map_ext. auto. Qed.

Lemma period_sum_add N f g : period_sum N (fun n => cadd (f n) (g n)) = cadd (period_sum N f) (period_sum N g).
Proof. apply (csum_map_add (fun n => f (Z.of_nat n)) (fun n => g (Z.of_nat n))). Qed.

Lemma period_sum_mul N c f : period_sum N (fun n => cmul c (f n)) = cmul c (period_sum N f).
Proof. apply (csum_map_mul c (fun n => f (Z.of_nat n))). Qed.

Lemma period_sum_zero N : period_sum N (fun _ => c0) = c0.
Proof. apply csum_zero. auto. Qed.

Lemma period_sum_swap N M (f : Z -> Z -> cplx) : period_sum N (fun n => period_sum M (fun m => f n m)) = period_sum M (fun m => period_sum N (fun n => f n m)).
Proof.
  assert (forall l, csum (map (fun n => period_sum M (fun m => f (Z.of_nat n) m)) l) = period_sum M (fun m => csum (map (fun n => f (Z.of_nat n) m) l))) as G.
  { induction l as [|n l IH]; cbn [map csum]; [symmetry; apply period_sum_zero|]. rewrite IH, <- period_sum_add. reflexivity. }
  apply G.
Qed.

Lemma shift_one N f : periodic_in N f -> period_sum N (fun n => f (n + 1)%Z) = period_sum N f.
Proof.
  intro H. unfold period_sum. assert (map (fun n => f (Z.of_nat n + 1)%Z) (seq 0 N) = map (fun n => f (Z.of_nat n)) (seq 1 N)) as ->.
  { rewrite <- seq_shift, map_map. apply map_ext. intro n. f_equal. lia. }
  set (g := fun n => f (Z.of_nat n)). assert (cadd (g 0) (csum (map g (seq 1 N))) = cadd (csum (map g (seq 0 N))) (g N)) as E.
  { change (cadd (g 0) (csum (map g (seq 1 N)))) with (csum (map g (seq 0 (S N)))). rewrite seq_S, map_app, csum_app. cbn [map csum]. rewrite Nat.add_0_l. ring. }
  assert (g N = g 0) as E0 by (exact (H 0%Z)). rewrite E0 in E.
  transitivity (cadd (cadd (g 0) (csum (map g (seq 1 N)))) (copp (g 0))); [ring|]. rewrite E. ring.
Qed.

Lemma shift_sum N f m : periodic_in N f -> period_sum N (fun n => f (n + m)%Z) = period_sum N f.
Proof.
  intro H. assert (forall m, period_sum N (fun n => f (n + (m + 1))%Z) = period_sum N (fun n => f (n + m)%Z)) as Hs.
  { intro m'. rewrite <- (shift_one N (fun n => f (n + m')%Z)).
    - apply period_sum_ext. intro n. f_equal. lia.
    - intro n. rewrite <- (H (n + m')%Z). f_equal. lia. }
  induction m using Z.peano_ind.
  - apply period_sum_ext. intro n. f_equal. lia.
  - rewrite <- IHm. apply Hs.
  - rewrite <- IHm. rewrite <- (Hs (Z.pred m)). apply period_sum_ext. intro n. f_equal. lia.
Qed.

(** ** Sums of powers *)

Lemma wave_sum (N : nat) (x : R) z : (INR N * x = 2 * PI * IZR z)%R -> cexp_i x <> (1, 0)%R -> period_sum N (fun n => cexp_i (x * IZR n)) = c0.
Proof.
  intros Hx Hne. assert (periodic_in N (fun n => cexp_i (x * IZR n))) as HP.
  { intro n. rewrite plus_IZR, <- INR_IZR_INZ. replace (x * (IZR n + INR N))%R with (x * IZR n + 2 * PI * IZR z)%R by lra. apply turns. }
  pose proof (shift_one N _ HP) as E. cbv beta in E.
  assert (period_sum N (fun n => cexp_i (x * IZR (n + 1))) = cmul (cexp_i x) (period_sum N (fun n => cexp_i (x * IZR n)))) as E1.
  { rewrite <- period_sum_mul. apply period_sum_ext. intro n. rewrite <- cexp_add. f_equal. rewrite plus_IZR. ring. }
  rewrite E1 in E. set (S := period_sum _ _) in *. clearbody S. destruct S as [p q]. unfold cexp_i, cmul, c0 in *. cbn [fst snd] in E.
  assert (cos x * p - sin x * q = p)%R as Ea by congruence. assert (cos x * q + sin x * p = q)%R as Eb by congruence. clear E.
  assert (cos x < 1)%R as Hc.
  { pose proof (COS_bound x) as [_ [H|H]]; auto. exfalso. apply Hne. rewrite H. f_equal. pose proof (sin2_cos2 x) as G. unfold Rsqr in G. rewrite H in G. nra. }
  pose proof (sin2_cos2 x) as G. unfold Rsqr in G.
  assert ((2 - 2 * cos x) * (p * p + q * q) = 0)%R as Z.
  { replace ((2 - 2 * cos x) * (p * p + q * q))%R with (((sin x * sin x + cos x * cos x) + 1 - 2 * cos x) * (p * p + q * q))%R by (rewrite G; ring).
    replace (((sin x * sin x + cos x * cos x) + 1 - 2 * cos x) * (p * p + q * q))%R with ((cos x * p - sin x * q - p) * (cos x * p - sin x * q - p) + (cos x * q + sin x * p - q) * (cos x * q + sin x * p - q))%R by ring.
    rewrite Ea, Eb. ring. }
  apply Rmult_integral in Z. destruct Z as [Z|Z]; [lra|]. f_equal; nra.
Qed.

Lemma wave_not_one (N : nat) m : (0 < Z.abs m < Z.of_nat N)%Z -> cexp_i (2 * PI * IZR m / INR N) <> (1, 0)%R.
Proof.
  intros Hm H. assert (0 < INR N)%R as HN by (apply lt_0_INR; lia).
  assert (forall m, (0 < m < Z.of_nat N)%Z -> (cos (2 * PI * IZR m / INR N) < 1)%R) as G.
  { clear -HN. intros m Hm. replace (2 * PI * IZR m / INR N)%R with (2 * (PI * (IZR m / INR N)))%R by (field; lra). rewrite cos_2a_sin.
    pose proof PI_RGT_0 as HP. assert (0 < IZR m / INR N < 1)%R as [B1 B2].
    { assert (0 < IZR m)%R by (apply IZR_lt; lia). assert (IZR m < INR N)%R by (rewrite INR_IZR_INZ; apply IZR_lt; lia).
      split; [apply Rdiv_lt_0_compat; lra|]. apply (Rmult_lt_reg_r (INR N)); auto. unfold Rdiv. rewrite Rmult_assoc, Rinv_l by lra. lra. }
    assert (0 < sin (PI * (IZR m / INR N)))%R by (apply sin_gt_0; nra). nra. }
  injection H as H _. destruct (Z_lt_ge_dec 0 m) as [P|P].
  - specialize (G m ltac:(lia)). lra.
  - specialize (G (- m)%Z ltac:(lia)). rewrite opp_IZR in G. replace (2 * PI * - IZR m / INR N)%R with (- (2 * PI * IZR m / INR N))%R in G by (field; lra). rewrite cos_neg in G. lra.
Qed.

(** ** A periodic function that is not zero has a Fourier coefficient that is not zero *)
Lemma coefficient (N : nat) (G : Z -> cplx) a : 0 < N -> periodic_in N G -> G a <> c0 ->
  exists k z, (INR N * k = 2 * PI * IZR z)%R /\ period_sum N (fun n => cmul (G n) (cexp_i (- (k * IZR n)))) <> c0.
Proof.
  intros HN HP Ha. assert (0 < INR N)%R as HNR by (apply lt_0_INR; lia).
  set (k := fun z : Z => (2 * PI * IZR z / INR N)%R).
  assert (forall z, INR N * k z = 2 * PI * IZR z)%R as Hk by (intro z; unfold k; field; lra).
  set (hat := fun z : Z => period_sum N (fun n => cmul (G n) (cexp_i (- (k z * IZR n))))).
  assert (forall x y : cplx, {x = y} + {x <> y}) as dec.
  { intros [x1 x2] [y1 y2]. destruct (Req_EM_T x1 y1) as [->|H1]; [|right; congruence]. destruct (Req_EM_T x2 y2) as [->|H2]; [left; reflexivity|right; congruence]. }
  destruct (Exists_dec (fun z : nat => hat (Z.of_nat z) <> c0) (seq 0 N)) as [E|E].
  { intro z. destruct (dec (hat (Z.of_nat z)) c0); [right; tauto|left; auto]. }
  { apply Exists_exists in E. destruct E as [z [_ E]]. exists (k (Z.of_nat z)), (Z.of_nat z). split; [apply Hk|exact E]. }
  exfalso. apply Ha.
  (* the coefficients in the moved coordinate *)
  assert (period_sum N (fun z => cmul (hat z) (cexp_i (k z * IZR a))) = c0) as Z.
  { apply csum_zero. intros z Hz. assert (hat (Z.of_nat z) = c0) as ->; [|ring]. destruct (dec (hat (Z.of_nat z)) c0); auto. exfalso. apply E, Exists_exists. exists z. auto. }
  assert (period_sum N (fun z => cmul (hat z) (cexp_i (k z * IZR a))) = period_sum N (fun n => period_sum N (fun z => cmul (G (n + a)%Z) (cexp_i (- (k z * IZR n)))))) as E1.
  { rewrite period_sum_swap. apply period_sum_ext. intro z. unfold hat.
    assert (periodic_in N (fun n => cmul (G n) (cexp_i (- (k z * IZR n))))) as HQ.
    { intro n. rewrite HP. f_equal. rewrite plus_IZR, <- INR_IZR_INZ. pose proof (Hk z) as E2.
      replace (- (k z * (IZR n + INR N)))%R with (- (k z * IZR n) + 2 * PI * IZR (- z))%R by (rewrite opp_IZR; lra). apply turns. }
    rewrite <- (shift_sum N _ a HQ). transitivity (cmul (cexp_i (k z * IZR a)) (period_sum N (fun n => cmul (G (n + a)%Z) (cexp_i (- (k z * IZR (n + a))))))); [ring|].
    rewrite <- period_sum_mul. apply period_sum_ext. intro n. transitivity (cmul (G (n + a)%Z) (cmul (cexp_i (k z * IZR a)) (cexp_i (- (k z * IZR (n + a)))))); [ring|].
    rewrite <- cexp_add. do 2 f_equal. rewrite plus_IZR. ring. }
  rewrite E1 in Z. clear E1.
  assert (forall n, period_sum N (fun z => cmul (G (n + a)%Z) (cexp_i (- (k z * IZR n)))) = cmul (G (n + a)%Z) (period_sum N (fun z => cexp_i (k (- n)%Z * IZR z)))) as E2.
  { intro n. rewrite <- period_sum_mul. apply period_sum_ext. intro z. do 2 f_equal. unfold k. rewrite opp_IZR. field. lra. }
  rewrite (period_sum_ext _ _ _ E2) in Z. clear E2. unfold period_sum at 1 in Z. rewrite (csum_one _ N 0 HN) in Z.
  - assert (period_sum N (fun z => cexp_i (k (- Z.of_nat 0)%Z * IZR z)) = (INR N, 0)%R) as E3.
    { cbn [Z.of_nat Z.opp]. rewrite (period_sum_ext N _ (fun _ => (1, 0)%R)).
      - unfold period_sum. clear. induction N as [|N IH]; [reflexivity|]. rewrite seq_S, map_app, csum_app, IH. cbn [map csum]. unfold cadd, c0. cbn [fst snd]. rewrite S_INR. f_equal; ring.
      - intro z. unfold k. replace (2 * PI * 0 / INR N * IZR z)%R with 0%R by (field; lra). unfold cexp_i. rewrite cos_0, sin_0. reflexivity. }
    rewrite E3 in Z. cbn [Z.of_nat] in Z. rewrite Z.add_0_l in Z. destruct (G a) as [p q]. unfold cmul, c0 in *. cbn [fst snd] in Z.
    assert (p * INR N - q * 0 = 0)%R as Z1 by congruence. assert (p * 0 + q * INR N = 0)%R as Z2 by congruence. f_equal; nra.
  - intros n Hn Hne. rewrite (wave_sum N _ (- Z.of_nat n)%Z (Hk _)); [ring|]. apply wave_not_one. lia.
Qed.

(** ** Linear equations between the cells of a block *)

(** Functions of the cells of a block of [N1] by [N2] cells that satisfy the same linear equation at all cells have Fourier coefficients that satisfy its
    equation for the angles, and not all of them are zero. *)
Lemma bloch_vector (N1 N2 atoms : nat) (star : nat -> list (list Z * nat)) (F : nat -> Z -> Z -> cplx) (lambda t : cplx) :
  0 < N1 -> 0 < N2 ->
  (forall x n m, F x (n + Z.of_nat N1)%Z m = F x n m) -> (forall x n m, F x n (m + Z.of_nat N2)%Z = F x n m) ->
  (forall x n m, x < atoms -> cmul lambda (F x n m) = cmul t (csum (map (fun ny => F (snd ny) (n + nth 0 (fst ny) 0)%Z (m + nth 1 (fst ny) 0)%Z) (star x)))) ->
  forall x0 n0 m0, x0 < atoms -> F x0 n0 m0 <> c0 ->
  exists k1 k2 z1 z2 u, (INR N1 * k1 = 2 * PI * IZR z1)%R /\ (INR N2 * k2 = 2 * PI * IZR z2)%R /\ u x0 <> c0 /\
    forall x, x < atoms -> cmul lambda (u x) =
      cmul t (csum (map (fun ny => cmul (cexp_i (k1 * IZR (nth 0 (fst ny) 0%Z) + k2 * IZR (nth 1 (fst ny) 0%Z))) (u (snd ny))) (star x))).
Proof.
  intros H1 H2 P1 P2 HF x0 n0 m0 Hx0 Hne.
  destruct (coefficient N1 (fun n => F x0 n m0) n0 H1 (fun n => P1 x0 n m0) Hne) as (k1 & z1 & Hk1 & C1).
  set (A := fun x m => period_sum N1 (fun n => cmul (F x n m) (cexp_i (- (k1 * IZR n))))).
  assert (forall x m, A x (m + Z.of_nat N2)%Z = A x m) as PA by (intros x m; apply period_sum_ext; intro n; rewrite P2; reflexivity).
  destruct (coefficient N2 (A x0) m0 H2 (PA x0) C1) as (k2 & z2 & Hk2 & C2).
  exists k1, k2, z1, z2, (fun x => period_sum N2 (fun m => cmul (A x m) (cexp_i (- (k2 * IZR m))))).
  split; [exact Hk1|]. split; [exact Hk2|]. split; [exact C2|]. intros x Hx.
  assert (forall y a b, period_sum N2 (fun m => cmul (period_sum N1 (fun n => cmul (F y (n + a)%Z (m + b)%Z) (cexp_i (- (k1 * IZR n))))) (cexp_i (- (k2 * IZR m)))) =
    cmul (cexp_i (k1 * IZR a + k2 * IZR b)) (period_sum N2 (fun m => cmul (A y m) (cexp_i (- (k2 * IZR m)))))) as HS.
  { intros y a b.
    assert (forall m, period_sum N1 (fun n => cmul (F y (n + a)%Z m) (cexp_i (- (k1 * IZR n)))) = cmul (cexp_i (k1 * IZR a)) (A y m)) as S1.
    { intro m. unfold A. rewrite <- (shift_sum N1 (fun n => cmul (F y n m) (cexp_i (- (k1 * IZR n)))) a).
      - rewrite <- period_sum_mul. apply period_sum_ext. intro n. transitivity (cmul (F y (n + a)%Z m) (cmul (cexp_i (k1 * IZR a)) (cexp_i (- (k1 * IZR (n + a)))))); [|ring].
        rewrite <- cexp_add. do 2 f_equal. rewrite plus_IZR. ring.
      - intro n. rewrite P1. f_equal. rewrite plus_IZR, <- INR_IZR_INZ.
        replace (- (k1 * (IZR n + INR N1)))%R with (- (k1 * IZR n) + 2 * PI * IZR (- z1))%R by (rewrite opp_IZR; lra). apply turns. }
    rewrite (period_sum_ext N2 _ (fun m => cmul (cexp_i (k1 * IZR a)) (cmul (A y (m + b)%Z) (cexp_i (- (k2 * IZR m)))))) by (intro m; rewrite S1; ring).
    rewrite period_sum_mul. rewrite cexp_add.
    rewrite <- (shift_sum N2 (fun m => cmul (A y m) (cexp_i (- (k2 * IZR m)))) b).
    - rewrite <- !period_sum_mul. apply period_sum_ext. intro m.
      transitivity (cmul (cexp_i (k1 * IZR a)) (cmul (A y (m + b)%Z) (cmul (cexp_i (k2 * IZR b)) (cexp_i (- (k2 * IZR (m + b))))))); [|ring].
      rewrite <- cexp_add. do 3 f_equal. rewrite plus_IZR. ring.
    - intro m. rewrite PA. f_equal. rewrite plus_IZR, <- INR_IZR_INZ.
      replace (- (k2 * (IZR m + INR N2)))%R with (- (k2 * IZR m) + 2 * PI * IZR (- z2))%R by (rewrite opp_IZR; lra). apply turns. }
  transitivity (period_sum N2 (fun m => cmul (period_sum N1 (fun n => cmul (cmul lambda (F x n m)) (cexp_i (- (k1 * IZR n))))) (cexp_i (- (k2 * IZR m))))).
  { unfold A. rewrite <- period_sum_mul. apply period_sum_ext. intro m.
    rewrite (period_sum_ext N1 (fun n => cmul (cmul lambda (F x n m)) (cexp_i (- (k1 * IZR n)))) (fun n => cmul lambda (cmul (F x n m) (cexp_i (- (k1 * IZR n)))))) by (intro; ring).
    rewrite period_sum_mul. ring. }
  rewrite (period_sum_ext N2 _ (fun m => cmul (period_sum N1 (fun n => cmul (cmul t (csum (map (fun ny => F (snd ny) (n + nth 0 (fst ny) 0)%Z (m + nth 1 (fst ny) 0)%Z) (star x)))) (cexp_i (- (k1 * IZR n))))) (cexp_i (- (k2 * IZR m))))).
  2: { intro m. f_equal. apply period_sum_ext. intro n. rewrite HF by auto. reflexivity. }
  generalize (star x). intro S. induction S as [|[v y] S IH]; cbn [map csum fst snd].
  - transitivity (period_sum N2 (fun _ => c0)); [|rewrite period_sum_zero; ring]. apply period_sum_ext. intro m.
    rewrite (period_sum_ext N1 _ (fun _ => c0)) by (intro; ring). rewrite period_sum_zero. ring.
  - rewrite <- HS.
    transitivity (cadd (cmul t (period_sum N2 (fun m => cmul (period_sum N1 (fun n => cmul (F y (n + nth 0 v 0)%Z (m + nth 1 v 0)%Z) (cexp_i (- (k1 * IZR n))))) (cexp_i (- (k2 * IZR m))))))
      (cmul t (csum (map (fun ny => cmul (cexp_i (k1 * IZR (nth 0 (fst ny) 0%Z) + k2 * IZR (nth 1 (fst ny) 0%Z))) (period_sum N2 (fun m => cmul (A (snd ny) m) (cexp_i (- (k2 * IZR m)))))) S)))); [|ring].
    rewrite <- IH. rewrite <- period_sum_mul, <- period_sum_add. apply period_sum_ext. intro m.
    transitivity (cmul (cadd (cmul t (period_sum N1 (fun n => cmul (F y (n + nth 0 v 0)%Z (m + nth 1 v 0)%Z) (cexp_i (- (k1 * IZR n))))))
      (period_sum N1 (fun n => cmul (cmul t (csum (map (fun ny => F (snd ny) (n + nth 0 (fst ny) 0)%Z (m + nth 1 (fst ny) 0)%Z) S))) (cexp_i (- (k1 * IZR n)))))) (cexp_i (- (k2 * IZR m)))); [|ring].
    f_equal. rewrite <- period_sum_mul, <- period_sum_add. apply period_sum_ext. intro n. ring.
Qed.
