(** * Cell volume *)
From Coq Require Import List ZArith QArith Qabs Qfield Bool Arith Lia Lqa Setoid Morphisms.
From Verif Require Import Np LinAlg LinFacts BasisModel SpecBasis BasisProofs ReciprocalProofs.
Import ListNotations.
Open Scope Q_scope.

Lemma det_1 a : det 1 [[a]] == a.
Proof. cbn [det sum_upto map drop tl Nat.even entry nth]. unfold entry. cbn [nth]. ring. Qed.

Lemma det_2 a b c d : det 2 [[a; b]; [c; d]] == det2 a b c d.
Proof.
  cbn [det sum_upto map drop tl Nat.even]. unfold entry, det2. cbn [nth]. ring.
Qed.

Lemma det_3 a b c d e f g h i :
  det 3 [[a; b; c]; [d; e; f]; [g; h; i]] == det3 a b c d e f g h i.
Proof.
  cbn [det sum_upto map drop tl Nat.even]. unfold entry, det3. cbn [nth]. ring.
Qed.

Lemma square_cases d M : (1 <= d <= 3)%nat -> square d M ->
  (d = 1%nat /\ exists a, M = [[a]]) \/
  (d = 2%nat /\ exists a b c d, M = [[a; b]; [c; d]]) \/
  (d = 3%nat /\ exists a b c d e f g h i, M = [[a; b; c]; [d; e; f]; [g; h; i]]).
Proof.
  intros Hd Hs. assert (d = 1 \/ d = 2 \/ d = 3)%nat as [->|[->| ->]] by lia.
  - left. split; auto. apply square1. assumption.
  - right; left. split; auto. apply square2. assumption.
  - right; right. split; auto. apply square3. assumption.
Qed.

Lemma cell_volume_det d M :
  (1 <= d <= 3)%nat -> square d M -> exists v, cell_volume M = Some v /\ v == Qabs (det d M).
Proof.
  intros Hd Hs.
  destruct (square_cases d M Hd Hs) as [[-> H]|[[-> H]|[-> H]]].
  - destruct H as [a ->]. eexists. split; [reflexivity|]. rewrite det_1. reflexivity.
  - destruct H as [a [b [c [e ->]]]]. eexists. split; [reflexivity|]. rewrite det_2. reflexivity.
  - destruct H as [a [b [c [e [f [g [h [i [k ->]]]]]]]]].
    destruct (cell_volume3 a b c e f g h i k) as [v [Hv E]]. exists v. split; auto.
    rewrite det_3. assumption.
Qed.

Definition fn3 (x y z : Q) (i : nat) : Q :=
  match i with O => x | S O => y | _ => z end.

Lemma dep3_intro a b c d e f g h i x y z :
  ~ (x == 0 /\ y == 0 /\ z == 0) ->
  x * a + y * d + z * g == 0 -> x * b + y * e + z * h == 0 -> x * c + y * f + z * i == 0 ->
  dependent 3 [[a; b; c]; [d; e; f]; [g; h; i]].
Proof.
  intros Hn H1 H2 H3. exists (fn3 x y z). split.
  - destruct (Qeq_dec x 0) as [Hx|Hx]; [|exists 0%nat; split; [lia|assumption]].
    destruct (Qeq_dec y 0) as [Hy|Hy]; [|exists 1%nat; split; [lia|assumption]].
    destruct (Qeq_dec z 0) as [Hz|Hz]; [|exists 2%nat; split; [lia|assumption]].
    exfalso. apply Hn. auto.
  - intros j Hj. lt3 j; unfold entry; cbn [sum_upto nth fn3]; lra.
Qed.


Lemma det3_dependent a b c d e f g h i :
  det3 a b c d e f g h i == 0 -> dependent 3 [[a; b; c]; [d; e; f]; [g; h; i]].
Proof.
  unfold det3. intro D.
  (* cofactors of the first column *)
  destruct (Qeq_dec (e * i - f * h) 0) as [C11|C11];
  [destruct (Qeq_dec (b * i - c * h) 0) as [C21|C21];
  [destruct (Qeq_dec (b * f - c * e) 0) as [C31|C31]|]|];
  try (apply (dep3_intro a b c d e f g h i (e * i - f * h) (- (b * i - c * h)) (b * f - c * e));
       [intros [? [? ?]]; lra| | |];
       [rewrite <- D; ring|ring|ring]).
  (* second column *)
  destruct (Qeq_dec (d * i - f * g) 0) as [C12|C12];
  [destruct (Qeq_dec (a * i - c * g) 0) as [C22|C22];
  [destruct (Qeq_dec (a * f - c * d) 0) as [C32|C32]|]|];
  try (apply (dep3_intro a b c d e f g h i (- (d * i - f * g)) (a * i - c * g) (- (a * f - c * d)));
       [intros [? [? ?]]; lra| | |];
       [ring|rewrite <- D; ring|ring]).
  (* third column *)
  destruct (Qeq_dec (d * h - e * g) 0) as [C13|C13];
  [destruct (Qeq_dec (a * h - b * g) 0) as [C23|C23];
  [destruct (Qeq_dec (a * e - b * d) 0) as [C33|C33]|]|];
  try (apply (dep3_intro a b c d e f g h i (d * h - e * g) (- (a * h - b * g)) (a * e - b * d));
       [intros [? [? ?]]; lra| | |];
       [ring|ring|rewrite <- D; ring]).
  (* rank at most one *)
  destruct (Qeq_dec a 0) as [Ea|Ea];
    [|apply (dep3_intro a b c d e f g h i d (- a) 0); [intros [? [? ?]]; lra|ring|lra|lra]].
  destruct (Qeq_dec b 0) as [Eb|Eb];
    [|apply (dep3_intro a b c d e f g h i e (- b) 0); [intros [? [? ?]]; lra|lra|ring|lra]].
  destruct (Qeq_dec c 0) as [Ec|Ec];
    [|apply (dep3_intro a b c d e f g h i f (- c) 0); [intros [? [? ?]]; lra|lra|lra|ring]].
  apply (dep3_intro a b c d e f g h i 1 0 0); [intros [? [? ?]]; lra|lra|lra|lra].
Qed.

Lemma dependent_det3 a b c d e f g h i :
  dependent 3 [[a; b; c]; [d; e; f]; [g; h; i]] -> det3 a b c d e f g h i == 0.
Proof.
  intros [k [[n [Hn Hk]] H]].
  pose proof (H 0%nat ltac:(lia)) as H0. unsum H0.
  pose proof (H 1%nat ltac:(lia)) as H1. unsum H1.
  pose proof (H 2%nat ltac:(lia)) as H2. unsum H2. clear H.
  set (x := k 0%nat) in *. set (y := k 1%nat) in *. set (z := k 2%nat) in *.
  assert (x * det3 a b c d e f g h i == 0) as X.
  { transitivity ((e * i - f * h) * (0 + x * a + y * d + z * g)
      - (d * i - f * g) * (0 + x * b + y * e + z * h) + (d * h - e * g) * (0 + x * c + y * f + z * i));
    [unfold det3; ring|rewrite H0, H1, H2; ring]. }
  assert (y * det3 a b c d e f g h i == 0) as Y.
  { transitivity (- (b * i - c * h) * (0 + x * a + y * d + z * g)
      + (a * i - c * g) * (0 + x * b + y * e + z * h) - (a * h - b * g) * (0 + x * c + y * f + z * i));
    [unfold det3; ring|rewrite H0, H1, H2; ring]. }
  assert (z * det3 a b c d e f g h i == 0) as Z.
  { transitivity ((b * f - c * e) * (0 + x * a + y * d + z * g)
      - (a * f - c * d) * (0 + x * b + y * e + z * h) + (a * e - b * d) * (0 + x * c + y * f + z * i));
    [unfold det3; ring|rewrite H0, H1, H2; ring]. }
  apply Qmult_integral in X. apply Qmult_integral in Y. apply Qmult_integral in Z.
  lt3 n; [fold x in Hk|fold y in Hk|fold z in Hk]; tauto.
Qed.

Lemma det_zero_dependent d M :
  (1 <= d <= 3)%nat -> square d M -> (det d M == 0 <-> dependent d M).
Proof.
  intros Hd Hs.
  destruct (square_cases d M Hd Hs) as [[-> H]|[[-> H]|[-> H]]].
  - destruct H as [a ->]. rewrite det_1. split.
    + intro Ha. exists (fun _ => 1). split; [exists 0%nat; split; [lia|lra]|].
      intros j Hj. assert (j = 0)%nat as -> by lia. unfold entry; cbn [sum_upto nth]. lra.
    + intros [c [[i [Hi Hc]] H]]. assert (i = 0)%nat as -> by lia.
      specialize (H 0%nat Hi). unsum H. 
      assert (c 0%nat * a == 0) as H' by lra. apply Qmult_integral in H'. tauto.
  - destruct H as [a [b [c [e ->]]]]. rewrite det_2. unfold det2. split.
    + intro D.
      assert (forall x y, ~ (x == 0 /\ y == 0) -> x * a + y * c == 0 -> x * b + y * e == 0 ->
                dependent 2 [[a; b]; [c; e]]) as I.
      { intros x y Hn H1 H2. exists (fn3 x y 0). split.
        - destruct (Qeq_dec x 0) as [Hx|Hx]; [|exists 0%nat; split; [lia|assumption]].
          destruct (Qeq_dec y 0) as [Hy|Hy]; [|exists 1%nat; split; [lia|assumption]].
          exfalso. apply Hn. auto.
        - intros j Hj. lt2 j; unfold entry; cbn [sum_upto nth fn3]; lra. }
      destruct (Qeq_dec a 0) as [Ea|Ea];
        [|apply (I c (- a)); [intros [? ?]; lra|ring|lra]].
      destruct (Qeq_dec b 0) as [Eb|Eb];
        [|apply (I e (- b)); [intros [? ?]; lra|lra|ring]].
      apply (I 1 0); [intros [? ?]; lra|lra|lra].
    + intros [k [[n [Hn Hk]] H]].
      pose proof (H 0%nat ltac:(lia)) as H0. unsum H0.
      pose proof (H 1%nat ltac:(lia)) as H1. unsum H1. clear H.
      set (x := k 0%nat) in *. set (y := k 1%nat) in *.
      assert (x * (a * e - b * c) == 0) as X.
      { transitivity (e * (0 + x * a + y * c) - c * (0 + x * b + y * e)); [ring|rewrite H0, H1; ring]. }
      assert (y * (a * e - b * c) == 0) as Y.
      { transitivity (- b * (0 + x * a + y * c) + a * (0 + x * b + y * e)); [ring|rewrite H0, H1; ring]. }
      apply Qmult_integral in X. apply Qmult_integral in Y.
      lt2 n; [fold x in Hk|fold y in Hk]; tauto.
  - destruct H as [a [b [c [e [f [g [h [i [k ->]]]]]]]]].
    rewrite det_3. split; [apply det3_dependent|apply dependent_det3].
Qed.

(** The determinant only depends on the entries up to equality. *)
Lemma det_ext d M N :
  (1 <= d <= 3)%nat -> square d M -> square d N ->
  (forall i j, (i < d)%nat -> (j < d)%nat -> entry M i j == entry N i j) -> det d M == det d N.
Proof.
  intros Hd HM HN H.
  assert (d = 1 \/ d = 2 \/ d = 3)%nat as [->|[->| ->]] by lia;
    cbn [det]; cbn [sum_upto Nat.even].
  - rewrite (H 0%nat 0%nat) by lia. reflexivity.
  - apply square2 in HM, HN. destruct HM as [a [b [c [e ->]]]], HN as [a' [b' [c' [e' ->]]]].
    pose proof (H 0%nat 0%nat ltac:(lia) ltac:(lia)) as H00.
    pose proof (H 0%nat 1%nat ltac:(lia) ltac:(lia)) as H01.
    pose proof (H 1%nat 0%nat ltac:(lia) ltac:(lia)) as H10.
    pose proof (H 1%nat 1%nat ltac:(lia) ltac:(lia)) as H11. unfold entry in *. cbn [nth map drop tl] in *.
    rewrite H00, H01, H10, H11. reflexivity.
  - apply square3 in HM, HN.
    destruct HM as [p1 [p2 [p3 [p4 [p5 [p6 [p7 [p8 [p9 ->]]]]]]]]].
    destruct HN as [q1 [q2 [q3 [q4 [q5 [q6 [q7 [q8 [q9 ->]]]]]]]]].
    pose proof (H 0%nat 0%nat ltac:(lia) ltac:(lia)) as H00.
    pose proof (H 0%nat 1%nat ltac:(lia) ltac:(lia)) as H01.
    pose proof (H 0%nat 2%nat ltac:(lia) ltac:(lia)) as H02.
    pose proof (H 1%nat 0%nat ltac:(lia) ltac:(lia)) as H10.
    pose proof (H 1%nat 1%nat ltac:(lia) ltac:(lia)) as H11.
    pose proof (H 1%nat 2%nat ltac:(lia) ltac:(lia)) as H12.
    pose proof (H 2%nat 0%nat ltac:(lia) ltac:(lia)) as H20.
    pose proof (H 2%nat 1%nat ltac:(lia) ltac:(lia)) as H21.
    pose proof (H 2%nat 2%nat ltac:(lia) ltac:(lia)) as H22.
    unfold entry in *. cbn [nth map drop tl] in *.
    rewrite H00, H01, H02, H10, H11, H12, H20, H21, H22. reflexivity.
Qed.

Definition tab (d : nat) (f : nat -> nat -> Q) : list (list Q) :=
  map (fun i => map (f i) (seq 0 d)) (seq 0 d).

Lemma square_tab d f : square d (tab d f).
Proof.
  unfold tab. split; [rewrite map_length, seq_length; reflexivity|].
  intros r Hr. apply in_map_iff in Hr. destruct Hr as [i [<- _]].
  rewrite map_length, seq_length. reflexivity.
Qed.

Lemma entry_tab d f i j : (i < d)%nat -> (j < d)%nat -> entry (tab d f) i j = f i j.
Proof.
  intros Hi Hj. unfold tab, entry.
  rewrite nth_indep with (d' := (fun i => map (f i) (seq 0 d)) 0%nat)
    by (rewrite map_length, seq_length; assumption).
  rewrite (map_nth (fun i => map (f i) (seq 0 d))), seq_nth by assumption. cbn [Nat.add].
  rewrite nth_indep with (d' := f i 0%nat)
    by (rewrite map_length, seq_length; assumption).
  rewrite (map_nth (f i)), seq_nth by assumption. reflexivity.
Qed.

Lemma det_tab_ext d f M :
  (1 <= d <= 3)%nat -> square d M ->
  (forall i j, (i < d)%nat -> (j < d)%nat -> entry M i j == f i j) -> det d M == det d (tab d f).
Proof.
  intros Hd HM H. apply det_ext; auto; [apply square_tab|]. intros i j Hi Hj.
  rewrite entry_tab by assumption. auto.
Qed.

Ltac det_case d M i j :=
  let H := fresh in
  match goal with Hd : (1 <= d <= 3)%nat, HM : square d M |- _ =>
    destruct (square_cases d M Hd HM) as [[-> H]|[[-> H]|[-> H]]];
    [destruct H as [? ->]
    |destruct H as [? [? [? [? ->]]]]
    |destruct H as [? [? [? [? [? [? [? [? [? ->]]]]]]]]]]
  end.

Lemma det_add_row d M N i j c :
  (1 <= d <= 3)%nat -> square d M -> (i < d)%nat -> (j < d)%nat -> i <> j ->
  row_replaced d i (fun k => entry M i k + c * entry M j k) M N -> det d N == det d M.
Proof.
  intros Hd HM Hi Hj Hij [HN [Hrow Hrest]].
  transitivity (det d (tab d (fun k l => if Nat.eqb k i then entry M i l + c * entry M j l else entry M k l))).
  - apply det_tab_ext; auto. intros k l Hk Hl. destruct (Nat.eqb_spec k i); subst; auto.
  - clear Hrow Hrest HN N. det_case d M i j.
    + lia.
    + lt2 i; lt2 j; try congruence; cbn [tab map seq Nat.eqb]; rewrite !det_2; unfold det2, entry;
        cbn [nth]; ring.
    + lt3 i; lt3 j; try congruence; cbn [tab map seq Nat.eqb]; rewrite !det_3; unfold det3, entry;
        cbn [nth]; ring.
Qed.

Lemma det_neg_row d M N i :
  (1 <= d <= 3)%nat -> square d M -> (i < d)%nat ->
  row_replaced d i (fun k => - entry M i k) M N -> det d N == - det d M.
Proof.
  intros Hd HM Hi [HN [Hrow Hrest]].
  transitivity (det d (tab d (fun k l => if Nat.eqb k i then - entry M i l else entry M k l))).
  - apply det_tab_ext; auto. intros k l Hk Hl. destruct (Nat.eqb_spec k i); subst; auto.
  - clear Hrow Hrest HN N. det_case d M i j.
    + assert (i = 0)%nat as -> by lia. cbn [tab map seq Nat.eqb]. rewrite !det_1. unfold entry.
      cbn [nth]. reflexivity.
    + lt2 i; cbn [tab map seq Nat.eqb]; rewrite !det_2; unfold det2, entry; cbn [nth]; ring.
    + lt3 i; cbn [tab map seq Nat.eqb]; rewrite !det_3; unfold det3, entry; cbn [nth]; ring.
Qed.

Lemma det_swap_rows d M N i j :
  (1 <= d <= 3)%nat -> square d M -> square d N -> (i < d)%nat -> (j < d)%nat -> i <> j ->
  (forall k l, (k < d)%nat -> (l < d)%nat ->
     entry N k l == entry M (if Nat.eqb k i then j else if Nat.eqb k j then i else k) l) ->
  det d N == - det d M.
Proof.
  intros Hd HM HN Hi Hj Hij H.
  rewrite (det_tab_ext d _ N Hd HN H). clear H HN N. det_case d M i j.
  - lia.
  - lt2 i; lt2 j; try congruence; cbn [tab map seq Nat.eqb]; rewrite !det_2; unfold det2, entry;
        cbn [nth]; ring.
  - lt3 i; lt3 j; try congruence; cbn [tab map seq Nat.eqb]; rewrite !det_3; unfold det3, entry;
        cbn [nth]; ring.
Qed.
