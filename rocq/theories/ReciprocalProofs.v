(** * Reciprocal vectors, cell volume *)
From Coq Require Import List ZArith QArith Qround Qabs Qcanon Qfield Bool Arith Lia Lqa Setoid Morphisms.
From Verif Require Import Np NpFacts LinAlg LinFacts BasisModel SpecBasis BasisProofs.
Import ListNotations.
Open Scope Q_scope.

Definition det2 (a b c d : Q) : Q := a * d - b * c.
Definition det3 (a b c d e f g h i : Q) : Q :=
  a * (e * i - f * h) - b * (d * i - f * g) + c * (d * h - e * g).

Ltac unsum H := cbn [sum_upto entry nth delta Nat.eqb] in H; unfold entry, delta in H;
  cbn [nth Nat.eqb] in H.

Lemma inverse2_det a b c d W : inverse_of 2 [[a; b]; [c; d]] W -> ~ det2 a b c d == 0.
Proof.
  intros [_ [HW [H _]]] Hd. destruct (square2 W HW) as [p [q [r [s ->]]]].
  pose proof (H 0%nat 0%nat ltac:(lia) ltac:(lia)) as H00. unsum H00.
  pose proof (H 0%nat 1%nat ltac:(lia) ltac:(lia)) as H01. unsum H01.
  pose proof (H 1%nat 0%nat ltac:(lia) ltac:(lia)) as H10. unsum H10.
  pose proof (H 1%nat 1%nat ltac:(lia) ltac:(lia)) as H11. unsum H11.
  assert (det2 a b c d * det2 p q r s ==
          (0 + a * p + b * r) * (0 + c * q + d * s) - (0 + a * q + b * s) * (0 + c * p + d * r)) as E
    by (unfold det2; ring).
  rewrite H00, H01, H10, H11, Hd in E. lra.
Qed.

Lemma inverse3_det a b c d e f g h i W :
  inverse_of 3 [[a; b; c]; [d; e; f]; [g; h; i]] W -> ~ det3 a b c d e f g h i == 0.
Proof.
  intros [_ [HW [H _]]] Hd.
  destruct (square3 W HW) as [p1 [p2 [p3 [p4 [p5 [p6 [p7 [p8 [p9 ->]]]]]]]]].
  assert (forall x y, (x < 3)%nat -> (y < 3)%nat -> _) as H' by exact H. clear H.
  pose proof (H' 0%nat 0%nat ltac:(lia) ltac:(lia)) as H00. unsum H00.
  pose proof (H' 0%nat 1%nat ltac:(lia) ltac:(lia)) as H01. unsum H01.
  pose proof (H' 0%nat 2%nat ltac:(lia) ltac:(lia)) as H02. unsum H02.
  pose proof (H' 1%nat 0%nat ltac:(lia) ltac:(lia)) as H10. unsum H10.
  pose proof (H' 1%nat 1%nat ltac:(lia) ltac:(lia)) as H11. unsum H11.
  pose proof (H' 1%nat 2%nat ltac:(lia) ltac:(lia)) as H12. unsum H12.
  pose proof (H' 2%nat 0%nat ltac:(lia) ltac:(lia)) as H20. unsum H20.
  pose proof (H' 2%nat 1%nat ltac:(lia) ltac:(lia)) as H21. unsum H21.
  pose proof (H' 2%nat 2%nat ltac:(lia) ltac:(lia)) as H22. unsum H22.
  assert (det3 a b c d e f g h i * det3 p1 p2 p3 p4 p5 p6 p7 p8 p9 ==
    det3 (0 + a * p1 + b * p4 + c * p7) (0 + a * p2 + b * p5 + c * p8) (0 + a * p3 + b * p6 + c * p9)
         (0 + d * p1 + e * p4 + f * p7) (0 + d * p2 + e * p5 + f * p8) (0 + d * p3 + e * p6 + f * p9)
         (0 + g * p1 + h * p4 + i * p7) (0 + g * p2 + h * p5 + i * p8) (0 + g * p3 + h * p6 + i * p9))
    as E by (unfold det3; ring).
  rewrite Hd in E. unfold det3 in E.
  rewrite H00, H01, H02, H10, H11, H12, H20, H21, H22 in E. lra.
Qed.

Lemma inverse1_nz a W : inverse_of 1 [[a]] W -> ~ a == 0.
Proof.
  intros [_ [HW [H _]]] Hd. destruct (square1 W HW) as [p ->].
  pose proof (H 0%nat 0%nat ltac:(lia) ltac:(lia)) as H00. unsum H00. rewrite Hd in H00. lra.
Qed.

Lemma cell_volume2 a b c d : cell_volume [[a; b]; [c; d]] = Some (Qabs (a * d - b * c)).
Proof. reflexivity. Qed.

Lemma cell_volume3 a b c d e f g h i :
  exists v, cell_volume [[a; b; c]; [d; e; f]; [g; h; i]] = Some v /\
            v == Qabs (det3 a b c d e f g h i).
Proof.
  eexists. split; [reflexivity|]. apply Qabs_wd. unfold dot, det3. cbn [cross map2 fold_right]. ring.
Qed.

Lemma reciprocal_dual_1 two_pi tol check a W :
  valid_basis (mkBasis [[a]] W) ->
  exists r, reciprocal_vectors two_pi tol check (mkBasis [[a]] W) = Some r /\
            dual_to 1 two_pi (b_vectors (mkBasis [[a]] W)) r.
Proof.
  intro Hv. apply inverse1_nz in Hv. simpl in Hv.
  eexists. split; [reflexivity|]. split; [split|].
  - reflexivity.
  - intros row [<-|[]]. reflexivity.
  - intros i j Hi Hj. assert (i = 0%nat) as -> by lia. assert (j = 0%nat) as -> by lia.
    unfold b_vectors, delta. simpl. unfold dot. simpl. field. assumption.
Qed.

Lemma reciprocal_dual_2 two_pi tol check m11 m12 m21 m22 W :
  0 < two_pi -> 0 <= tol -> tol < 2 * two_pi ->
  valid_basis (mkBasis [[m11; m12]; [m21; m22]] W) ->
  exists r, reciprocal_vectors two_pi tol check (mkBasis [[m11; m12]; [m21; m22]] W) = Some r /\
            dual_to 2 two_pi (b_vectors (mkBasis [[m11; m12]; [m21; m22]] W)) r.
Proof.
  intros H0 H1 H2 Hv. apply inverse2_det in Hv. unfold det2 in Hv.
  set (D := m11 * m22 - m12 * m21) in *.
  assert (D == m11 * m22 - m21 * m12) as HD by (unfold D; ring).
  unfold reciprocal_vectors.
  change (b_vectors (mkBasis [[m11; m12]; [m21; m22]] W)) with [[m11; m21]; [m12; m22]].
  cbv iota. change (vectors3d (mkBasis [[m11; m12]; [m21; m22]] W))
    with (Some [[m11; m21; 0]; [m12; m22; 0]; [0; 0; 1]]).
  rewrite cell_volume2. cbv iota zeta.
  change (b_dim (mkBasis [[m11; m12]; [m21; m22]] W)) with 2%nat.
  cbn [map firstn combine cross vscale].
  set (F := two_pi / Qabs (m11 * m22 - m21 * m12)).
  assert ((0 < D /\ F * D == two_pi) \/ (D < 0 /\ F * D == - two_pi)) as HF.
  { unfold F. rewrite <- HD. destruct (Qabs_sign D Hv) as [[Hs E]|[Hs E]]; [left|right];
    (split; [assumption|]); rewrite E; field; lra. }
  clearbody F.
  rewrite fix_signs_step; auto.
  2:{ destruct HF as [[_ HF]|[_ HF]]; [left|right]; rewrite <- HF; rewrite HD;
      unfold dot; cbn [map2 fold_right vscale map cross firstn]; ring. }
  rewrite fix_signs_step; auto.
  2:{ destruct HF as [[_ HF]|[_ HF]]; [left|right]; rewrite <- HF; rewrite HD;
      unfold dot; cbn [map2 fold_right vscale map cross firstn]; ring. }
  cbn [fix_signs option_map]. eexists. split; [reflexivity|]. split.
  - split; [reflexivity|]. intros row [<-|[<-|[]]]; destruct (Qle_bool _ _); reflexivity.
  - intros i j Hi Hj.
    destruct HF as [[Hs HF]|[Hs HF]].
    + rewrite !Qle_bool_false by (
        match goal with |- _ < ?x => setoid_replace x with (F * D) by (rewrite HD; unfold dot; cbn [map2 fold_right vscale map cross firstn]; ring) end; lra).
      lt2 i; lt2 j; unfold dot, delta; cbn [nth map2 fold_right Nat.eqb];
        try rewrite <- HF; try rewrite HD; ring.
    + rewrite !Qle_bool_true by (
        match goal with |- ?x <= _ => setoid_replace x with (F * D) by (rewrite HD; unfold dot; cbn [map2 fold_right vscale map cross firstn]; ring) end; lra).
      lt2 i; lt2 j; unfold dot, delta; cbn [nth map2 fold_right Nat.eqb vscale map];
        setoid_replace two_pi with (- (F * D)) by lra; rewrite ?HD; ring.
Qed.

Lemma reciprocal_dual_3 two_pi tol check a b c d e f g h i W :
  0 < two_pi -> 0 <= tol -> tol < 2 * two_pi ->
  valid_basis (mkBasis [[a; b; c]; [d; e; f]; [g; h; i]] W) ->
  exists r, reciprocal_vectors two_pi tol check (mkBasis [[a; b; c]; [d; e; f]; [g; h; i]] W) = Some r /\
            dual_to 3 two_pi (b_vectors (mkBasis [[a; b; c]; [d; e; f]; [g; h; i]] W)) r.
Proof.
  intros H0 H1 H2 Hv. apply inverse3_det in Hv.
  set (D := det3 a b c d e f g h i) in *.
  unfold reciprocal_vectors.
  change (b_vectors (mkBasis [[a; b; c]; [d; e; f]; [g; h; i]] W))
    with [[a; d; g]; [b; e; h]; [c; f; i]].
  cbv iota. change (vectors3d (mkBasis [[a; b; c]; [d; e; f]; [g; h; i]] W))
    with (Some [[a; d; g]; [b; e; h]; [c; f; i]]).
  destruct (cell_volume3 a d g b e h c f i) as [v [Hc Hvol]]. cbv iota zeta.
  match goal with |- context [cell_volume ?x] =>
    replace (cell_volume x) with (Some v) by (symmetry; exact Hc) end. cbv iota.
  change (b_dim (mkBasis [[a; b; c]; [d; e; f]; [g; h; i]] W)) with 3%nat.
  cbn [map firstn combine cross vscale].
  assert (det3 a d g b e h c f i == D) as HD by (unfold D, det3; ring).
  rewrite HD in Hvol.
  set (F := two_pi / v).
  assert ((0 < D /\ F * D == two_pi) \/ (D < 0 /\ F * D == - two_pi)) as HF.
  { unfold F. rewrite Hvol. destruct (Qabs_sign D Hv) as [[Hs E]|[Hs E]]; [left|right];
    (split; [assumption|]); rewrite E; field; lra. }
  clearbody F. unfold det3 in D. 
  assert (forall x, x == F * D -> (x == two_pi \/ x == - two_pi)) as Hx.
  { intros x Hx. destruct HF as [[_ HF]|[_ HF]]; [left|right]; lra. }
  rewrite fix_signs_step; auto; [|apply Hx; unfold D, dot; cbn [map2 fold_right vscale map cross firstn]; ring].
  rewrite fix_signs_step; auto; [|apply Hx; unfold D, dot; cbn [map2 fold_right vscale map cross firstn]; ring].
  rewrite fix_signs_step; auto; [|apply Hx; unfold D, dot; cbn [map2 fold_right vscale map cross firstn]; ring].
  cbn [fix_signs option_map]. eexists. split; [reflexivity|]. split.
  - split; [reflexivity|]. intros row [<-|[<-|[<-|[]]]]; destruct (Qle_bool _ _); reflexivity.
  - intros x y Hi Hj.
    destruct HF as [[Hs HF]|[Hs HF]].
    + rewrite !Qle_bool_false by (
        match goal with |- _ < ?x => setoid_replace x with (F * D) by (unfold D, dot; cbn [map2 fold_right vscale map cross firstn]; ring) end; lra).
      lt3 x; lt3 y; unfold dot, delta; cbn [nth map2 fold_right Nat.eqb];
        try rewrite <- HF; unfold D; ring.
    + rewrite !Qle_bool_true by (
        match goal with |- ?x <= _ => setoid_replace x with (F * D) by (unfold D, dot; cbn [map2 fold_right vscale map cross firstn]; ring) end; lra).
      lt3 x; lt3 y; unfold dot, delta; cbn [nth map2 fold_right Nat.eqb vscale map];
        setoid_replace two_pi with (- (F * D)) by lra; unfold D; ring.
Qed.

Lemma reciprocal_dual b two_pi tol check :
  (1 <= b_dim b <= 3)%nat -> valid_basis b ->
  0 < two_pi -> 0 <= tol -> tol < 2 * two_pi ->
  exists r, reciprocal_vectors two_pi tol check b = Some r /\
            dual_to (b_dim b) two_pi (b_vectors b) r.
Proof.
  intros Hd Hv H0 H1 H2. destruct b as [M W]. pose proof Hv as [HM _].
  change (b_mat (mkBasis M W)) with M in HM.
  assert (b_dim (mkBasis M W) = 1 \/ b_dim (mkBasis M W) = 2 \/ b_dim (mkBasis M W) = 3)%nat
    as [E|[E|E]] by lia; rewrite E in *.
  - apply square1 in HM. destruct HM as [a ->]. apply reciprocal_dual_1. assumption.
  - apply square2 in HM. destruct HM as [p [q [r [s ->]]]]. apply reciprocal_dual_2; assumption.
  - apply square3 in HM. destruct HM as [p1 [p2 [p3 [p4 [p5 [p6 [p7 [p8 [p9 ->]]]]]]]]].
    apply reciprocal_dual_3; assumption.
Qed.

(** ** is_reciprocal *)

Lemma is_reciprocal_loop_spec two_pi tol pairs :
  is_reciprocal_loop two_pi tol pairs = true <->
  forall a b, In (a, b) pairs -> Qabs (dot a b - two_pi) <= tol.
Proof.
  induction pairs as [|[a b] pairs IH]; cbn [is_reciprocal_loop].
  - split; auto. intros _ a b [].
  - destruct (Qle_bool (Qabs (dot a b - two_pi)) tol) eqn:E; cbn [negb].
    + rewrite IH. apply Qle_bool_iff in E. split.
      * intros H x y [Hx|Hx]; auto. injection Hx as <- <-. assumption.
      * intros H x y Hx. apply H. right; assumption.
    + split; [discriminate|]. intro H. exfalso.
      apply Qle_bool_false_iff in E. specialize (H a b (or_introl eq_refl)). lra.
Qed.

Lemma b_vectors_length b : length (b_vectors b) = b_dim b.
Proof. unfold b_vectors, transpose. rewrite map_length, seq_length. reflexivity. Qed.

Lemma In_combine_nth {A B} (l : list A) (m : list B) a b :
  In (a, b) (combine l m) <-> exists i, nth_error l i = Some a /\ nth_error m i = Some b.
Proof.
  split.
  - intro H. apply In_nth_error in H. destruct H as [i H]. rewrite nth_error_combine in H.
    exists i. destruct (nth_error l i), (nth_error m i); try discriminate.
    injection H as -> ->. auto.
  - intros [i [H1 H2]]. apply nth_error_In with (n := i). rewrite nth_error_combine, H1, H2. auto.
Qed.

Lemma is_reciprocal_spec b two_pi tol vecs :
  length vecs = b_dim b ->
  (is_reciprocal two_pi tol b vecs = true <->
   forall i, (i < b_dim b)%nat ->
     Qabs (dot (nth i (b_vectors b) []) (nth i vecs []) - two_pi) <= tol).
Proof.
  intro Hl. unfold is_reciprocal. rewrite is_reciprocal_loop_spec. split.
  - intros H i Hi. apply H. apply In_combine_nth. exists i.
    split; apply nth_error_nth'; rewrite ?b_vectors_length, ?Hl; assumption.
  - intros H a c Hin. apply In_combine_nth in Hin. destruct Hin as [i [Ha Hc]].
    rewrite <- (nth_of_nth_error _ _ [] _ Ha), <- (nth_of_nth_error _ _ [] _ Hc).
    apply H. apply nth_error_length_lt in Hc. congruence.
Qed.
