(** * Properties C20, C21 and C66 (rotations, compute_vectors, Fourier weights) *)
From Coq Require Import List ZArith Reals Lra Lia Permutation.
From Verif Require Import RealModel.
Import ListNotations.
Open Scope R_scope.

(** ** C20 *)

(** Specification: entries of 3x3 matrices. *)
Definition at3 (m : list (list R)) (i j : nat) : R := nth j (nth i m []) 0.
Definition id3 (i j : nat) : R := if Nat.eqb i j then 1 else 0.
Definition shape3 (m : list (list R)) : Prop := length m = 3%nat /\ forall r, In r m -> length r = 3%nat.

(** Rows and columns are orthonormal and the determinant is one. *)
Definition proper_rotation (m : list (list R)) : Prop :=
  shape3 m /\
  (forall i j, (i < 3)%nat -> (j < 3)%nat ->
     at3 m i 0 * at3 m j 0 + at3 m i 1 * at3 m j 1 + at3 m i 2 * at3 m j 2 = id3 i j) /\
  (forall i j, (i < 3)%nat -> (j < 3)%nat ->
     at3 m 0 i * at3 m 0 j + at3 m 1 i * at3 m 1 j + at3 m 2 i * at3 m 2 j = id3 i j) /\
  at3 m 0 0 * (at3 m 1 1 * at3 m 2 2 - at3 m 1 2 * at3 m 2 1)
  - at3 m 0 1 * (at3 m 1 0 * at3 m 2 2 - at3 m 1 2 * at3 m 2 0)
  + at3 m 0 2 * (at3 m 1 0 * at3 m 2 1 - at3 m 1 1 * at3 m 2 0) = 1.

Ltac lt3 i := destruct i as [|[|[|i]]]; [| | |exfalso; lia].

Lemma sc t : sin t * sin t + cos t * cos t = 1.
Proof. pose proof (sin2_cos2 t) as H. unfold Rsqr in H. exact H. Qed.

Lemma axis_rotations t : proper_rotation (rx t) /\ proper_rotation (ry t) /\ proper_rotation (rz t).
Proof.
  pose proof (sc t) as H.
  repeat split; try (intros r [<-|[<-|[<-|[]]]]; reflexivity);
    try (intros i j Hi Hj; lt3 i; lt3 j); unfold at3, id3, rx, ry, rz; cbn [nth Nat.eqb]; try lra.
Qed.

Lemma matmul_entry a b i j :
  shape3 a -> shape3 b -> (i < 3)%nat -> (j < 3)%nat ->
  at3 (rmatmul 3 a b) i j = at3 a i 0 * at3 b 0 j + at3 a i 1 * at3 b 1 j + at3 a i 2 * at3 b 2 j.
Proof.
  intros [Ha1 Ha2] [Hb1 Hb2] Hi Hj.
  destruct a as [|a0 [|a1 [|a2 [|]]]]; simpl in Ha1; try discriminate.
  destruct b as [|b0 [|b1 [|b2 [|]]]]; simpl in Hb1; try discriminate.
  assert (forall r : list R, length r = 3%nat -> exists x y z, r = [x; y; z]) as R3.
  { intros [|x [|y [|z [|]]]] E; simpl in E; try discriminate. eauto. }
  destruct (R3 a0) as [? [? [? ->]]]; [apply Ha2; simpl; auto|].
  destruct (R3 a1) as [? [? [? ->]]]; [apply Ha2; simpl; auto|].
  destruct (R3 a2) as [? [? [? ->]]]; [apply Ha2; simpl; auto|].
  lt3 i; lt3 j; unfold at3, rmatmul, vecmat, rcol; cbn; ring.
Qed.

Lemma matmul_shape a b : shape3 a -> shape3 (rmatmul 3 a b).
Proof.
  intros [Ha _]. split; [unfold rmatmul; rewrite map_length; assumption|].
  intros r Hr. unfold rmatmul in Hr. apply in_map_iff in Hr. destruct Hr as [r' [<- _]]. reflexivity.
Qed.

Lemma rotation_product a b : proper_rotation a -> proper_rotation b -> proper_rotation (rmatmul 3 a b).
Proof.
  intros [Sa [Ra [Ca Da]]] [Sb [Rb [Cb Db]]].
  split; [apply matmul_shape; assumption|]. 
  assert (E : forall i j, (i < 3)%nat -> (j < 3)%nat -> at3 (rmatmul 3 a b) i j =
     at3 a i 0 * at3 b 0 j + at3 a i 1 * at3 b 1 j + at3 a i 2 * at3 b 2 j) by (intros; apply matmul_entry; assumption).
  pose proof (Ra 0%nat 0%nat ltac:(lia) ltac:(lia)) as r00. pose proof (Ra 0%nat 1%nat ltac:(lia) ltac:(lia)) as r01.
  pose proof (Ra 0%nat 2%nat ltac:(lia) ltac:(lia)) as r02. pose proof (Ra 1%nat 1%nat ltac:(lia) ltac:(lia)) as r11.
  pose proof (Ra 1%nat 2%nat ltac:(lia) ltac:(lia)) as r12. pose proof (Ra 2%nat 2%nat ltac:(lia) ltac:(lia)) as r22.
  split; [|split].
  - intros i j Hi Hj. rewrite !E by lia.
    transitivity (at3 a i 0 * at3 a j 0 * (at3 b 0 0 * at3 b 0 0 + at3 b 0 1 * at3 b 0 1 + at3 b 0 2 * at3 b 0 2)
      + at3 a i 1 * at3 a j 1 * (at3 b 1 0 * at3 b 1 0 + at3 b 1 1 * at3 b 1 1 + at3 b 1 2 * at3 b 1 2)
      + at3 a i 2 * at3 a j 2 * (at3 b 2 0 * at3 b 2 0 + at3 b 2 1 * at3 b 2 1 + at3 b 2 2 * at3 b 2 2)
      + (at3 a i 0 * at3 a j 1 + at3 a i 1 * at3 a j 0) * (at3 b 0 0 * at3 b 1 0 + at3 b 0 1 * at3 b 1 1 + at3 b 0 2 * at3 b 1 2)
      + (at3 a i 0 * at3 a j 2 + at3 a i 2 * at3 a j 0) * (at3 b 0 0 * at3 b 2 0 + at3 b 0 1 * at3 b 2 1 + at3 b 0 2 * at3 b 2 2)
      + (at3 a i 1 * at3 a j 2 + at3 a i 2 * at3 a j 1) * (at3 b 1 0 * at3 b 2 0 + at3 b 1 1 * at3 b 2 1 + at3 b 1 2 * at3 b 2 2)).
    { ring. }
    rewrite !Rb by lia. rewrite <- (Ra i j) by lia. unfold id3. cbn [Nat.eqb]. ring.
  - intros i j Hi Hj. rewrite !E by lia.
    transitivity (at3 b 0 i * at3 b 0 j * (at3 a 0 0 * at3 a 0 0 + at3 a 1 0 * at3 a 1 0 + at3 a 2 0 * at3 a 2 0)
      + at3 b 1 i * at3 b 1 j * (at3 a 0 1 * at3 a 0 1 + at3 a 1 1 * at3 a 1 1 + at3 a 2 1 * at3 a 2 1)
      + at3 b 2 i * at3 b 2 j * (at3 a 0 2 * at3 a 0 2 + at3 a 1 2 * at3 a 1 2 + at3 a 2 2 * at3 a 2 2)
      + (at3 b 0 i * at3 b 1 j + at3 b 1 i * at3 b 0 j) * (at3 a 0 0 * at3 a 0 1 + at3 a 1 0 * at3 a 1 1 + at3 a 2 0 * at3 a 2 1)
      + (at3 b 0 i * at3 b 2 j + at3 b 2 i * at3 b 0 j) * (at3 a 0 0 * at3 a 0 2 + at3 a 1 0 * at3 a 1 2 + at3 a 2 0 * at3 a 2 2)
      + (at3 b 1 i * at3 b 2 j + at3 b 2 i * at3 b 1 j) * (at3 a 0 1 * at3 a 0 2 + at3 a 1 1 * at3 a 1 2 + at3 a 2 1 * at3 a 2 2)).
    { ring. }
    rewrite !Ca by lia. rewrite <- (Cb i j) by lia. unfold id3. cbn [Nat.eqb]. ring.
  - rewrite !E by lia. clear E r00 r01 r02 r11 r12 r22.
    transitivity ((at3 a 0 0 * (at3 a 1 1 * at3 a 2 2 - at3 a 1 2 * at3 a 2 1)
                   - at3 a 0 1 * (at3 a 1 0 * at3 a 2 2 - at3 a 1 2 * at3 a 2 0)
                   + at3 a 0 2 * (at3 a 1 0 * at3 a 2 1 - at3 a 1 1 * at3 a 2 0)) *
                  (at3 b 0 0 * (at3 b 1 1 * at3 b 2 2 - at3 b 1 2 * at3 b 2 1)
                   - at3 b 0 1 * (at3 b 1 0 * at3 b 2 2 - at3 b 1 2 * at3 b 2 0)
                   + at3 b 0 2 * (at3 b 1 0 * at3 b 2 1 - at3 b 1 1 * at3 b 2 0))).
    { ring. }
    rewrite Da, Db. ring.
Qed.

Lemma eye_rotation : proper_rotation eye3.
Proof.
  repeat split; try (intros r [<-|[<-|[<-|[]]]]; reflexivity);
    try (intros i j Hi Hj; lt3 i; lt3 j); unfold at3, id3, eye3; cbn [nth Nat.eqb]; try lra.
Qed.

Theorem C20_rotations_are_proper :
  forall t tx ty tz,
    proper_rotation (rx t) /\ proper_rotation (ry t) /\ proper_rotation (rz t) /\ proper_rotation (rot tx ty tz).
Proof.
  intros t tx ty tz. destruct (axis_rotations t) as [H1 [H2 H3]]. split; [assumption|split; [assumption|split; [assumption|]]].
  destruct (axis_rotations tx) as [_ [_ Hx]]. destruct (axis_rotations ty) as [_ [Hy _]].
  destruct (axis_rotations tz) as [_ [_ Hz]]. pose proof eye_rotation as He.
  unfold rot. cbv zeta.
  destruct (Req_EM_T tz 0), (Req_EM_T ty 0), (Req_EM_T tx 0); repeat apply rotation_product; assumption.
Qed.

(** Rotations about one axis compose by adding the angles. *)
Theorem C20_rotations_compose :
  forall s t,
    rmatmul 3 (rx s) (rx t) = rx (s + t) /\ rmatmul 3 (ry s) (ry t) = ry (s + t) /\
    rmatmul 3 (rz s) (rz t) = rz (s + t).
Proof.
  intros s t. unfold rx, ry, rz, rmatmul, vecmat, rcol. cbn [map seq nth rdot].
  rewrite cos_plus, sin_plus.
  repeat split; repeat (f_equal; try ring).
Qed.

(** Specification: inner product of two vectors with three / two components. *)
Lemma vecmat_dot3 m u v :
  proper_rotation m -> length u = 3%nat -> length v = 3%nat ->
  length (vecmat 3 u m) = 3%nat /\ rdot (vecmat 3 u m) (vecmat 3 v m) = rdot u v.
Proof.
  intros [[Hl Hr] [Hrow _]] Hu Hv. split; [reflexivity|].
  destruct u as [|u0 [|u1 [|u2 [|]]]]; simpl in Hu; try discriminate.
  destruct v as [|v0 [|v1 [|v2 [|]]]]; simpl in Hv; try discriminate.
  destruct m as [|m0 [|m1 [|m2 [|]]]]; simpl in Hl; try discriminate.
  unfold vecmat, rcol. cbn [map seq rdot].
  pose proof (Hrow 0%nat 0%nat ltac:(lia) ltac:(lia)) as h00. pose proof (Hrow 1%nat 1%nat ltac:(lia) ltac:(lia)) as h11.
  pose proof (Hrow 2%nat 2%nat ltac:(lia) ltac:(lia)) as h22. pose proof (Hrow 0%nat 1%nat ltac:(lia) ltac:(lia)) as h01.
  pose proof (Hrow 0%nat 2%nat ltac:(lia) ltac:(lia)) as h02. pose proof (Hrow 1%nat 2%nat ltac:(lia) ltac:(lia)) as h12.
  unfold at3, id3 in *. cbn [nth Nat.eqb] in *.
  set (a := nth 0 m0 0) in *. set (b := nth 1 m0 0) in *. set (c := nth 2 m0 0) in *.
  set (d := nth 0 m1 0) in *. set (e := nth 1 m1 0) in *. set (f := nth 2 m1 0) in *.
  set (g := nth 0 m2 0) in *. set (h := nth 1 m2 0) in *. set (k := nth 2 m2 0) in *.
  transitivity (u0 * v0 * (a * a + b * b + c * c) + u1 * v1 * (d * d + e * e + f * f)
    + u2 * v2 * (g * g + h * h + k * k) + (u0 * v1 + u1 * v0) * (a * d + b * e + c * f)
    + (u0 * v2 + u2 * v0) * (a * g + b * h + c * k) + (u1 * v2 + u2 * v1) * (d * g + e * h + f * k)).
  { ring. }
  rewrite h00, h11, h22, h01, h02, h12. ring.
Qed.

Theorem C20_rotate_preserves_inner_products :
  (forall u v tx ty tz degree, length u = 3%nat -> length v = 3%nat ->
     rdot (rotate3d u tx ty tz degree) (rotate3d v tx ty tz degree) = rdot u v) /\
  (forall u v t degree, length u = 2%nat -> length v = 2%nat ->
     rdot (rotate2d u t degree) (rotate2d v t degree) = rdot u v).
Proof.
  split.
  - intros u v tx ty tz degree Hu Hv. unfold rotate3d. cbv zeta. apply vecmat_dot3; auto.
    set (f := if degree then deg2rad else fun x => x).
    destruct (C20_rotations_are_proper 0 (f tx) (f ty) (f tz)) as [_ [_ [_ H]]]. exact H.
  - intros u v t degree Hu Hv. unfold rotate2d. cbv zeta. generalize (if degree then deg2rad t else t). intro s.
    destruct u as [|u0 [|u1 [|]]]; simpl in Hu; try discriminate.
    destruct v as [|v0 [|v1 [|]]]; simpl in Hv; try discriminate.
    unfold top_left, rz, vecmat, rcol. cbn [firstn map seq nth rdot].
    pose proof (sc s) as H.
    transitivity ((sin s * sin s + cos s * cos s) * (u0 * v0 + (u1 * v1 + 0))); [ring|]. rewrite H. ring.
Qed.

(** [rotate2d] turns clockwise: (1, 0) goes to (cos t, -sin t). *)
Theorem C20_rotate2d_is_clockwise :
  forall x y t, rotate2d [x; y] t false = [x * cos t + y * sin t; y * cos t - x * sin t].
Proof.
  intros x y t. unfold rotate2d, top_left, rz, vecmat, rcol. cbn [firstn map seq nth rdot].
  f_equal; [ring|]. f_equal. ring.
Qed.

(** [rot] applies a rotation about the third axis for [thetax]. *)
Theorem C20_rot_ignores_the_x_axis :
  forall t, rot t 0 0 = rz t.
Proof.
  intro t. unfold rot. cbv zeta. destruct (Req_EM_T 0 0) as [_|N]; [|congruence].
  destruct (Req_EM_T t 0) as [->|_].
  - unfold rz, eye3. rewrite cos_0, sin_0, Ropp_0. reflexivity.
  - unfold eye3, rz, rmatmul, vecmat, rcol. cbn [map seq nth rdot].
    repeat (f_equal; try ring).
Qed.

Theorem C20_rot_is_rx_refuted : exists t, rot t 0 0 <> rx t.
Proof.
  exists PI. rewrite C20_rot_ignores_the_x_axis. unfold rz, rx. rewrite cos_PI. intro E.
  injection E. intros. lra.
Qed.

(** Specification: clockwise rotations of a point about the third and about the second axis. *)
Definition about_z (t : R) (v : list R) : list R :=
  match v with [x; y; z] => [x * cos t + y * sin t; y * cos t - x * sin t; z] | _ => v end.
Definition about_y (t : R) (v : list R) : list R :=
  match v with [x; y; z] => [x * cos t - z * sin t; y; z * cos t + x * sin t] | _ => v end.

(** [rotate3d] turns about the third axis by [thetaz], then about the second by [thetay], then about the third by [thetax]. *)
Theorem C20_rotate3d_in_steps :
  forall x y z tx ty tz,
    rotate3d [x; y; z] tx ty tz false = about_z tx (about_y ty (about_z tz [x; y; z])) /\
    rotate3d [x; y; z] tx ty tz true = rotate3d [x; y; z] (tx * PI / 180) (ty * PI / 180) (tz * PI / 180) false.
Proof.
  intros x y z tx ty tz. split; [|reflexivity]. unfold rotate3d, rot, about_z, about_y. cbv zeta.
  destruct (Req_EM_T tz 0) as [->|_], (Req_EM_T ty 0) as [->|_], (Req_EM_T tx 0) as [->|_]; rewrite ?cos_0, ?sin_0;
    unfold eye3, rz, ry, rmatmul, vecmat, rcol; cbn [map seq nth rdot]; repeat (f_equal; try ring).
Qed.

(** The order matters: a quarter turn about the third axis, then one about the second. *)
Example C20_steps_example : rotate3d [1; 0; 0] 0 90 90 true = [0; -1; 0] /\ about_z (PI / 2) (about_y (PI / 2) [1; 0; 0]) = [0; 0; 1].
Proof.
  split.
  - destruct (C20_rotate3d_in_steps 1 0 0 0 90 90) as [_ E]. rewrite E. destruct (C20_rotate3d_in_steps 1 0 0 (0 * PI / 180) (90 * PI / 180) (90 * PI / 180)) as [E' _]. rewrite E'.
    replace (0 * PI / 180) with 0 by lra. replace (90 * PI / 180) with (PI / 2) by lra. unfold about_z, about_y. rewrite cos_PI2, sin_PI2, cos_0, sin_0. repeat (f_equal; try ring).
  - unfold about_z, about_y. rewrite cos_PI2, sin_PI2. repeat (f_equal; try ring).
Qed.

Example C20_example : rotate2d [1; 0] 90 true = [0; -1] /\ rot PI 0 0 = rz PI /\ length [1; 0; 0] = 3%nat.
Proof.
  split; [|split; [apply C20_rot_ignores_the_x_axis|reflexivity]].
  unfold rotate2d, deg2rad. cbv zeta. replace (90 * PI / 180) with (PI / 2) by lra.
  unfold top_left, rz, vecmat, rcol. cbn [firstn map seq nth rdot].
  rewrite cos_PI2, sin_PI2. f_equal; [ring|]. f_equal. ring.
Qed.

(** ** C21 *)

(** Specification: the angle between two vectors of given lengths. *)
Definition has_length (v : list R) (l : R) : Prop := rdot v v = l * l.
Definition has_angle (u v : list R) (lu lv degrees : R) : Prop :=
  rdot u v = lu * lv * cos (degrees * PI / 180).

(** In one dimension a single number, the length. *)
Theorem C21_compute_vectors_1d :
  forall a, length (compute_vectors1 a) = 1%nat /\ has_length (compute_vectors1 a) a /\ hd 0 (compute_vectors1 a) = a.
Proof. intro a. split; [reflexivity|]. split; [unfold has_length; cbn; ring|reflexivity]. Qed.

Theorem C21_compute_vectors_2d :
  forall a b alpha, exists u v, compute_vectors2 a b alpha = [u; v] /\
    has_length u a /\ has_length v b /\ has_angle u v a b alpha.
Proof.
  intros a b alpha. eexists. eexists. split; [reflexivity|]. unfold has_length, has_angle, deg2rad. cbn [rdot].
  split; [ring|]. split; [|ring]. pose proof (sc (alpha * PI / 180)) as H.
  transitivity (b * b * (sin (alpha * PI / 180) * sin (alpha * PI / 180)
                         + cos (alpha * PI / 180) * cos (alpha * PI / 180))); [ring|].
  rewrite H. ring.
Qed.

(** Three angles are realised by some vectors exactly when the Gram determinant of unit vectors is not negative. *)
Definition gram (ca cb cg : R) : R := 1 - ca * ca - cb * cb - cg * cg + 2 * ca * cb * cg.
Definition radians (x : R) : R := x * PI / 180.

Theorem C21_compute_vectors_3d :
  forall a b c alpha beta gamma,
    0 < b -> 0 < c -> sin (radians gamma) <> 0 ->
    0 <= gram (cos (radians alpha)) (cos (radians beta)) (cos (radians gamma)) ->
    exists u v w, compute_vectors3 a b c alpha beta gamma = Some [u; v; w] /\
      has_length u a /\ has_length v b /\ has_length w c /\
      has_angle v w b c alpha /\ has_angle u w a c beta /\ has_angle u v a b gamma.
Proof.
  intros a b c alpha beta gamma Hb Hc Hs Hg. unfold compute_vectors3. cbv zeta. unfold deg2rad.
  change (alpha * PI / 180) with (radians alpha). change (beta * PI / 180) with (radians beta).
  change (gamma * PI / 180) with (radians gamma).
  set (ca := cos (radians alpha)) in *. set (cb := cos (radians beta)) in *.
  set (cg := cos (radians gamma)) in *. set (sg := sin (radians gamma)) in *.
  pose proof (sc (radians gamma)) as Hsc. fold sg cg in Hsc.
  unfold np_div. destruct (Req_EM_T (b * sg) 0) as [Z|_].
  { exfalso. apply Rmult_integral in Z. destruct Z; [lra|contradiction]. }
  rewrite (Rabs_right b), (Rabs_right c) by lra.
  assert ((c * b * ca - b * cg * (c * cb)) / (b * sg) = c * (ca - cg * cb) / sg) as Ecy by (field; split; lra).
  rewrite Ecy.
  assert (c ^ 2 - (c * cb) ^ 2 - (c * (ca - cg * cb) / sg) ^ 2 = c * c * gram ca cb cg / (sg * sg)) as Ez.
  { assert (sg * sg = 1 - cg * cg) as Hss by lra.
    transitivity (c * c * (sg * sg - sg * sg * (cb * cb) - (ca - cg * cb) ^ 2) / (sg * sg)); [field; assumption|].
    f_equal. f_equal. rewrite Hss. unfold gram. ring. }
  rewrite Ez. assert (0 < sg * sg) as Hpos by nra.
  assert (0 <= c * c * gram ca cb cg / (sg * sg)) as Hz.
  { apply Rmult_le_pos; [apply Rmult_le_pos; nra|]. apply Rlt_le, Rinv_0_lt_compat. assumption. }
  unfold np_sqrt. destruct (Rle_dec 0 (c * c * gram ca cb cg / (sg * sg))) as [_|N]; [|contradiction].
  eexists. eexists. eexists. split; [reflexivity|].
  unfold has_length, has_angle. cbn [rdot].
  change (alpha * PI / 180) with (radians alpha). change (beta * PI / 180) with (radians beta).
  change (gamma * PI / 180) with (radians gamma). fold ca cb cg.
  split; [ring|]. split; [|split; [|split; [|split]]].
  - transitivity (b * b * (sg * sg + cg * cg)); [ring|]. rewrite Hsc. ring.
  - pose proof (sqrt_sqrt _ Hz) as Hq. rewrite Rplus_0_r, Hq, <- Ez. ring.
  - field. assumption.
  - ring.
  - ring.
Qed.

(** Inconsistent angles give no vectors (a square root of a negative number). *)
Theorem C21_inconsistent_angles :
  forall a b c alpha beta gamma,
    0 < b -> 0 < c -> sin (radians gamma) <> 0 ->
    gram (cos (radians alpha)) (cos (radians beta)) (cos (radians gamma)) < 0 ->
    compute_vectors3 a b c alpha beta gamma = None.
Proof.
  intros a b c alpha beta gamma Hb Hc Hs Hg. unfold compute_vectors3. cbv zeta. unfold deg2rad.
  change (alpha * PI / 180) with (radians alpha). change (beta * PI / 180) with (radians beta).
  change (gamma * PI / 180) with (radians gamma).
  set (ca := cos (radians alpha)) in *. set (cb := cos (radians beta)) in *.
  set (cg := cos (radians gamma)) in *. set (sg := sin (radians gamma)) in *.
  pose proof (sc (radians gamma)) as Hsc. fold sg cg in Hsc.
  unfold np_div. destruct (Req_EM_T (b * sg) 0) as [Z|_]; [reflexivity|].
  rewrite (Rabs_right b), (Rabs_right c) by lra.
  assert ((c * b * ca - b * cg * (c * cb)) / (b * sg) = c * (ca - cg * cb) / sg) as Ecy by (field; split; lra).
  rewrite Ecy.
  assert (c ^ 2 - (c * cb) ^ 2 - (c * (ca - cg * cb) / sg) ^ 2 = c * c * gram ca cb cg / (sg * sg)) as Ez.
  { assert (sg * sg = 1 - cg * cg) as Hss by lra.
    transitivity (c * c * (sg * sg - sg * sg * (cb * cb) - (ca - cg * cb) ^ 2) / (sg * sg)); [field; assumption|].
    f_equal. f_equal. rewrite Hss. unfold gram. ring. }
  rewrite Ez. assert (0 < sg * sg) as Hpos by nra.
  unfold np_sqrt. destruct (Rle_dec 0 (c * c * gram ca cb cg / (sg * sg))) as [N|_]; [|reflexivity].
  exfalso. pose proof (Rmult_lt_0_compat c c Hc Hc) as Hcc.
  assert (c * c * gram ca cb cg < 0) as Hneg by (revert Hcc Hg; generalize (c * c) (gram ca cb cg); intros; nra).
  assert (0 < / (sg * sg)) as Hi by (apply Rinv_0_lt_compat; assumption).
  unfold Rdiv in N. revert N Hneg Hi. generalize (c * c * gram ca cb cg) (/ (sg * sg)). intros; nra.
Qed.

(** The face-centred cubic angles, and angles that no vectors have. *)
Lemma cos60 : cos (radians 60) = 1 / 2.
Proof. unfold radians. replace (60 * PI / 180) with (PI / 3) by lra. apply cos_PI3. Qed.

Lemma sin60 : sin (radians 60) <> 0.
Proof.
  intro H. pose proof (sc (radians 60)) as E. rewrite cos60, H in E. lra.
Qed.

Example C21_example :
  0 <= gram (cos (radians 60)) (cos (radians 60)) (cos (radians 60)) /\ sin (radians 60) <> 0 /\
  gram (cos (radians 180)) (cos (radians 60)) (cos (radians 60)) < 0.
Proof.
  split; [|split; [exact sin60|]].
  - rewrite cos60. unfold gram. lra.
  - rewrite cos60. unfold radians. replace (180 * PI / 180) with PI by lra. rewrite cos_PI. unfold gram. lra.
Qed.

(** ** C66 *)

Definition rneg (v : list R) : list R := map Ropp v.
Fixpoint radd (u v : list R) : list R :=
  match u, v with x :: xs, y :: ys => (x + y) :: radd xs ys | _, _ => [] end.

(** The weight as explicit sums of cosines and sines. *)
Fixpoint rsum (l : list R) : R := match l with [] => 0 | x :: xs => x + rsum xs end.

Lemma weights_sums k vecs :
  fourier_weights k vecs = (rsum (map (fun v => cos (rdot k v)) vecs), rsum (map (fun v => sin (rdot k v)) vecs)).
Proof. induction vecs as [|v vecs IH]; [reflexivity|]. unfold fourier_weights in *. simpl. rewrite IH. reflexivity. Qed.

Lemma rdot_neg_l k v : rdot (rneg k) v = - rdot k v.
Proof.
  revert v. induction k as [|x k IH]; intros [|y v]; simpl; try lra.
  fold (rneg k). rewrite IH. ring.
Qed.

Lemma rdot_neg_r k v : rdot k (rneg v) = - rdot k v.
Proof.
  revert v. induction k as [|x k IH]; intros [|y v]; simpl; try lra.
  fold (rneg v). rewrite IH. ring.
Qed.

Lemma rdot_add_l k g v : length k = length g -> rdot (radd k g) v = rdot k v + rdot g v.
Proof.
  revert g v. induction k as [|x k IH]; intros [|y g] [|z v] H; simpl in *; try discriminate; try lra.
  rewrite IH by lia. ring.
Qed.

Lemma rsum_perm l m : Permutation l m -> rsum l = rsum m.
Proof. induction 1; simpl; lra. Qed.

Lemma rsum_opp l : rsum (map Ropp l) = - rsum l.
Proof. induction l; simpl; lra. Qed.

Theorem C66_zero_wavevector :
  forall d vecs, fourier_weights (repeat 0 d) vecs = (INR (length vecs), 0).
Proof.
  intros d vecs. assert (forall v, rdot (repeat 0 d) v = 0) as Hz.
  { intro v. revert v. induction d as [|d IH]; intros [|y v]; simpl; try reflexivity. rewrite IH. ring. }
  induction vecs as [|v vecs IH]; [reflexivity|].
  change (fourier_weights (repeat 0 d) (v :: vecs)) with
    (cadd (cexp_i (rdot (repeat 0 d) v)) (fourier_weights (repeat 0 d) vecs)).
  rewrite IH, Hz. unfold cadd, cexp_i. rewrite cos_0, sin_0. cbn [fst snd length].
  rewrite S_INR. f_equal; ring.
Qed.

Theorem C66_conjugation :
  forall k vecs, fourier_weights (rneg k) vecs = (fst (fourier_weights k vecs), - snd (fourier_weights k vecs)).
Proof.
  intros k vecs. rewrite !weights_sums. cbn [fst snd]. f_equal.
  - f_equal. apply map_ext. intro v. rewrite rdot_neg_l. apply cos_neg.
  - rewrite <- rsum_opp. f_equal. rewrite map_map. apply map_ext. intro v. rewrite rdot_neg_l. apply sin_neg.
Qed.

Theorem C66_inversion_symmetric_is_real :
  forall k vecs, Permutation vecs (map rneg vecs) -> snd (fourier_weights k vecs) = 0.
Proof.
  intros k vecs H. rewrite weights_sums. cbn [snd].
  pose proof (rsum_perm _ _ (Permutation_map (fun v => sin (rdot k v)) H)) as E.
  rewrite map_map in E. rewrite (map_ext (fun x => sin (rdot k (rneg x))) (fun x => - sin (rdot k x))) in E
    by (intro v; rewrite rdot_neg_r; apply sin_neg).
  rewrite <- (map_map (fun x => sin (rdot k x)) Ropp), rsum_opp in E. lra.
Qed.

(** [v] is an integer combination of the vectors [basis]. *)
Inductive lattice_vector (basis : list (list R)) (d : nat) : list R -> Prop :=
| LZero : lattice_vector basis d (repeat 0 d)
| LAdd : forall a v, In a basis -> length a = d -> lattice_vector basis d v -> lattice_vector basis d (radd a v)
| LSub : forall a v, In a basis -> length a = d -> lattice_vector basis d v -> lattice_vector basis d (radd (rneg a) v).

Lemma lattice_vector_length basis d v : lattice_vector basis d v -> length v = d.
Proof.
  assert (forall u v, length u = length v -> length (radd u v) = length v) as Hadd.
  { induction u as [|x u IH]; intros [|y w] H; simpl in *; try discriminate; auto. }
  induction 1 as [|a v Ha Hl H IH|a v Ha Hl H IH].
  - apply repeat_length.
  - rewrite Hadd; lia.
  - rewrite Hadd; [assumption|]. unfold rneg. rewrite map_length. lia.
Qed.

Lemma rdot_comm u v : rdot u v = rdot v u.
Proof. revert v. induction u as [|x u IH]; intros [|y v]; simpl; auto. rewrite IH. ring. Qed.

Lemma rdot_zero_r d u : rdot u (repeat 0 d) = 0.
Proof. revert u. induction d as [|d IH]; intros [|x u]; simpl; auto. rewrite IH. ring. Qed.

Lemma duality basis g d v :
  (forall a, In a basis -> exists m : Z, rdot g a = 2 * PI * IZR m) ->
  lattice_vector basis d v -> exists m : Z, rdot g v = 2 * PI * IZR m.
Proof.
  intro Hb. induction 1 as [|a v Ha Hl H IH|a v Ha Hl H IH].
  - exists 0%Z. rewrite rdot_zero_r. ring.
  - destruct (Hb a Ha) as [m Em]. destruct IH as [n En]. exists (m + n)%Z.
    rewrite rdot_comm, rdot_add_l by (rewrite (lattice_vector_length _ _ _ H); assumption).
    rewrite !(rdot_comm _ g), Em, En, plus_IZR. ring.
  - destruct (Hb a Ha) as [m Em]. destruct IH as [n En]. exists (- m + n)%Z.
    rewrite rdot_comm, rdot_add_l by (unfold rneg; rewrite map_length, (lattice_vector_length _ _ _ H); assumption).
    rewrite !(rdot_comm _ g), rdot_neg_r, Em, En, plus_IZR, opp_IZR. ring.
Qed.

(** Bravais lattices: the weight is periodic in the reciprocal lattice. *)
Theorem C66_reciprocal_periodicity :
  forall basis d k g vecs,
    length k = d -> length g = d ->
    (forall v, In v vecs -> lattice_vector basis d v) ->
    (forall a, In a basis -> exists m : Z, rdot g a = 2 * PI * IZR m) ->
    fourier_weights (radd k g) vecs = fourier_weights k vecs.
Proof.
  intros basis d k g vecs Hk Hg Hv Hb. rewrite !weights_sums.
  assert (forall x (m : Z), cos (x + 2 * PI * IZR m) = cos x /\ sin (x + 2 * PI * IZR m) = sin x) as Hper.
  { intros x m. destruct (Z_le_gt_dec 0 m) as [H|H].
    - rewrite <- (Z2Nat.id m H), <- INR_IZR_INZ.
      replace (2 * PI * INR (Z.to_nat m)) with (2 * INR (Z.to_nat m) * PI) by ring.
      rewrite cos_period, sin_period. split; reflexivity.
    - pose proof (cos_period (x + 2 * PI * IZR m) (Z.to_nat (- m))) as Hc.
      pose proof (sin_period (x + 2 * PI * IZR m) (Z.to_nat (- m))) as Hs.
      rewrite INR_IZR_INZ, Z2Nat.id, opp_IZR in Hc, Hs by lia.
      replace (x + 2 * PI * IZR m + 2 * - IZR m * PI) with x in Hc, Hs by ring. split; congruence. }
  f_equal; f_equal; apply map_ext_in; intros v Hin; rewrite rdot_add_l by lia;
    destruct (duality basis g d v Hb (Hv v Hin)) as [m Em]; rewrite Em; apply Hper.
Qed.

(** The modulus is at most the number of neighbours. *)
Theorem C66_bounded :
  forall k vecs, fst (fourier_weights k vecs) ^ 2 + snd (fourier_weights k vecs) ^ 2 <= INR (length vecs) ^ 2.
Proof.
  intros k vecs. induction vecs as [|v vecs IH]; [simpl; lra|].
  change (fourier_weights k (v :: vecs)) with (cadd (cexp_i (rdot k v)) (fourier_weights k vecs)).
  destruct (fourier_weights k vecs) as [x y]. unfold cadd, cexp_i. cbn [fst snd length] in *.
  rewrite S_INR. set (n := INR (length vecs)) in *. pose proof (pos_INR (length vecs)) as Hn. fold n in Hn.
  pose proof (sc (rdot k v)) as Hsc. set (s := sin (rdot k v)) in *. set (c := cos (rdot k v)) in *.
  assert (c * x + s * y <= n) as Hcs.
  { assert ((c * x + s * y) * (c * x + s * y) <= n * n) as Hsq.
    { assert ((c * x + s * y) * (c * x + s * y) + (c * y - s * x) * (c * y - s * x) = (s * s + c * c) * (x * x + y * y))
        as E by ring. rewrite Hsc in E.
      pose proof (Rle_0_sqr (c * y - s * x)) as H0. unfold Rsqr in H0. lra. }
    nra. }
  replace ((c + x) ^ 2 + (s + y) ^ 2) with ((s * s + c * c) + 2 * (c * x + s * y) + (x ^ 2 + y ^ 2)) by ring.
  rewrite Hsc. replace ((n + 1) ^ 2) with (1 + 2 * n + n ^ 2) by ring. lra.
Qed.

Example C66_example :
  let vecs := [[1; 0]; [0; -1]; [-1; 0]; [0; 1]] in
  Permutation vecs (map rneg vecs) /\
  (forall v, In v vecs -> lattice_vector [[1; 0]; [0; 1]] 2 v) /\
  (forall a, In a [[1; 0]; [0; 1]] -> exists m : Z, rdot [2 * PI; 0] a = 2 * PI * IZR m) /\
  fourier_weights [0; 0] vecs = (4, 0).
Proof.
  cbv zeta. split; [|split; [|split]].
  - replace (map rneg [[1; 0]; [0; -1]; [-1; 0]; [0; 1]]) with [[-1; 0]; [0; 1]; [1; 0]; [0; -1]].
    + apply perm_trans with [[1; 0]; [-1; 0]; [0; 1]; [0; -1]].
      * apply perm_skip. apply perm_trans with [[-1; 0]; [0; -1]; [0; 1]]; [apply perm_swap|]. apply perm_skip. apply perm_swap.
      * apply perm_trans with [[-1; 0]; [1; 0]; [0; 1]; [0; -1]]; [apply perm_swap|]. apply perm_skip. apply perm_swap.
    + unfold rneg. cbn [map]. repeat (f_equal; try lra).
  - assert (forall a, In a [[1; 0]; [0; 1]] -> lattice_vector [[1; 0]; [0; 1]] 2 a /\ lattice_vector [[1; 0]; [0; 1]] 2 (rneg a)) as H.
    { intros a Ha. assert (length a = 2%nat) as Hl by (destruct Ha as [<-|[<-|[]]]; reflexivity).
      pose proof (LAdd _ 2 a _ Ha Hl (LZero _ 2)) as H1. pose proof (LSub _ 2 a _ Ha Hl (LZero _ 2)) as H2.
      destruct a as [|x [|y [|]]]; simpl in Hl; try discriminate.
      unfold rneg in *. cbn [map repeat radd] in *. rewrite !Rplus_0_r in *. auto. }
    intros v [<-|[<-|[<-|[<-|[]]]]].
    + apply H. simpl. auto.
    + replace [0; -1] with (rneg [0; 1]) by (unfold rneg; cbn [map]; repeat (f_equal; try lra)). apply H. simpl. auto.
    + replace [-1; 0] with (rneg [1; 0]) by (unfold rneg; cbn [map]; repeat (f_equal; try lra)). apply H. simpl. auto.
    + apply H. simpl. auto.
  - intros a [<-|[<-|[]]]; [exists 1%Z|exists 0%Z]; cbn [rdot]; ring.
  - pose proof (C66_zero_wavevector 2 [[1; 0]; [0; -1]; [-1; 0]; [0; 1]]) as H. cbn [repeat] in H. rewrite H.
    f_equal. simpl. lra.
Qed.

Print Assumptions C20_rotations_are_proper.
Print Assumptions C20_rotations_compose.
Print Assumptions C20_rotate_preserves_inner_products.
Print Assumptions C20_rotate2d_is_clockwise.
Print Assumptions C20_rot_ignores_the_x_axis.
Print Assumptions C20_rot_is_rx_refuted.
Print Assumptions C20_rotate3d_in_steps.
Print Assumptions C21_compute_vectors_2d.
Print Assumptions C21_compute_vectors_3d.
Print Assumptions C21_inconsistent_angles.
Print Assumptions C66_zero_wavevector.
Print Assumptions C66_conjugation.
Print Assumptions C66_inversion_symmetric_is_real.
Print Assumptions C66_reciprocal_periodicity.
Print Assumptions C66_bounded.
Print Assumptions C21_compute_vectors_1d.
