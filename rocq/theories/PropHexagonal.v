(** * Property C75 (lattpy/basis.py, __init__.py: oblique, hexagonal and honeycomb lattices) *)
From Coq Require Import List ZArith Reals Lra Lia Psatz.
From Verif Require Import RealModel HexModel.
Import ListNotations.
Open Scope R_scope.

(** Length of a vector and scalar product in coordinates. *)
Definition coord (v : list R) (i : nat) : R := nth i v 0.
Definition prod2 (u v : list R) : R := coord u 0 * coord v 0 + coord u 1 * coord v 1.
Definition prod3 (u v : list R) : R := prod2 u v + coord u 2 * coord v 2.
Definition length2 (v : list R) : R := sqrt (prod2 v v).
Definition length3 (v : list R) : R := sqrt (prod3 v v).

(** Distance of two points of the plane. *)
Definition distance2 (u v : list R) : R :=
  sqrt ((coord v 0 - coord u 0) * (coord v 0 - coord u 0) + (coord v 1 - coord u 1) * (coord v 1 - coord u 1)).

Lemma sqrt_sq x y : 0 <= y -> x = y * y -> sqrt x = y.
Proof. intros Hy ->. apply sqrt_square. auto. Qed.

Lemma sqrt3 : sqrt 3 * sqrt 3 = 3.
Proof. apply sqrt_sqrt. lra. Qed.

Lemma sqrt3_pos : 0 < sqrt 3.
Proof. apply sqrt_lt_R0. lra. Qed.

(** Lengths and angles of the lattice vectors. *)
Theorem C75_lattice_vectors :
  (forall alpha a1 a2, exists v w, oblique_vectors alpha a1 a2 = [v; w] /\ length2 v = Rabs a1 /\ length2 w = Rabs a2 /\
     prod2 v w = a1 * a2 * cos alpha /\ coord v 0 * coord w 1 - coord v 1 * coord w 0 = a1 * a2 * sin alpha) /\
  (forall a, exists v w, hexagonal_vectors a = [v; w] /\ length2 v = sqrt 3 * Rabs a /\ length2 w = sqrt 3 * Rabs a /\
     prod2 v w = length2 v * length2 w * cos (PI / 3)) /\
  (forall a az, exists u v w, hexagonal3d_vectors a az = [u; v; w] /\
     length3 u = sqrt 3 * Rabs a /\ length3 v = sqrt 3 * Rabs a /\ length3 w = Rabs (a * az) / 2 /\
     prod3 u v = length3 u * length3 v * cos (PI / 3) /\ prod3 u w = 0 /\ prod3 v w = 0).
Proof.
  pose proof sqrt3 as S3. pose proof sqrt3_pos as S3p. 
  assert (forall x : R, Rabs x * Rabs x = x * x) as Habs by (intro x; rewrite <- Rabs_mult; apply Rabs_right; nra).
  split; [|split].
  - intros alpha a1 a2. eexists _, _. split; [reflexivity|]. unfold length2, prod2, coord. cbn [nth].
    pose proof (sin2_cos2 alpha) as SC. unfold Rsqr in SC. split; [|split; [|split]].
    + apply sqrt_sq; [apply Rabs_pos|]. rewrite Habs. ring.
    + apply sqrt_sq; [apply Rabs_pos|]. rewrite Habs. nra.
    + ring.
    + ring.
  - intro a. set (s := sqrt 3) in *.
    assert (forall x, x * x = s * s -> length2 [a / 2 * 3; a / 2 * x] = s * Rabs a) as HL.
    { intros x Hx. unfold length2, prod2, coord. cbn [nth]. apply sqrt_sq; [pose proof (Rabs_pos a); nra|].
      replace (s * Rabs a * (s * Rabs a)) with (s * s * (Rabs a * Rabs a)) by ring. rewrite Habs.
      replace (a / 2 * 3 * (a / 2 * 3) + a / 2 * x * (a / 2 * x)) with (a * a * (9 / 4) + a * a / 4 * (x * x)) by field. rewrite Hx, S3. field. }
    exists [a / 2 * 3; a / 2 * s], [a / 2 * 3; a / 2 * - s]. split; [reflexivity|]. rewrite !HL by ring. split; auto. split; auto.
    unfold prod2, coord. cbn [nth]. rewrite cos_PI3.
    replace (s * Rabs a * (s * Rabs a) * (1 / 2)) with (s * s * (Rabs a * Rabs a) / 2) by field. rewrite Habs.
    replace (a / 2 * 3 * (a / 2 * 3) + a / 2 * s * (a / 2 * - s)) with (a * a * (9 / 4) - a * a / 4 * (s * s)) by field. rewrite S3. field.
  - intros a az. set (s := sqrt 3) in *.
    assert (forall x, x * x = s * s -> length3 [a / 2 * 3; a / 2 * x; a / 2 * 0] = s * Rabs a) as HL.
    { intros x Hx. unfold length3, prod3, prod2, coord. cbn [nth]. apply sqrt_sq; [pose proof (Rabs_pos a); nra|].
      replace (s * Rabs a * (s * Rabs a)) with (s * s * (Rabs a * Rabs a)) by ring. rewrite Habs.
      replace (a / 2 * 3 * (a / 2 * 3) + a / 2 * x * (a / 2 * x) + a / 2 * 0 * (a / 2 * 0)) with (a * a * (9 / 4) + a * a / 4 * (x * x)) by field.
      rewrite Hx, S3. field. }
    exists [a / 2 * 3; a / 2 * s; a / 2 * 0], [a / 2 * 3; a / 2 * - s; a / 2 * 0], [a / 2 * 0; a / 2 * 0; a / 2 * az].
    split; [reflexivity|]. rewrite !HL by ring. split; auto. split; auto. split; [|split; [|split]].
    + unfold length3, prod3, prod2, coord. cbn [nth]. apply sqrt_sq; [pose proof (Rabs_pos (a * az)); lra|].
      replace (Rabs (a * az) / 2 * (Rabs (a * az) / 2)) with (Rabs (a * az) * Rabs (a * az) / 4) by field. rewrite Habs. field.
    + unfold prod3, prod2, coord. cbn [nth]. rewrite cos_PI3.
      replace (s * Rabs a * (s * Rabs a) * (1 / 2)) with (s * s * (Rabs a * Rabs a) / 2) by field. rewrite Habs.
      replace (a / 2 * 3 * (a / 2 * 3) + a / 2 * s * (a / 2 * - s) + a / 2 * 0 * (a / 2 * 0)) with (a * a * (9 / 4) - a * a / 4 * (s * s)) by field.
      rewrite S3. field.
    + unfold prod3, prod2, coord. cbn [nth]. ring.
    + unfold prod3, prod2, coord. cbn [nth]. ring.
Qed.

(** The lattice constant of the hexagonal lattice is not the length of its vectors, and the second constant of the
    three-dimensional one is not the length of the third vector. *)
Theorem C75_lattice_constant_refuted :
  exists a, (exists v w, hexagonal_vectors a = [v; w] /\ length2 v <> a) /\
    exists az, exists u v w, hexagonal3d_vectors a az = [u; v; w] /\ length3 w <> az.
Proof.
  destruct C75_lattice_vectors as [_ [H2 H3]]. pose proof sqrt3 as S3. exists 1. split.
  - destruct (H2 1) as [v [w [E [L _]]]]. exists v, w. split; auto. rewrite L, Rabs_R1. nra.
  - exists 1. destruct (H3 1 1) as [u [v [w [E [_ [_ [L _]]]]]]]. exists u, v, w. split; auto. rewrite L, Rmult_1_r, Rabs_R1. lra.
Qed.

Definition hex_number (n1 n2 : Z) : Z := n1 * n1 + n1 * n2 + n2 * n2.

Lemma hex_nonneg n1 n2 : (0 <= hex_number n1 n2)%Z.
Proof. unfold hex_number. nia. Qed.

Lemma hex_bound n1 n2 : (hex_number n1 n2 <= 1 -> -1 <= n1 <= 1 /\ -1 <= n2 <= 1)%Z.
Proof. unfold hex_number. intro. split; nia. Qed.

Lemma hex_translate a n1 n2 x y :
  rtranslate (hexagonal_vectors a) [n1; n2] [x; y] = [x + 3 * a / 2 * IZR (n1 + n2); y + sqrt 3 * a / 2 * IZR (n1 - n2)].
Proof. unfold rtranslate, hexagonal_vectors, rmscale. cbn. rewrite plus_IZR, minus_IZR. f_equal; [field|]. f_equal. field. Qed.

Lemma hex_distance a n1 n2 x :
  distance2 [0; 0] (rtranslate (hexagonal_vectors a) [n1; n2] [x; 0]) =
  sqrt (x * x + 3 * a * x * IZR (n1 + n2) + 3 * (a * a) * IZR (hex_number n1 n2)).
Proof.
  rewrite hex_translate. unfold distance2, coord. cbn [nth]. f_equal. unfold hex_number.
  rewrite !plus_IZR, minus_IZR, !mult_IZR. pose proof sqrt3 as S3. set (s := sqrt 3) in *.
  replace ((0 + s * a / 2 * (IZR n1 - IZR n2) - 0) * (0 + s * a / 2 * (IZR n1 - IZR n2) - 0)) with (s * s * (a * a / 4 * ((IZR n1 - IZR n2) * (IZR n1 - IZR n2)))) by field.
  rewrite S3. field.
Qed.

(** The hexagonal lattice: every site has six nearest neighbours, at the distance sqrt(3) a. *)
Theorem C75_hexagonal_neighbors :
  forall a, 0 < a ->
    let site n := rtranslate (hexagonal_vectors a) n [0; 0] in
    (forall n, length n = 2%nat -> n <> [0; 0]%Z -> sqrt 3 * a <= distance2 [0; 0] (site n)) /\
    forall n, In n [[1; 0]; [0; 1]; [-1; 0]; [0; -1]; [1; -1]; [-1; 1]]%Z <->
      length n = 2%nat /\ distance2 [0; 0] (site n) = sqrt 3 * a.
Proof.
  intros a Ha site. pose proof sqrt3 as S3. pose proof sqrt3_pos as S3p.
  assert (forall n1 n2, distance2 [0; 0] (site [n1; n2]) = sqrt (3 * (a * a) * IZR (hex_number n1 n2))) as Hd.
  { intros. unfold site. rewrite hex_distance. f_equal. ring. }
  assert (forall n : list Z, length n = 2%nat -> exists n1 n2, n = [n1; n2]) as H2.
  { intros [|n1 [|n2 [|]]] L; try discriminate L. eauto. }
  assert (sqrt 3 * a = sqrt (3 * (a * a))) as Es by (symmetry; apply sqrt_sq; nra).
  split.
  - intros n L N. destruct (H2 n L) as [n1 [n2 ->]]. rewrite Hd, Es. apply sqrt_le_1_alt.
    assert (1 <= hex_number n1 n2)%Z as B.
    { pose proof (hex_nonneg n1 n2). destruct (Z.eq_dec (hex_number n1 n2) 0) as [E|]; [|lia]. exfalso.
      destruct (hex_bound n1 n2 ltac:(lia)) as [B1 B2]. unfold hex_number in *. apply N. 
      assert (n1 = 0)%Z by nia. assert (n2 = 0)%Z by nia. subst. reflexivity. }
    apply IZR_le in B. nra.
  - intro n. split.
    + intro Hin. cbn [In] in Hin. repeat destruct Hin as [<-|Hin]; try (split; [reflexivity|]; rewrite Hd, Es; f_equal; cbn; lra). destruct Hin.
    + intros [L E]. destruct (H2 n L) as [n1 [n2 ->]]. rewrite Hd, Es in E. apply sqrt_inj in E.
      * assert (IZR (hex_number n1 n2) = 1) as B by (apply (Rmult_eq_reg_l (3 * (a * a))); nra). apply eq_IZR in B.
        destruct (hex_bound n1 n2 ltac:(lia)) as [B1 B2].
        assert (n1 = -1 \/ n1 = 0 \/ n1 = 1)%Z as C1 by lia. assert (n2 = -1 \/ n2 = 0 \/ n2 = 1)%Z as C2 by lia.
        destruct C1 as [->|[->| ->]], C2 as [->|[->| ->]]; try discriminate B; cbn; auto 8.
      * pose proof (hex_nonneg n1 n2) as B. apply IZR_le in B. apply Rmult_le_pos; [nra|auto].
      * nra.
Qed.

(** Honeycomb and graphene: an atom of the first kind has three nearest atoms of the second kind, at the distance a
    (and the other way round); all others are at least twice as far. *)
Theorem C75_honeycomb_neighbors :
  forall a, 0 < a ->
    exists r1 r2, honeycomb_positions a = [r1; r2] /\
    let V := hexagonal_vectors a in
    (forall n, In n [[0; 0]; [-1; 0]; [0; -1]]%Z <-> length n = 2%nat /\ distance2 r1 (rtranslate V n r2) = a) /\
    (forall n, length n = 2%nat -> distance2 r1 (rtranslate V n r2) = a \/ 2 * a <= distance2 r1 (rtranslate V n r2)) /\
    (forall n, In n [[0; 0]; [1; 0]; [0; 1]]%Z <-> length n = 2%nat /\ distance2 r2 (rtranslate V n r1) = a) /\
    (forall n, length n = 2%nat -> distance2 r2 (rtranslate V n r1) = a \/ 2 * a <= distance2 r2 (rtranslate V n r1)).
Proof.
  intros a Ha. exists [0; 0], [a; 0]. split; [reflexivity|]. intro V.
  assert (forall n : list Z, length n = 2%nat -> exists n1 n2, n = [n1; n2]) as H2.
  { intros [|n1 [|n2 [|]]] L; try discriminate L. eauto. }
  set (m := fun n1 n2 => (hex_number n1 n2 + (n1 + n2))%Z).
  assert (forall n1 n2, distance2 [0; 0] (rtranslate V [n1; n2] [a; 0]) = sqrt (a * a * IZR (1 + 3 * m n1 n2))) as Hd.
  { intros. unfold V, m. rewrite hex_distance. f_equal. rewrite !plus_IZR, mult_IZR, !plus_IZR. ring. }
  assert (forall n1 n2, distance2 [a; 0] (rtranslate V [n1; n2] [0; 0]) = distance2 [0; 0] (rtranslate V [- n1; - n2]%Z [a; 0])) as Hsym.
  { intros. unfold V. rewrite !hex_translate. unfold distance2, coord. cbn [nth]. f_equal.
    rewrite !plus_IZR, !minus_IZR, !opp_IZR. ring. }
  assert (forall n1 n2, (0 <= m n1 n2)%Z) as Hm.
  { intros n1 n2. assert (2 * m n1 n2 = (n1 + 1) * (n1 + 1) + (n2 + 1) * (n2 + 1) + (n1 + n2) * (n1 + n2) - 2)%Z as E by (unfold m, hex_number; ring).
    destruct (Z.eq_dec (n1 + 1) 0) as [E1|E1]; [|assert (1 <= (n1 + 1) * (n1 + 1))%Z by nia];
      (destruct (Z.eq_dec (n2 + 1) 0) as [E2|E2]; [|assert (1 <= (n2 + 1) * (n2 + 1))%Z by nia]).
    - assert (n1 + n2 = -2)%Z as F by lia. rewrite F in E. nia.
    - assert (n1 + n2 <> 0 \/ n2 = 1)%Z as [F|F] by lia; [assert (1 <= (n1 + n2) * (n1 + n2))%Z by nia; nia|]. subst. nia.
    - assert (n1 + n2 <> 0 \/ n1 = 1)%Z as [F|F] by lia; [assert (1 <= (n1 + n2) * (n1 + n2))%Z by nia; nia|]. subst. nia.
    - nia. }
  assert (sqrt (a * a * 1) = a) as E1 by (apply sqrt_sq; lra).
  assert (forall n1 n2, sqrt (a * a * IZR (1 + 3 * m n1 n2)) = a <-> m n1 n2 = 0%Z) as Hiff.
  { intros n1 n2. split.
    - intro E. apply (fun e => eq_trans e (eq_sym E1)) in E. apply sqrt_inj in E.
      + apply Rmult_eq_reg_l in E; [|nra]. apply eq_IZR in E. lia.
      + specialize (Hm n1 n2). apply Rmult_le_pos; [nra|]. apply IZR_le. lia.
      + nra.
    - intros ->. exact E1. }
  assert (forall n1 n2, m n1 n2 = 0%Z <-> In [n1; n2] [[0; 0]; [-1; 0]; [0; -1]]%Z) as Hz.
  { intros n1 n2. split.
    - intro E. unfold m, hex_number in E. assert ((n1 + 1) * (n1 + 1) + (n2 + 1) * (n2 + 1) + (n1 + n2) * (n1 + n2) = 2)%Z as E2 by lia.
      assert (forall x y z, x * x + y * y + z * z = 2 -> -1 <= x <= 1 /\ -1 <= y <= 1)%Z as B by (intros; split; nia). apply B in E2.
      assert (-2 <= n1 <= 1)%Z by lia. assert (-2 <= n2 <= 1)%Z by lia.
      assert (n1 = -2 \/ n1 = -1 \/ n1 = 0 \/ n1 = 1)%Z as C1 by lia. assert (n2 = -2 \/ n2 = -1 \/ n2 = 0 \/ n2 = 1)%Z as C2 by lia.
      destruct C1 as [->|[->|[->| ->]]], C2 as [->|[->|[->| ->]]]; try discriminate E; cbn; auto.
    - intros [E|[E|[E|[]]]]; injection E as <- <-; reflexivity. }
  assert (forall n1 n2, distance2 [0; 0] (rtranslate V [n1; n2] [a; 0]) = a \/ 2 * a <= distance2 [0; 0] (rtranslate V [n1; n2] [a; 0])) as Hgap.
  { intros n1 n2. rewrite Hd, Hiff. destruct (Z.eq_dec (m n1 n2) 0) as [E|E]; [left; auto|right].
    assert (sqrt (a * a * 4) = 2 * a) as <- by (apply sqrt_sq; lra). apply sqrt_le_1_alt. specialize (Hm n1 n2).
    apply Rmult_le_compat_l; [nra|]. apply IZR_le. lia. }
  split; [|split; [|split]].
  - intro n. split.
    + intro Hin. assert (length n = 2%nat) as L by (cbn in Hin; intuition (subst; reflexivity)). split; auto.
      destruct (H2 n L) as [n1 [n2 ->]]. rewrite Hd, Hiff, Hz. exact Hin.
    + intros [L E]. destruct (H2 n L) as [n1 [n2 ->]]. rewrite Hd, Hiff, Hz in E. exact E.
  - intros n L. destruct (H2 n L) as [n1 [n2 ->]]. apply Hgap.
  - intro n. split.
    + intro Hin. assert (length n = 2%nat) as L by (cbn in Hin; intuition (subst; reflexivity)). split; auto.
      destruct (H2 n L) as [n1 [n2 ->]]. rewrite Hsym, Hd, Hiff, Hz. destruct Hin as [E|[E|[E|[]]]]; injection E as <- <-; cbn; auto.
    + intros [L E]. destruct (H2 n L) as [n1 [n2 ->]]. rewrite Hsym, Hd, Hiff, Hz in E.
      destruct E as [E|[E|[E|[]]]]; injection E as E3 E4; [assert (n1 = 0)%Z by lia; assert (n2 = 0)%Z by lia|assert (n1 = 1)%Z by lia; assert (n2 = 0)%Z by lia|assert (n1 = 0)%Z by lia; assert (n2 = 1)%Z by lia]; subst; cbn; auto.
  - intros n L. destruct (H2 n L) as [n1 [n2 ->]]. rewrite Hsym. apply Hgap.
Qed.

(** Lattice constant 2: one lattice vector, a nearest and a more distant atom of the other kind. *)
Example C75_example :
  0 < 2 /\ rtranslate (hexagonal_vectors 2) [1; 1]%Z [0; 0] = [6; 0] /\
  distance2 [0; 0] (rtranslate (hexagonal_vectors 2) [0; -1]%Z [2; 0]) = 2 /\
  4 <= distance2 [0; 0] (rtranslate (hexagonal_vectors 2) [1; -1]%Z [2; 0]).
Proof.
  split; [lra|]. split; [rewrite hex_translate; cbn; f_equal; [lra|]; f_equal; lra|].
  destruct (C75_honeycomb_neighbors 2 ltac:(lra)) as [r1 [r2 [E [H [G _]]]]]. injection E as <- <-. split.
  - apply (H [0; -1]%Z). cbn. auto.
  - destruct (G [1; -1]%Z eq_refl) as [F|F]; [|lra]. exfalso. assert (In [1; -1]%Z [[0; 0]; [-1; 0]; [0; -1]]%Z) as I by (apply H; auto).
    cbn in I. intuition discriminate.
Qed.

Print Assumptions C75_lattice_vectors.
Print Assumptions C75_lattice_constant_refuted.
Print Assumptions C75_hexagonal_neighbors.
Print Assumptions C75_honeycomb_neighbors.
