(** * Property C102, plots of rings (lattpy/shape.py: Donut.plot) *)
From Coq Require Import List ZArith Arith Lia Reals Lra.
From Verif Require Import StructureFacts ShapePlotModel.
Import ListNotations.
Open Scope R_scope.
Open Scope list_scope.

(** ** Specification *)

(** The square of the distance of two points of the plane, the inner product and the (signed) area spanned by two vectors. *)
Definition dist2 (p q : R * R) : R := (fst p - fst q) * (fst p - fst q) + (snd p - snd q) * (snd p - snd q).
Definition dot (p q : R * R) : R := fst p * fst q + snd p * snd q.
Definition cross (p q : R * R) : R := fst p * snd q - snd p * fst q.

(** A closed line of [n] steps of the same angle [phi] around the origin at the distance [r]. *)
Definition round_trip (n : nat) (r phi : R) (l : list (R * R)) : Prop :=
  length l = S n /\ (forall p, In p l -> dist2 p (0, 0) = r * r) /\ nth 0 l (0, 0) = nth n l (0, 0) /\
  forall k, (k < n)%nat -> dot (nth k l (0, 0)) (nth (S k) l (0, 0)) = r * r * cos phi /\ cross (nth k l (0, 0)) (nth (S k) l (0, 0)) = r * r * sin phi.

(** ** Proofs *)

Lemma ring_length r : length (ring r) = 100%nat.
Proof. unfold ring. rewrite map_length, seq_length. reflexivity. Qed.

Lemma ring_nth r k : (k < 100)%nat -> nth k (ring r) (0, 0) = (r * cos (theta k), r * sin (theta k)).
Proof.
  intro Hk. unfold ring. rewrite (nth_map_in _ _ _ 0%nat) by (rewrite seq_length; exact Hk). rewrite seq_nth by exact Hk. reflexivity.
Qed.

Lemma rev_ring_nth r k : (k < 100)%nat -> nth k (rev (ring r)) (0, 0) = (r * cos (theta (99 - k)), r * sin (theta (99 - k))).
Proof.
  intro Hk. rewrite rev_nth by (rewrite ring_length; exact Hk). rewrite ring_length. rewrite ring_nth by lia. replace (100 - S k)%nat with (99 - k)%nat by lia. reflexivity.
Qed.

Lemma ring_dist r p : In p (ring r) -> dist2 p (0, 0) = r * r.
Proof.
  unfold ring. intro H. apply in_map_iff in H. destruct H as [i [<- _]]. unfold dist2. cbn [fst snd].
  pose proof (sin2_cos2 (theta i)) as E. unfold Rsqr in E.
  replace ((r * cos (theta i) - 0) * (r * cos (theta i) - 0) + (r * sin (theta i) - 0) * (r * sin (theta i) - 0))
    with (r * r * (sin (theta i) * sin (theta i) + cos (theta i) * cos (theta i))) by ring. rewrite E. ring.
Qed.

Lemma theta_S k : theta (S k) - theta k = 2 * PI / 99.
Proof. unfold theta. rewrite S_INR. field. Qed.

Lemma step r a b : dot (r * cos a, r * sin a) (r * cos b, r * sin b) = r * r * cos (b - a) /\
  cross (r * cos a, r * sin a) (r * cos b, r * sin b) = r * r * sin (b - a).
Proof. unfold dot, cross. cbn [fst snd]. rewrite cos_minus, sin_minus. split; ring. Qed.

Lemma theta_0 : theta 0 = 0.
Proof. unfold theta. cbn [INR]. ring. Qed.

Lemma theta_99 : theta 99 = 2 * PI.
Proof. unfold theta. rewrite INR_IZR_INZ. change (IZR (Z.of_nat 99)) with 99. field. Qed.

Lemma ring_trip r : round_trip 99 r (2 * PI / 99) (ring r).
Proof.
  split; [apply ring_length|]. split; [apply ring_dist|]. split.
  - rewrite !ring_nth by lia. rewrite theta_0, theta_99, cos_0, sin_0, cos_2PI, sin_2PI. reflexivity.
  - intros k Hk. rewrite !ring_nth by lia. rewrite <- (theta_S k). apply step.
Qed.

Lemma rev_ring_trip r : round_trip 99 r (- (2 * PI / 99)) (rev (ring r)).
Proof.
  split; [rewrite rev_length; apply ring_length|]. split; [intros p Hp; apply ring_dist; apply in_rev; exact Hp|]. split.
  - rewrite !rev_ring_nth by lia. replace (99 - 99)%nat with 0%nat by lia. replace (99 - 0)%nat with 99%nat by lia.
    rewrite theta_0, theta_99, cos_0, sin_0, cos_2PI, sin_2PI. reflexivity.
  - intros k Hk. rewrite !rev_ring_nth by lia. replace (99 - k)%nat with (S (99 - S k)) by lia.
    replace (- (2 * PI / 99)) with (theta (99 - S k) - theta (S (99 - S k))) by (rewrite <- (theta_S (99 - S k)); ring). apply step.
Qed.

(** ** Theorems *)

(** The two lines go once around the origin, at the two radii and in opposite directions; the filled polygon joins them. *)
Theorem C102_donut :
  forall pos ro ri, exists inner outer,
    plot_donut pos ro ri = ([inner; outer], inner ++ outer) /\
    round_trip 99 ri (2 * PI / 99) inner /\ round_trip 99 ro (- (2 * PI / 99)) outer /\
    (* both start and end on the same ray, where the polygon passes from one ring to the other *)
    nth 99 inner (0, 0) = (ri, 0) /\ nth 0 outer (0, 0) = (ro, 0).
Proof.
  intros pos ro ri. exists (ring ri), (rev (ring ro)). split; [reflexivity|]. split; [apply ring_trip|]. split; [apply rev_ring_trip|].
  split; [rewrite ring_nth by lia|rewrite rev_ring_nth by lia; replace (99 - 0)%nat with 99%nat by lia]; rewrite theta_99, cos_2PI, sin_2PI; f_equal; ring.
Qed.

Example C102_donut_example :
  exists inner outer, plot_donut (0, 0) 2 1 = ([inner; outer], inner ++ outer) /\ nth 33 inner (0, 0) = (- (1 / 2), sqrt 3 / 2) /\
    nth 66 outer (0, 0) = (-1, sqrt 3) /\ length (inner ++ outer) = 200%nat.
Proof.
  assert (theta 33 = 2 * (PI / 3)) as E by (unfold theta; rewrite INR_IZR_INZ; change (IZR (Z.of_nat 33)) with 33; field).
  exists (ring 1), (rev (ring 2)). split; [reflexivity|]. rewrite ring_nth by lia. rewrite rev_ring_nth by lia. replace (99 - 66)%nat with 33%nat by lia.
  rewrite E, cos_2PI3, sin_2PI3. split; [f_equal; field|]. split; [f_equal; field|]. rewrite app_length, rev_length, !ring_length. reflexivity.
Qed.

(** The rings are those of the shape exactly when it is at the origin: the position is not used. *)
Theorem C102_donut_position :
  forall pos ro ri, 0 < ro ->
    ((forall l p, In l (fst (plot_donut pos ro ri)) -> In p l -> dist2 p pos = ri * ri \/ dist2 p pos = ro * ro) /\
     (forall p, In p (nth 1 (fst (plot_donut pos ro ri)) []) -> dist2 p pos = ro * ro)
     <-> pos = (0, 0)).
Proof.
  intros [px py] ro ri Hro. cbn [plot_donut fst nth]. split.
  - intros [_ H].
    assert (forall k, (k < 100)%nat -> px * px + py * py = 2 * ro * (px * cos (theta k) + py * sin (theta k))) as Hk.
    { intros k Hk. assert (In (ro * cos (theta k), ro * sin (theta k)) (ring ro)) as Hin by (rewrite <- ring_nth by exact Hk; apply nth_In; rewrite ring_length; exact Hk).
      pose proof (ring_dist _ _ Hin) as H0. apply in_rev in Hin. specialize (H _ Hin). unfold dist2 in *. cbn [fst snd] in *. lra. }
    assert (theta 33 = 2 * (PI / 3)) as E by (unfold theta; rewrite INR_IZR_INZ; change (IZR (Z.of_nat 33)) with 33; field).
    assert (theta 66 = 2 * (PI / 3) + 2 * (PI / 3)) as E' by (unfold theta; rewrite INR_IZR_INZ; change (IZR (Z.of_nat 66)) with 66; field).
    pose proof (Hk 0%nat ltac:(lia)) as H0. pose proof (Hk 33%nat ltac:(lia)) as H1. pose proof (Hk 66%nat ltac:(lia)) as H2.
    rewrite theta_0, cos_0, sin_0 in H0. rewrite E, cos_2PI3, sin_2PI3 in H1. rewrite E', cos_plus, sin_plus, cos_2PI3, sin_2PI3 in H2.
    pose proof (sqrt_sqrt 3 ltac:(lra)) as Hs.
    assert (-1 / 2 * (-1 / 2) - sqrt 3 / 2 * (sqrt 3 / 2) = - (1 / 2)) as E1 by (replace (sqrt 3 / 2 * (sqrt 3 / 2)) with (sqrt 3 * sqrt 3 / 4) by field; rewrite Hs; lra).
    assert (px * px + py * py = 0) as Hz by (rewrite E1 in H2; lra).
    f_equal; nra.
  - intro E. injection E as -> ->. split.
    + intros l p [<-|[<-|[]]] Hp; [left|right; apply in_rev in Hp]; apply ring_dist; exact Hp.
    + intros p Hp. apply in_rev in Hp. apply ring_dist. exact Hp.
Qed.

Example C102_donut_position_example :
  plot_donut (5, 7) 2 1 = plot_donut (0, 0) 2 1 /\ In (2, 0) (nth 1 (fst (plot_donut (5, 7) 2 1)) []) /\ dist2 (2, 0) (5, 7) <> 2 * 2.
Proof.
  split; [reflexivity|]. split.
  - cbn [plot_donut fst nth]. apply in_rev. rewrite rev_involutive. replace (2, 0) with (nth 0 (ring 2) (0, 0)); [apply nth_In; rewrite ring_length; lia|].
    rewrite ring_nth by lia. rewrite theta_0, cos_0, sin_0. f_equal; ring.
  - unfold dist2. cbn [fst snd]. lra.
Qed.

Print Assumptions C102_donut.
Print Assumptions C102_donut_position.
