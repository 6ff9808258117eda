(** * Property C83 (lattpy/shape.py: ConvexHull) *)
From Coq Require Import List ZArith QArith Qround Bool Arith Lia Lqa.
From Verif Require Import Np NpFacts LinAlg LinFacts BasisModel SpatialModel ShapeModel SpecUtils SpecBasis SpecSpatial SpecVoronoi
  BasisProofs SpatialProofs KDProofs ShapeProofs.
Import ListNotations.
Open Scope Q_scope.

(** ** Specification *)

(** [x] is a mixture of the points: a sum with weights that are not negative and add up to one. *)
Definition mixture (d : nat) (P : list (list Q)) (x : list Q) : Prop :=
  exists w : nat -> Q, (forall k, (k < length P)%nat -> 0 <= w k) /\ sum_upto (length P) w == 1 /\
    forall i, (i < d)%nat -> nth i x 0 == sum_upto (length P) (fun k => w k * nth i (nth k P []) 0).

(** What is assumed of [scipy.spatial.ConvexHull(P)]: the half spaces of its equations meet in the convex hull. *)
Definition is_hull (d : nat) (P : list (list Q)) (E : list (list Q * Q)) : Prop :=
  P <> [] /\ (forall p, In p P -> length p = d) /\ (forall e, In e E -> length (fst e) = d) /\
  forall x, length x = d -> ((forall e, In e E -> inner (fst e) x + snd e <= 0) <-> mixture d P x).

(** ** Proofs *)

Lemma inner_dot d p n : length n = d -> length p = d -> dot p n == inner n p.
Proof.
  intros Hn Hp. rewrite (dot_sum d) by assumption. unfold inner. rewrite Hn. apply sum_ext. intros. ring.
Qed.

Lemma hull_contains_iff d P E p tol : is_hull d P E -> length p = d ->
  (shape_contains (SHull P E) p tol = true <-> forall e, In e E -> inner (fst e) p + snd e <= tol).
Proof.
  intros [_ [_ [HE _]]] Hp. cbn [shape_contains]. rewrite forallb_forall. split; intros H e He; specialize (H e He).
  - apply Qle_bool_iff in H. rewrite (inner_dot d) in H by auto. exact H.
  - apply Qle_bool_iff. rewrite (inner_dot d) by auto. exact H.
Qed.

Lemma square_nonneg (z : Q) : 0 <= z * z.
Proof. nra. Qed.

Lemma sum_mono n f g : (forall k, (k < n)%nat -> f k <= g k) -> sum_upto n f <= sum_upto n g.
Proof. induction n as [|n IH]; intro H; cbn [sum_upto]; [lra|]. pose proof (H n ltac:(lia)). assert (sum_upto n f <= sum_upto n g) by (apply IH; intros; apply H; lia). lra. Qed.

(** Without tolerance [contains] decides the convex hull of the points. *)
Theorem C83_contains :
  forall d P E p, is_hull d P E -> length p = d -> (shape_contains (SHull P E) p 0 = true <-> mixture d P p).
Proof.
  intros d P E p H Hp. rewrite (hull_contains_iff d) by assumption. apply H. exact Hp.
Qed.

Lemma mixture_point d P p : In p P -> (forall q, In q P -> length q = d) -> mixture d P p.
Proof.
  intros Hp _. apply (In_nth _ _ []) in Hp. destruct Hp as [i [Hi <-]]. exists (delta i). split; [|split].
  - intros k _. unfold delta. destruct (i =? k)%nat; lra.
  - rewrite <- (sum_delta (length P) i (fun _ => 1)) by exact Hi. apply sum_ext. intros. ring.
  - intros j _. rewrite (sum_delta (length P) i (fun k => nth j (nth k P []) 0)) by exact Hi. reflexivity.
Qed.

(** All points are contained, with any tolerance that is not negative; the set of contained points is convex; it grows
    with the tolerance; points no farther than the tolerance from the hull are contained (for normals not longer
    than one). *)
Theorem C83_tolerance :
  forall d P E tol, is_hull d P E -> 0 <= tol ->
    (forall p, In p P -> shape_contains (SHull P E) p tol = true) /\
    (forall p q t m, length p = d -> length q = d -> length m = d -> 0 <= t <= 1 ->
       (forall i, (i < d)%nat -> nth i m 0 == (1 - t) * nth i p 0 + t * nth i q 0) ->
       shape_contains (SHull P E) p tol = true -> shape_contains (SHull P E) q tol = true -> shape_contains (SHull P E) m tol = true) /\
    (forall p tol', length p = d -> tol <= tol' -> shape_contains (SHull P E) p tol = true -> shape_contains (SHull P E) p tol' = true) /\
    (forall p x, length p = d -> length x = d -> (forall e, In e E -> inner (fst e) (fst e) <= 1) ->
       mixture d P x -> sqdist p x <= tol * tol -> shape_contains (SHull P E) p tol = true).
Proof.
  intros d P E tol H Ht. pose proof H as [Hne [HP [HE Hh]]].
  assert (forall p tol', length p = d -> tol <= tol' -> shape_contains (SHull P E) p tol = true -> shape_contains (SHull P E) p tol' = true) as Hm.
  { intros p t' Hp Htt. rewrite !(hull_contains_iff d) by assumption. intros G e He. specialize (G e He). lra. }
  split; [|split; [|split]].
  - intros p Hp. rewrite (hull_contains_iff d) by auto. intros e He.
    assert (inner (fst e) p + snd e <= 0) by (apply (proj2 (Hh p (HP p Hp))); [apply mixture_point; auto|exact He]). lra.
  - intros p q t m Hp Hq Hm' Htt Em. rewrite !(hull_contains_iff d) by assumption. intros G1 G2 e He. specialize (G1 e He). specialize (G2 e He).
    assert (inner (fst e) m == (1 - t) * inner (fst e) p + t * inner (fst e) q) as ->.
    { unfold inner. rewrite <- !sum_scale, <- sum_plus. apply sum_ext. intros k Hk. rewrite (HE e He) in Hk. rewrite (Em k Hk). ring. }
    nra.
  - exact Hm.
  - intros p x Hp Hx Hn Hmx Hd. rewrite (hull_contains_iff d) by assumption. intros e He. specialize (Hn e He).
    assert (inner (fst e) x + snd e <= 0) as G by (apply (proj2 (Hh x Hx)); auto).
    assert (inner (fst e) p == inner (fst e) x + sum_upto d (fun i => nth i (fst e) 0 * (nth i p 0 - nth i x 0))) as ->.
    { unfold inner. rewrite (HE e He), <- sum_plus. apply sum_ext. intros. ring. }
    enough (sum_upto d (fun i => nth i (fst e) 0 * (nth i p 0 - nth i x 0)) <= tol) by lra.
    unfold inner in Hn. rewrite (HE e He) in Hn. unfold sqdist in Hd. rewrite Hp in Hd.
    destruct (Qlt_le_dec 0 tol) as [Hpos|Hz].
    + assert (2 * tol * sum_upto d (fun i => nth i (fst e) 0 * (nth i p 0 - nth i x 0)) <=
              tol * tol * sum_upto d (fun i => nth i (fst e) 0 * nth i (fst e) 0) +
              sum_upto d (fun i => (nth i p 0 - nth i x 0) * (nth i p 0 - nth i x 0))) as S.
      { rewrite <- !sum_scale, <- sum_plus. apply sum_mono. intros k _.
        pose proof (square_nonneg (tol * nth k (fst e) 0 - (nth k p 0 - nth k x 0))). lra. }
      nra.
    + assert (tol == 0) as E0 by lra. rewrite E0 in Hd |- *.
      assert (forall i, (i < d)%nat -> (nth i p 0 - nth i x 0) * (nth i p 0 - nth i x 0) == 0) as Z.
      { apply sum_nonneg_zero; [intros; apply square_nonneg|]. apply Qle_antisym; [lra|]. apply sum_nonneg. intros. apply square_nonneg. }
      rewrite (sum_zero d); [lra|]. intros k Hk. specialize (Z k Hk). apply Qmult_integral in Z.
      assert (nth k p 0 - nth k x 0 == 0) as -> by (destruct Z; assumption). ring.
Qed.

(** [limits] are the smallest and largest coordinates of the points; contained points lie between them, and the limits
    are attained by contained points. *)
Theorem C83_limits :
  forall d P E, is_hull d P E ->
    length (shape_limits (SHull P E)) = d /\
    forall j lo hi, nth_error (shape_limits (SHull P E)) j = Some (lo, hi) ->
      is_min (map (fun p => nth j p 0) P) lo /\ is_max (map (fun p => nth j p 0) P) hi /\
      (forall p, length p = d -> shape_contains (SHull P E) p 0 = true -> lo <= nth j p 0 <= hi) /\
      (exists p q, length p = d /\ length q = d /\ shape_contains (SHull P E) p 0 = true /\ shape_contains (SHull P E) q 0 = true /\
         nth j p 0 == lo /\ nth j q 0 == hi).
Proof.
  intros d P E H. pose proof H as [Hne [HP [HE Hh]]]. cbn [shape_limits].
  pose proof (point_limits_length P d Hne HP) as Hlen. split; [exact Hlen|].
  intros j lo hi Hj. destruct (point_limits_spec P j lo hi Hj) as [Hmin Hmax]. split; [exact Hmin|]. split; [exact Hmax|].
  assert (j < d)%nat as Hjd by (apply nth_error_length_lt in Hj; lia).
  split.
  - intros p Hp Hc. apply (C83_contains d) in Hc; auto. destruct Hc as [w [Hw [Hs Hx]]]. rewrite (Hx j Hjd).
    assert (forall k, (k < length P)%nat -> lo <= nth j (nth k P []) 0 <= hi) as Hb.
    { intros k Hk. split; [apply Hmin|apply Hmax]; apply (in_map (fun p => nth j p 0)); apply nth_In; exact Hk. }
    assert (lo == sum_upto (length P) (fun k => w k * lo)) as E1.
    { transitivity (lo * sum_upto (length P) w); [rewrite Hs; ring|]. rewrite <- sum_scale. apply sum_ext. intros; ring. }
    assert (hi == sum_upto (length P) (fun k => w k * hi)) as E2.
    { transitivity (hi * sum_upto (length P) w); [rewrite Hs; ring|]. rewrite <- sum_scale. apply sum_ext. intros; ring. }
    split.
    + rewrite E1 at 1. apply sum_mono. intros k Hk. specialize (Hw k Hk). specialize (Hb k Hk). nra.
    + rewrite E2 at 1. apply sum_mono. intros k Hk. specialize (Hw k Hk). specialize (Hb k Hk). nra.
  - destruct Hmin as [[x [Hx Ex]] _]. destruct Hmax as [[y [Hy Ey]] _]. apply in_map_iff in Hx, Hy.
    destruct Hx as [p [Ep Hp]]. destruct Hy as [q [Eq Hq]]. exists p, q. split; [auto|]. split; [auto|].
    split; [apply (C83_contains d); auto; apply mixture_point; auto|]. split; [apply (C83_contains d); auto; apply mixture_point; auto|].
    rewrite <- Ep in Ex. rewrite <- Eq in Ey. auto.
Qed.

(** A right triangle with legs 4 and 3; the normal of the hypotenuse is (3/5, 4/5). *)
Example C83_example :
  let P := [[0; 0]; [4; 0]; [0; 3]] in
  let E := [([-1; 0], 0); ([0; -1], 0); ([3 # 5; 4 # 5], - (12 # 5))] in
  is_hull 2 P E /\ (forall e, In e E -> inner (fst e) (fst e) <= 1) /\
  shape_contains (SHull P E) [1; 1] 0 = true /\ shape_contains (SHull P E) [3; 1] 0 = false /\ shape_contains (SHull P E) [3; 1] 1 = true /\
  shape_limits (SHull P E) = [(0, 4); (0, 3)].
Proof.
  cbv zeta. split; [|split; [|repeat split; reflexivity]].
  - split; [discriminate|]. split; [intros p [<-|[<-|[<-|[]]]]; reflexivity|]. split; [intros e [<-|[<-|[<-|[]]]]; reflexivity|].
    intros [|x [|y [|z r]]] Hl; try discriminate. unfold mixture, inner. cbn [length sum_upto fst snd nth]. split.
    + intro H. pose proof (H _ (or_introl eq_refl)) as H1. pose proof (H _ (or_intror (or_introl eq_refl))) as H2. pose proof (H _ (or_intror (or_intror (or_introl eq_refl)))) as H3.
      cbn [length sum_upto fst snd nth] in H1, H2, H3.
      exists (fun k => match k with 0%nat => 1 - (1 # 4) * x - (1 # 3) * y | 1%nat => (1 # 4) * x | _ => (1 # 3) * y end). split; [|split].
      * intros [|[|[|k]]] Hk; try lia; lra.
      * ring.
      * intros [|[|i]] Hi; [| |lia]; cbn [nth]; ring.
    + intros [w [Hw [Hs Hx]]]. pose proof (Hw 0%nat ltac:(lia)). pose proof (Hw 1%nat ltac:(lia)). pose proof (Hw 2%nat ltac:(lia)).
      pose proof (Hx 0%nat ltac:(lia)) as X. pose proof (Hx 1%nat ltac:(lia)) as Y. cbn [nth] in X, Y.
      intros e [<-|[<-|[<-|[]]]]; cbn [length sum_upto fst snd nth]; lra.
  - intros e [<-|[<-|[<-|[]]]]; vm_compute; discriminate.
Qed.

Print Assumptions C83_contains.
Print Assumptions C83_tolerance.
Print Assumptions C83_limits.
