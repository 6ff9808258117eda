(** * Properties C23 and C24 (lattpy/shape.py) *)
From Coq Require Import List ZArith QArith Qround Qabs Bool Arith Reals Lra Qreals Lia Lqa.
From Verif Require Import Np NpFacts LinAlg LinFacts BasisModel SpatialModel ShapeModel SpecUtils SpecBasis SpecSpatial
  BasisProofs NeighborCellProofs SpatialProofs KDProofs ShapeProofs PropBasis.
Import ListNotations.
Open Scope Q_scope.

(** ** C23 *)

(** A box of dimension [d], possibly with its own basis. *)
Definition is_box (d : nat) (s : shape) (size pos : list Q) : Prop :=
  match s with
  | SBox sz p => sz = size /\ p = pos
  | SBoxBasis sz p m inv => sz = size /\ p = pos /\ inverse_of d m inv
  | _ => False
  end /\ length size = d /\ length pos = d.

(** [x] are the coordinates of [p] in the basis of the box. *)
Definition box_coordinates (s : shape) (x p : list Q) : Prop :=
  match s with
  | SBoxBasis _ _ m _ =>
    length p = length m /\
    forall i, (i < length m)%nat -> nth i p 0 == sum_upto (length m) (fun k => entry m i k * nth k x 0)
  | _ => same x p
  end.

Definition in_box (size pos x : list Q) (tol : Q) : Prop :=
  forall i, (i < length pos)%nat -> nth i pos 0 - tol <= nth i x 0 <= nth i pos 0 + nth i size 0 + tol.

Lemma in_box_same size pos x y tol : (forall i, nth i x 0 == nth i y 0) -> in_box size pos x tol -> in_box size pos y tol.
Proof. intros E H i Hi. specialize (H i Hi). rewrite <- !(E i). assumption. Qed.

Lemma box_coordinates_matvec d m inv x p :
  inverse_of d m inv -> length x = d ->
  length p = d /\ (forall i, (i < d)%nat -> nth i p 0 == sum_upto d (fun k => entry m i k * nth k x 0)) ->
  veq (matvec m x) p.
Proof.
  intros [Hm _] Hx [Hp H]. apply (veq_nth_lt _ _ d); [apply (matvec_len d); assumption|assumption|].
  intros i Hi. rewrite (nth_matvec_sum d) by assumption. symmetry. apply H. assumption.
Qed.

Theorem C23_box_contains :
  forall d s size pos x p tol,
    is_box d s size pos -> length x = d -> length p = d -> box_coordinates s x p ->
    (shape_contains s p tol = true <-> in_box size pos x tol).
Proof.
  intros d s size pos x p tol [Hb [Hs Hp]] Hx Hlp Hc.
  destruct s as [sz ps|sz ps m inv| | |]; try contradiction.
  - destruct Hb as [-> ->]. cbn [shape_contains box_coordinates] in *.
    rewrite (box_contains_spec d) by assumption. apply same_veq, veq_nth in Hc. destruct Hc as [_ Hc].
    unfold in_box. rewrite Hp. split; intros H i Hi; specialize (H i Hi); specialize (Hc i); lra.
  - destruct Hb as [-> [-> Hinv]]. cbn [shape_contains box_coordinates] in *.
    assert (length m = d) as Hlm by (apply Hinv).
    rewrite Hlm in Hc. pose proof (box_coordinates_matvec d m inv x p Hinv Hx Hc) as E.
    assert (length (matvec inv p) = d) as Hl by (apply (matvec_len d); apply Hinv).
    rewrite (box_contains_spec d) by assumption.
    assert (veq (matvec inv p) x) as Hx'.
    { apply veq_trans with (matvec inv (matvec m x)).
      - apply (veq_nth_lt _ _ d); auto. { apply (matvec_len d). apply Hinv. }
        intros i Hi. rewrite !nth_matvec. apply dot_veq. apply veq_sym. assumption.
      - apply (inverse_cancel d); auto. apply inverse_sym. assumption. }
    apply veq_nth in Hx'. destruct Hx' as [_ Hx']. unfold in_box. rewrite Hp.
    split; intros H i Hi; specialize (H i Hi); specialize (Hx' i); lra.
Qed.

Theorem C23_tolerance_monotone :
  forall d s size pos p tol tol', is_box d s size pos -> length p = d -> tol <= tol' ->
    shape_contains s p tol = true -> shape_contains s p tol' = true.
Proof.
  intros d s size pos p tol tol' [Hb [Hs Hp]] Hlp Ht.
  destruct s as [sz ps|sz ps m inv| | |]; try contradiction.
  - destruct Hb as [-> ->]. cbn [shape_contains]. rewrite !(box_contains_spec d) by assumption.
    intros H i Hi. specialize (H i Hi). lra.
  - destruct Hb as [-> [-> Hinv]]. cbn [shape_contains].
    rewrite !(box_contains_spec d) by (auto; apply (matvec_len d); apply Hinv).
    intros H i Hi. specialize (H i Hi). lra.
Qed.

Theorem C23_contained_within_limits :
  forall d s size pos p, is_box d s size pos -> length p = d -> shape_contains s p 0 = true ->
    length (shape_limits s) = d /\
    forall j lo hi, nth_error (shape_limits s) j = Some (lo, hi) -> lo <= nth j p 0 <= hi.
Proof.
  intros d s size pos p [Hb [Hs Hp]] Hlp Hc.
  destruct s as [sz ps|sz ps m inv| | |]; try contradiction.
  - destruct Hb as [-> ->]. cbn [shape_contains shape_limits] in *. split.
    { apply point_limits_length; [apply box_corners_nonempty|]. intros c0 Hc0. apply (corner_length d size pos c0); assumption. }
    intros j lo hi Hj. assert (j < d)%nat as Hjd.
    { apply nth_error_length_lt in Hj. rewrite (point_limits_length _ d) in Hj; auto;
        [apply box_corners_nonempty|]. intros c0 Hc0. apply (corner_length d size pos c0); assumption. }
    apply point_limits_spec in Hj. destruct Hj as [[_ Hlo] [_ Hhi]].
    assert (length (map (delta j) (seq 0 d)) = d) as Hw by (rewrite map_length, seq_length; reflexivity).
    destruct (corner_above d (map (delta j) (seq 0 d)) size pos p) as [c [Hin Hle]]; auto.
    destruct (corner_below d (map (delta j) (seq 0 d)) size pos p) as [c' [Hin' Hle']]; auto.
    rewrite !dot_unit in Hle, Hle' by (auto; apply (corner_length d size pos); auto).
    specialize (Hhi _ (in_map (fun q => nth j q 0) _ _ Hin)).
    specialize (Hlo _ (in_map (fun q => nth j q 0) _ _ Hin')). cbv beta in *. lra.
  - destruct Hb as [-> [-> Hinv]]. cbn [shape_contains shape_limits] in *.
    assert (map (matvec m) (box_corners size pos) <> []) as Hne.
    { intro E. apply map_eq_nil in E. revert E. apply box_corners_nonempty. }
    assert (forall q, In q (map (matvec m) (box_corners size pos)) -> length q = d) as Hlen.
    { intros q Hq. apply in_map_iff in Hq. destruct Hq as [c [<- _]]. apply (matvec_len d). apply Hinv. }
    split; [apply point_limits_length; auto|].
    intros j lo hi Hj. assert (j < d)%nat as Hjd.
    { apply nth_error_length_lt in Hj. rewrite (point_limits_length _ d) in Hj; auto. }
    apply point_limits_spec in Hj. destruct Hj as [[_ Hlo] [_ Hhi]].
    set (x := matvec inv p) in *. assert (length x = d) as Hx by (apply (matvec_len d); apply Hinv).
    assert (length (nth j m []) = d) as Hw by (apply (square_row d m j); auto; apply Hinv).
    destruct (corner_above d (nth j m []) size pos x) as [c [Hin Hle]]; auto.
    destruct (corner_below d (nth j m []) size pos x) as [c' [Hin' Hle']]; auto.
    assert (dot (nth j m []) x == nth j p 0) as Ex.
    { rewrite <- nth_matvec. apply veq_nth. unfold x. apply (inverse_cancel d); auto. }
    specialize (Hhi (nth j (matvec m c) 0)). specialize (Hlo (nth j (matvec m c') 0)).
    rewrite nth_matvec in Hhi, Hlo.
    assert (forall c0, In c0 (box_corners size pos) ->
              In (dot (nth j m []) c0) (map (fun q => nth j q 0) (map (matvec m) (box_corners size pos)))) as Hin2.
    { intros c0 H0. apply in_map_iff. exists (matvec m c0). split; [apply nth_matvec|]. apply in_map. assumption. }
    specialize (Hhi (Hin2 c Hin)). specialize (Hlo (Hin2 c' Hin')). lra.
Qed.

Theorem C23_limits_attained :
  forall d s size pos j lo hi, is_box d s size pos -> (forall i, (i < d)%nat -> 0 <= nth i size 0) ->
    nth_error (shape_limits s) j = Some (lo, hi) ->
    (exists p, length p = d /\ shape_contains s p 0 = true /\ nth j p 0 == lo) /\
    (exists p, length p = d /\ shape_contains s p 0 = true /\ nth j p 0 == hi).
Proof.
  intros d s size pos j lo hi [Hb [Hs Hp]] H0 Hj.
  destruct s as [sz ps|sz ps m inv| | |]; try contradiction.
  - destruct Hb as [-> ->]. cbn [shape_contains shape_limits] in *.
    apply point_limits_spec in Hj. destruct Hj as [[[x [Hx Ex]] _] [[y [Hy Ey]] _]].
    apply in_map_iff in Hx, Hy. destruct Hx as [c [<- Hc]]. destruct Hy as [c' [<- Hc']].
    split; [exists c|exists c'];
      (split; [apply (corner_length d size pos); assumption|split; [apply (corner_contained d); auto|assumption]]).
  - destruct Hb as [-> [-> Hinv]]. cbn [shape_contains shape_limits] in *.
    apply point_limits_spec in Hj. destruct Hj as [[[x [Hx Ex]] _] [[y [Hy Ey]] _]].
    apply in_map_iff in Hx, Hy. destruct Hx as [q [<- Hq]]. destruct Hy as [q' [<- Hq']].
    apply in_map_iff in Hq, Hq'. destruct Hq as [c [<- Hc]]. destruct Hq' as [c' [<- Hc']].
    assert (forall c0, In c0 (box_corners size pos) ->
      box_contains size pos (matvec inv (matvec m c0)) 0 = true) as Hcon.
    { intros c0 Hc0. assert (length c0 = d) by (apply (corner_length d size pos c0); assumption).
      pose proof (corner_contained d size pos c0 Hs Hp H0 Hc0) as Hcc.
      rewrite (box_contains_spec d) in Hcc |- * by (auto; apply (matvec_len d); apply Hinv).
      assert (veq (matvec inv (matvec m c0)) c0) as E
        by (apply (inverse_cancel d); auto; apply inverse_sym; assumption).
      apply veq_nth in E. destruct E as [_ E]. intros i Hi. specialize (Hcc i Hi). specialize (E i). lra. }
    split; [exists (matvec m c)|exists (matvec m c')];
      (split; [apply (matvec_len d); apply Hinv|split; [apply Hcon; assumption|assumption]]).
Qed.

(** A box in the basis (1, 0), (1/2, 1). *)
Definition skew_box : shape := SBoxBasis [2; 1] [0; 0] [[1; 1#2]; [0; 1]] [[1; -1#2]; [0; 1]].

Example C23_example :
  is_box 2 skew_box [2; 1] [0; 0] /\ box_coordinates skew_box [1; 1] [3#2; 1] /\
  shape_contains skew_box [3#2; 1] 0 = true /\ shape_contains skew_box [1#4; 1] 0 = false /\
  shape_contains skew_box [1#4; 1] (1#4) = true /\
  Forall2 (fun a b => fst a == fst b /\ snd a == snd b) (shape_limits skew_box) [(0, 5#2); (0, 1)].
Proof.
  split; [|split; [|split; [|split; [|split]]]].
  - split; [|split; reflexivity]. split; [reflexivity|]. split; [reflexivity|]. exact skew_valid.
  - split; [reflexivity|]. intros i Hi. destruct i as [|[|i]]; [reflexivity|reflexivity|]. simpl in Hi. lia.
  - reflexivity.
  - reflexivity.
  - reflexivity.
  - repeat constructor.
Qed.

(** ** C24 *)

Theorem C24_circle_contains :
  forall pos r p tol, length p = length pos ->
    (shape_contains (SCircle pos r) p tol = true <->
     0 <= r + tol /\ sqdist p pos <= (r + tol) * (r + tol)).
Proof.
  intros pos r p tol Hl. cbn [shape_contains]. rewrite sqrt_leb_spec, sqdist_dist2 by assumption. reflexivity.
Qed.

Theorem C24_donut_contains :
  forall pos ro ri p tol, length p = length pos ->
    (shape_contains (SDonut pos ro ri) p tol = true <->
     (ri - tol <= 0 \/ (ri - tol) * (ri - tol) <= sqdist p pos) /\
     (0 <= ro + tol /\ sqdist p pos <= (ro + tol) * (ro + tol))).
Proof.
  intros pos ro ri p tol Hl. cbn [shape_contains].
  rewrite andb_true_iff, leb_sqrt_spec, sqrt_leb_spec, sqdist_dist2 by assumption. reflexivity.
Qed.

(** The same with the Euclidean distance as a real number. *)
Lemma Q2R_nonneg q : 0 <= q -> (0 <= Q2R q)%R.
Proof. intro H. apply Qle_Rle in H. replace 0%R with (Q2R 0) by (unfold Q2R; simpl; Lra.lra). assumption. Qed.

Lemma sqrt_leb_real q t : 0 <= q -> (0 <= t /\ q <= t * t <-> (sqrt (Q2R q) <= Q2R t)%R).
Proof.
  intro Hq. pose proof (Q2R_nonneg q Hq) as Hq'. split.
  - intros [Ht H]. apply Q2R_nonneg in Ht. apply Qle_Rle in H. rewrite Q2R_mult in H.
    rewrite <- (sqrt_square (Q2R t)) by assumption. apply sqrt_le_1; Lra.nra.
  - intro H. pose proof (sqrt_pos (Q2R q)) as Hp. split.
    + apply Rle_Qle. replace (Q2R 0) with 0%R by (unfold Q2R; simpl; Lra.lra). Lra.lra.
    + apply Rle_Qle. rewrite Q2R_mult. rewrite <- (sqrt_sqrt (Q2R q)) by assumption. Lra.nra.
Qed.

Lemma leb_sqrt_real q t : 0 <= q -> (t <= 0 \/ t * t <= q <-> (Q2R t <= sqrt (Q2R q))%R).
Proof.
  intro Hq. pose proof (Q2R_nonneg q Hq) as Hq'. pose proof (sqrt_pos (Q2R q)) as Hp. split.
  - intros [Ht|H].
    + apply Qle_Rle in Ht. replace (Q2R 0) with 0%R in Ht by (unfold Q2R; simpl; Lra.lra). Lra.lra.
    + apply Qle_Rle in H. rewrite Q2R_mult in H. destruct (Rle_dec (Q2R t) 0) as [Hn|Hn]; [Lra.lra|].
      rewrite <- (sqrt_square (Q2R t)) by Lra.lra. apply sqrt_le_1; Lra.nra.
  - intro H. destruct (Qlt_le_dec 0 t) as [Ht|Ht]; [right|left; assumption].
    apply Rle_Qle. rewrite Q2R_mult. apply Qlt_Rlt in Ht.
    replace (Q2R 0) with 0%R in Ht by (unfold Q2R; simpl; Lra.lra).
    rewrite <- (sqrt_sqrt (Q2R q)) by assumption. Lra.nra.
Qed.

Theorem C24_contains_by_distance :
  forall pos r ro ri p tol, length p = length pos ->
    let distance := sqrt (Q2R (sqdist p pos)) in
    (shape_contains (SCircle pos r) p tol = true <-> (distance <= Q2R r + Q2R tol)%R) /\
    (shape_contains (SDonut pos ro ri) p tol = true <->
     (Q2R ri - Q2R tol <= distance <= Q2R ro + Q2R tol)%R).
Proof.
  intros pos r ro ri p tol Hl distance. unfold distance. pose proof (sqdist_nonneg p pos) as H0.
  rewrite <- !Q2R_plus, <- Q2R_minus. split.
  - rewrite C24_circle_contains by assumption. apply sqrt_leb_real. assumption.
  - rewrite C24_donut_contains by assumption. rewrite sqrt_leb_real, leb_sqrt_real by assumption. reflexivity.
Qed.

Theorem C24_contained_within_limits :
  forall s pos p, (exists r, s = SCircle pos r) \/ (exists ro ri, s = SDonut pos ro ri) ->
    length p = length pos -> shape_contains s p 0 = true ->
    length (shape_limits s) = length pos /\
    forall j lo hi, nth_error (shape_limits s) j = Some (lo, hi) -> lo <= nth j p 0 <= hi.
Proof.
  intros s pos p Hs Hl Hc.
  assert (exists r, shape_limits s = map (fun x => (x + - r, x + r)) pos /\ 0 <= r /\ sqdist p pos <= r * r)
    as [r [-> [Hr Hd]]].
  { destruct Hs as [[r ->]|[ro [ri ->]]].
    - exists r. split; [reflexivity|]. apply C24_circle_contains in Hc; auto. destruct Hc as [H1 H2].
      split; [lra|]. setoid_replace (r * r) with ((r + 0) * (r + 0)) by ring. assumption.
    - exists ro. split; [reflexivity|]. apply C24_donut_contains in Hc; auto. destruct Hc as [_ [H1 H2]].
      split; [lra|]. setoid_replace (ro * ro) with ((ro + 0) * (ro + 0)) by ring. assumption. }
  split; [apply map_length|]. intros j lo hi Hj. pose proof (nth_error_length_lt _ _ _ Hj) as Hlt.
  rewrite map_length in Hlt. rewrite nth_error_map' in Hj.
  destruct (nth_error pos j) as [x|] eqn:E; [|discriminate]. cbn [option_map] in Hj.
  assert (lo = x + - r /\ hi = x + r) as [-> ->] by (split; congruence).
  pose proof (coordinate_near p pos r j Hl Hr Hd ltac:(lia)) as H.
  rewrite (nth_of_nth_error pos j 0 x E) in H. lra.
Qed.

Theorem C24_limits_attained :
  forall s pos j lo hi, (exists r, 0 <= r /\ s = SCircle pos r) \/ (exists ro ri, 0 <= ri <= ro /\ s = SDonut pos ro ri) ->
    nth_error (shape_limits s) j = Some (lo, hi) ->
    (exists p, length p = length pos /\ shape_contains s p 0 = true /\ nth j p 0 == lo) /\
    (exists p, length p = length pos /\ shape_contains s p 0 = true /\ nth j p 0 == hi).
Proof.
  intros s pos j lo hi Hs Hj.
  assert (exists r, 0 <= r /\ shape_limits s = map (fun x => (x + - r, x + r)) pos /\
            forall p, length p = length pos -> sqdist p pos == r * r -> shape_contains s p 0 = true)
    as [r [Hr [E Hc]]].
  { destruct Hs as [[r [Hr ->]]|[ro [ri [Hr ->]]]].
    - exists r. split; auto. split; [reflexivity|]. intros p Hl Hd. apply C24_circle_contains; auto.
      split; [lra|]. rewrite Hd. apply Qle_lteq. right. ring.
    - exists ro. split; [lra|]. split; [reflexivity|]. intros p Hl Hd. apply C24_donut_contains; auto.
      rewrite Hd. split; [right; nra|]. split; [lra|]. apply Qle_lteq. right. ring. }
  rewrite E in Hj. pose proof (nth_error_length_lt _ _ _ Hj) as Hlt. rewrite map_length in Hlt.
  rewrite nth_error_map' in Hj. destruct (nth_error pos j) as [x|] eqn:Ex; [|discriminate]. cbn [option_map] in Hj.
  assert (lo = x + - r /\ hi = x + r) as [-> ->] by (split; congruence).
  assert (forall t, t * t == r * r -> shape_contains s (moved pos j t) 0 = true) as Hm.
  { intros t Ht. apply Hc; [apply moved_length|]. rewrite sqdist_moved by assumption. assumption. }
  split; [exists (moved pos j (- r))|exists (moved pos j r)];
    (split; [apply moved_length|split; [apply Hm; ring|]]);
    rewrite nth_moved by assumption; unfold delta; rewrite Nat.eqb_refl, (nth_of_nth_error pos j 0 x Ex); ring.
Qed.

Theorem C24_donut_without_hole_is_circle :
  forall pos r ri p tol, ri <= tol ->
    shape_contains (SDonut pos r ri) p tol = shape_contains (SCircle pos r) p tol /\
    shape_limits (SDonut pos r ri) = shape_limits (SCircle pos r).
Proof.
  intros pos r ri p tol H. split; [|reflexivity]. cbn [shape_contains].
  assert (leb_sqrt (ri - tol) (dist2 p pos) = true) as -> by (apply leb_sqrt_spec; left; lra). reflexivity.
Qed.

Example C24_example :
  shape_contains (SCircle [0; 0] 5) [3; 4] 0 = true /\ shape_contains (SCircle [0; 0] 5) [4; 4] 0 = false /\
  shape_contains (SDonut [0; 0] 5 2) [1; 1] 0 = false /\ shape_contains (SDonut [0; 0] 5 2) [1; 1] 1 = true /\
  (exists ro ri, 0 <= ri <= ro /\ SDonut [0; 0] 5 2 = SDonut [0; 0] ro ri) /\ 0 <= 0.
Proof.
  repeat split; try reflexivity. exists 5, 2. split; [lra|reflexivity]. discriminate.
Qed.

Print Assumptions C23_box_contains.
Print Assumptions C23_tolerance_monotone.
Print Assumptions C23_contained_within_limits.
Print Assumptions C23_limits_attained.
Print Assumptions C24_circle_contains.
Print Assumptions C24_donut_contains.
Print Assumptions C24_contains_by_distance.
Print Assumptions C24_contained_within_limits.
Print Assumptions C24_limits_attained.
Print Assumptions C24_donut_without_hole_is_circle.
