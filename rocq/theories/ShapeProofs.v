(** * Shapes: supporting lemmas *)
From Coq Require Import List ZArith QArith Qround Qabs Qminmax Bool Arith Lia Lqa Setoid Morphisms.
From Verif Require Import Np NpFacts LinAlg LinFacts SpatialModel ShapeModel SpecBasis SpecSpatial
  BasisProofs NeighborCellProofs SpatialProofs KDProofs.
Import ListNotations.
Open Scope Q_scope.

Lemma vleb_spec u v :
  length u = length v ->
  (vleb u v = true <-> forall i, (i < length u)%nat -> nth i u 0 <= nth i v 0).
Proof.
  revert v. induction u as [|x u IH]; intros [|y v] Hl; simpl in Hl; try discriminate.
  - split; [intros _ i Hi; simpl in Hi; lia|reflexivity].
  - cbn [vleb]. rewrite andb_true_iff, IH, Qle_bool_iff by lia. split.
    + intros [H1 H2] [|i] Hi; [exact H1|]. simpl. apply H2. simpl in Hi. lia.
    + intro H. split; [apply (H 0%nat); simpl; lia|]. intros i Hi. apply (H (S i)). simpl. lia.
Qed.

Lemma nth_shift (f : Q -> Q) l i : (i < length l)%nat -> nth i (map f l) 0 = f (nth i l 0).
Proof. intro H. apply nth_map_lt. assumption. Qed.

Lemma box_contains_spec d size pos p tol :
  length size = d -> length pos = d -> length p = d ->
  (box_contains size pos p tol = true <->
   forall i, (i < d)%nat -> nth i pos 0 - tol <= nth i p 0 <= nth i pos 0 + nth i size 0 + tol).
Proof.
  intros Hs Hp Hl. unfold box_contains. rewrite andb_true_iff.
  rewrite !vleb_spec by (rewrite ?map_length, ?vadd_length; lia). rewrite map_length, Hp, Hl.
  split.
  - intros [H1 H2] i Hi. specialize (H1 i Hi). specialize (H2 i Hi).
    rewrite nth_shift in H1 by lia. rewrite nth_shift in H2 by (rewrite vadd_length; lia).
    rewrite nth_vadd in H2 by lia. split; assumption.
  - intro H. split; intros i Hi; specialize (H i Hi).
    + rewrite nth_shift by lia. apply H.
    + rewrite nth_shift by (rewrite vadd_length; lia). rewrite nth_vadd by lia. apply H.
Qed.

(** Corners. *)
Lemma In_box_corners size pos c :
  In c (box_corners size pos) <->
  exists o, c = vadd pos o /\ Forall2 (fun x s => x = 0 \/ x = s) o size.
Proof.
  unfold box_corners. rewrite in_map_iff. split.
  - intros [o [<- Ho]]. exists o. split; auto. apply In_product in Ho.
    remember (map (fun s => [0; s]) size) as ls. revert size Heqls.
    induction Ho as [|x l o ls Hx Ho IH]; intros [|s size] E; simpl in E; try discriminate; constructor.
    + injection E as -> _. simpl in Hx. intuition auto.
    + injection E as _ E. apply IH. assumption.
  - intros [o [-> Ho]]. exists o. split; auto. apply In_product.
    induction Ho as [|x s o size Hx Ho IH]; simpl; constructor; auto. simpl. intuition auto.
Qed.

Lemma corner_length d size pos c :
  length size = d -> length pos = d -> In c (box_corners size pos) -> length c = d.
Proof.
  intros Hs Hp Hc. apply In_box_corners in Hc. destruct Hc as [o [-> Ho]].
  apply Forall2_len in Ho. rewrite vadd_length; lia.
Qed.

Lemma corner_contained d size pos c :
  length size = d -> length pos = d -> (forall i, (i < d)%nat -> 0 <= nth i size 0) ->
  In c (box_corners size pos) -> box_contains size pos c 0 = true.
Proof.
  intros Hs Hp H0 Hc. apply (box_contains_spec d); auto; [apply (corner_length d size pos); auto|].
  apply In_box_corners in Hc. destruct Hc as [o [-> Ho]]. pose proof (Forall2_len Ho) as Hl.
  intros i Hi. rewrite nth_vadd by lia. specialize (H0 i Hi).
  assert (nth i o 0 = 0 \/ nth i o 0 = nth i size 0) as [E|E].
  { clear - Ho Hi Hs. revert d size i Hs Hi Ho. induction o as [|x o IH]; intros d size i Hs Hi Ho; inversion Ho; subst.
    - simpl in Hi. lia.
    - destruct i as [|i]; simpl; [assumption|]. apply (IH (length l') l'); auto. simpl in Hi. lia. }
  - rewrite E. lra.
  - rewrite E. lra.
Qed.

(** Some corner maximises a linear function. *)
Lemma corner_above d w size pos x :
  length w = d -> length size = d -> length pos = d -> length x = d ->
  box_contains size pos x 0 = true ->
  exists c, In c (box_corners size pos) /\ dot w x <= dot w c.
Proof.
  intros Hw Hs Hp Hx Hc. pose proof Hc as Hc'. rewrite (box_contains_spec d) in Hc by auto.
  exists (vadd pos (map2 (fun a s => if Qle_bool 0 a then s else 0) w size)). split.
  - apply In_box_corners. eexists. split; [reflexivity|]. clear - Hw Hs.
    revert w size Hw Hs. induction d as [|d IH]; intros [|a w] [|s size] Hw Hs; simpl in *; try lia; constructor.
    + destruct (Qle_bool 0 a); auto.
    + apply IH; lia.
  - assert (length (map2 (fun a s => if Qle_bool 0 a then s else 0) w size) = d) as Hm by (rewrite map2_length; lia).
    rewrite (dot_sum d w x), (dot_sum d w (vadd pos _)) by (auto; rewrite vadd_length; lia).
    assert (forall n f g, (forall i, (i < n)%nat -> f i <= g i) -> sum_upto n f <= sum_upto n g) as Hsum.
    { induction n as [|n IH]; intros f g H; cbn [sum_upto]; [lra|].
      specialize (IH f g ltac:(intros; apply H; lia)). specialize (H n ltac:(lia)). lra. }
    apply Hsum. intros i Hi. rewrite nth_vadd by lia.
    rewrite (nth_map2 _ _ _ _ 0 0 0) by lia. specialize (Hc i Hi).
    destruct (Qle_bool 0 (nth i w 0)) eqn:E.
    + apply Qle_bool_iff in E. nra.
    + apply Qle_bool_false_iff in E. nra.
Qed.

Lemma corner_below d w size pos x :
  length w = d -> length size = d -> length pos = d -> length x = d ->
  box_contains size pos x 0 = true ->
  exists c, In c (box_corners size pos) /\ dot w c <= dot w x.
Proof.
  intros Hw Hs Hp Hx Hc.
  destruct (corner_above d (vscale (-1) w) size pos x) as [c [Hin Hle]]; auto.
  { unfold vscale. rewrite map_length. assumption. }
  exists c. split; auto.
  rewrite (dot_comm (vscale (-1) w) x), (dot_comm (vscale (-1) w) c), !dot_vscale_r in Hle.
  rewrite (dot_comm x w), (dot_comm c w) in Hle. lra.
Qed.

(** Limits of a list of points. *)
Lemma point_limits_spec points j lo hi :
  nth_error (point_limits points) j = Some (lo, hi) ->
  is_min (map (fun p => nth j p 0) points) lo /\ is_max (map (fun p => nth j p 0) points) hi.
Proof.
  destruct points as [|p0 rest]; [destruct j; discriminate|]. unfold point_limits.
  rewrite nth_error_map', nth_error_seq. destruct (j <? length p0)%nat eqn:E; [|discriminate].
  cbn [option_map]. rewrite Nat.add_0_l. intro H. cbv zeta in H.
  assert (lo = qmin_list (nth j p0 0) (map (fun p => nth j p 0) rest) /\
          hi = qmax_list (nth j p0 0) (map (fun p => nth j p 0) rest)) as [-> ->]
    by (split; congruence).
  split; [apply qmin_list_is_min|apply qmax_list_is_max].
Qed.

Lemma point_limits_length points d :
  points <> [] -> (forall p, In p points -> length p = d) -> length (point_limits points) = d.
Proof.
  intros Hne H. destruct points as [|p0 rest]; [congruence|]. unfold point_limits.
  rewrite map_length, seq_length. apply H. simpl. auto.
Qed.

Lemma box_corners_nonempty size pos : box_corners size pos <> [].
Proof.
  intro E. assert (In (vadd pos (map (fun _ => 0) size)) (box_corners size pos)) as H.
  { apply In_box_corners. exists (map (fun _ => 0) size). split; [reflexivity|]. clear.
    induction size; simpl; constructor; auto. }
  rewrite E in H. destruct H.
Qed.

Lemma dot_unit d j x : (j < d)%nat -> length x = d -> dot (map (delta j) (seq 0 d)) x == nth j x 0.
Proof.
  intros Hj Hx. rewrite (dot_sum d) by (auto; rewrite map_length, seq_length; auto).
  rewrite <- (sum_delta d j (fun k => nth k x 0) Hj). apply sum_ext. intros k Hk.
  rewrite nth_map_seq by assumption. reflexivity.
Qed.

Lemma dot_veq w u v : veq u v -> dot w u == dot w v.
Proof.
  intro H. revert w. induction H as [|a b u v Hab H IH]; intros [|x w]; try reflexivity.
  rewrite !dot_cons, IH, Hab. reflexivity.
Qed.

(** Squares and roots. *)
Lemma sqrt_leb_spec q t : sqrt_leb q t = true <-> 0 <= t /\ q <= t * t.
Proof. unfold sqrt_leb. rewrite andb_true_iff, !Qle_bool_iff. reflexivity. Qed.

Lemma leb_sqrt_spec t q : leb_sqrt t q = true <-> t <= 0 \/ t * t <= q.
Proof. unfold leb_sqrt. rewrite orb_true_iff, !Qle_bool_iff. reflexivity. Qed.

Lemma square_le_abs a b : 0 <= b -> a * a <= b * b -> - b <= a <= b.
Proof. intros Hb H. split; nra. Qed.

Lemma sum_upto_ge n f i : (forall k, (k < n)%nat -> 0 <= f k) -> (i < n)%nat -> f i <= sum_upto n f.
Proof.
  induction n as [|n IH]; intros H Hi; [lia|]. cbn [sum_upto].
  assert (0 <= sum_upto n f) by (apply sum_nonneg; intros; apply H; lia).
  destruct (Nat.eq_dec i n) as [->|Hn]; [lra|].
  specialize (IH ltac:(intros; apply H; lia) ltac:(lia)). pose proof (H n ltac:(lia)). lra.
Qed.

Lemma coordinate_near p pos r i :
  length p = length pos -> 0 <= r -> sqdist p pos <= r * r -> (i < length p)%nat ->
  nth i pos 0 - r <= nth i p 0 <= nth i pos 0 + r.
Proof.
  intros Hl Hr H Hi. unfold sqdist in H.
  pose proof (sum_upto_ge (length p) (fun i => (nth i p 0 - nth i pos 0) * (nth i p 0 - nth i pos 0)) i
                (fun k _ => square_nonneg _) Hi) as Hs. cbv beta in Hs.
  destruct (square_le_abs (nth i p 0 - nth i pos 0) r Hr ltac:(lra)). lra.
Qed.

(** The point [pos] moved by [t] along axis [j]. *)
Definition moved (pos : list Q) (j : nat) (t : Q) : list Q := set_nth j (nth j pos 0 + t) pos.

Lemma moved_length pos j t : length (moved pos j t) = length pos.
Proof. apply set_nth_length. Qed.

Lemma nth_moved pos j t i :
  (j < length pos)%nat -> nth i (moved pos j t) 0 == nth i pos 0 + delta j i * t.
Proof.
  intro Hj. unfold moved. rewrite (nth_nth_error (set_nth _ _ _)), nth_error_set_nth. unfold delta.
  destruct (Nat.eqb_spec j i) as [->|Hne].
  - rewrite Nat.eqb_refl. rewrite (proj2 (Nat.ltb_lt _ _)) by assumption. simpl. ring.
  - destruct (Nat.eqb_spec i j); [congruence|]. simpl. rewrite <- nth_nth_error. ring.
Qed.

Lemma sqdist_moved pos j t : (j < length pos)%nat -> sqdist (moved pos j t) pos == t * t.
Proof.
  intro Hj. unfold sqdist. rewrite moved_length.
  rewrite <- (sum_delta (length pos) j (fun _ => t * t) Hj). apply sum_ext. intros i Hi.
  rewrite nth_moved by assumption. unfold delta. destruct (j =? i)%nat; ring.
Qed.
