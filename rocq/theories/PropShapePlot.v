(** * Property C102 (lattpy/shape.py: plots of shapes) *)
From Coq Require Import List ZArith QArith Bool Arith Lia Lqa.
From Verif Require Import Np NpFacts LinAlg LinFacts TranslationFacts BasisModel SpatialModel ShapeModel SpecUtils SpecBasis SpecSpatial SpecVoronoi
  BasisProofs SpatialProofs KDProofs ShapeProofs StructureFacts PropHull PropFrame DispPlotModel ShapePlotModel.
Import ListNotations.
Open Scope nat_scope.
Open Scope list_scope.

(** ** Specification *)

(** A line covers the mixtures of two consecutive points, a filled (flat, convex) polygon the mixtures of its corners. *)
Definition line_covers (d : nat) (l : list (list Q)) (x : list Q) : Prop :=
  exists k u v, nth_error l k = Some u /\ nth_error l (S k) = Some v /\ mixture d [u; v] x.
Definition lines_cover (d : nat) (o : outline) (x : list Q) : Prop := exists l, In l (ol_lines o) /\ line_covers d l x.
Definition faces_cover (d : nat) (o : outline) (x : list Q) : Prop := exists l, In l (ol_faces o) /\ mixture d l x.

(** [y] is in the box; on a side of it; on an edge, where at most one coordinate is not that of a side. *)
Definition in_box (size pos y : list Q) : Prop := forall i, i < length pos -> (nth i pos 0 <= nth i y 0 <= nth i pos 0 + nth i size 0)%Q.
Definition on_sides (size pos y : list Q) : Prop := in_box size pos y /\ exists i upper, i < length pos /\ on_side size pos i upper y.
Definition on_frame (size pos y : list Q) : Prop :=
  in_box size pos y /\ exists i, i < length pos /\ forall j, j < length pos -> j <> i -> exists upper, on_side size pos j upper y.

(** The point with the coordinates [y] in the basis of the box. *)
Definition placed (d : nat) (m : option (list (list Q))) (y x : list Q) : Prop :=
  match m with
  | None => forall i, i < d -> (nth i x 0 == nth i y 0)%Q
  | Some m => forall i, i < d -> (nth i x 0 == sum_upto d (fun j => entry m i j * nth j y 0))%Q
  end.

(** ** Mixtures *)

Lemma mixture_pair d u v x : mixture d [u; v] x <-> exists t, (0 <= t <= 1)%Q /\ forall i, i < d -> (nth i x 0 == nth i u 0 + t * (nth i v 0 - nth i u 0))%Q.
Proof.
  unfold mixture. cbn [length sum_upto nth]. split.
  - intros [w [Hw [H1 Hx]]]. pose proof (Hw 0 ltac:(lia)). pose proof (Hw 1 ltac:(lia)). exists (w 1). split; [lra|].
    intros i Hi. rewrite (Hx i Hi). assert (w 0%nat == 1 - w 1%nat)%Q as -> by lra. ring.
  - intros [t [Ht Hx]]. exists (fun k => if k =? 0 then (1 - t)%Q else t). cbn [Nat.eqb]. split; [intros [|k] _; cbn; lra|]. split; [lra|].
    intros i Hi. rewrite (Hx i Hi). ring.
Qed.

Lemma mixture_swap d u v x : mixture d [u; v] x -> mixture d [v; u] x.
Proof.
  intro Hm. apply mixture_pair in Hm. destruct Hm as [t [Ht Hx]]. apply mixture_pair. exists (1 - t)%Q. split; [lra|]. intros i Hi. rewrite (Hx i Hi). ring.
Qed.

Lemma mixture_stay d u v x : mixture d [u; u] x -> mixture d [u; v] x.
Proof.
  intro Hm. apply mixture_pair in Hm. destruct Hm as [t [Ht Hx]]. apply mixture_pair. exists 0%Q. split; [lra|]. intros i Hi. rewrite (Hx i Hi). ring.
Qed.

(** A parallelogram. *)
Definition quad (d : nat) (A B D x : list Q) : Prop :=
  exists s t, (0 <= s <= 1)%Q /\ (0 <= t <= 1)%Q /\
    forall i, i < d -> (nth i x 0 == nth i A 0 + s * (nth i B 0 - nth i A 0) + t * (nth i D 0 - nth i A 0))%Q.

Lemma mixture_quad d A B C D x : (forall i, i < d -> (nth i A 0 + nth i C 0 == nth i B 0 + nth i D 0)%Q) ->
  (mixture d [A; B; C; D] x <-> quad d A B D x).
Proof.
  intro HC. unfold mixture, quad. cbn [length sum_upto nth]. split.
  - intros [w [Hw [H1 Hx]]]. pose proof (Hw 0 ltac:(lia)). pose proof (Hw 1 ltac:(lia)). pose proof (Hw 2 ltac:(lia)). pose proof (Hw 3 ltac:(lia)).
    exists (w 1%nat + w 2%nat)%Q, (w 2%nat + w 3%nat)%Q. split; [lra|]. split; [lra|]. intros i Hi. rewrite (Hx i Hi). specialize (HC i Hi).
    assert (nth i C 0 == nth i B 0 + nth i D 0 - nth i A 0)%Q as -> by lra. assert (w 0%nat == 1 - w 1%nat - w 2%nat - w 3%nat)%Q as -> by lra. ring.
  - intros [s [t [Hs [Ht Hx]]]].
    exists (fun k => match k with 0%nat => (1 - s) * (1 - t) | 1%nat => s * (1 - t) | 2%nat => s * t | _ => (1 - s) * t end)%Q.
    split; [intros [|[|[|k]]] _; nra|]. split; [ring|]. intros i Hi. rewrite (Hx i Hi). specialize (HC i Hi).
    assert (nth i C 0 == nth i B 0 + nth i D 0 - nth i A 0)%Q as -> by lra. ring.
Qed.

Lemma mixture_closed d A B C D x : mixture d [A; B; C; D; A] x <-> mixture d [A; B; C; D] x.
Proof.
  unfold mixture. cbn [length sum_upto nth]. split; intros [w [Hw [H1 Hx]]].
  - pose proof (Hw 0 ltac:(lia)). pose proof (Hw 4 ltac:(lia)).
    exists (fun k => if k =? 0 then (w 0%nat + w 4%nat)%Q else w k). cbn [Nat.eqb]. split; [intros [|k] Hk; cbn; [lra|apply Hw; lia]|]. split; [lra|].
    intros i Hi. rewrite (Hx i Hi). ring.
  - exists (fun k => if k =? 4 then 0%Q else w k). cbn [Nat.eqb]. split; [intros k Hk; destruct (k =? 4) eqn:E; [lra|apply Nat.eqb_neq in E; apply Hw; lia]|]. split; [lra|].
    intros i Hi. rewrite (Hx i Hi). ring.
Qed.

Lemma mixture_map d P m x : square d m -> (forall p, In p P -> length p = d) ->
  (mixture d (map (matvec m) P) x <-> exists y, length y = d /\ mixture d P y /\ forall i, i < d -> (nth i x 0 == sum_upto d (fun j => entry m i j * nth j y 0))%Q).
Proof.
  intros [Lm Hm] HP. unfold mixture. rewrite map_length.
  assert (forall w i, i < d -> (sum_upto (length P) (fun k => w k * nth i (nth k (map (matvec m) P) []) 0) ==
            sum_upto d (fun j => entry m i j * sum_upto (length P) (fun k => w k * nth j (nth k P []) 0)))%Q) as H.
  { intros w i Hi. rewrite (sum_ext d _ (fun j => sum_upto (length P) (fun k => w k * (entry m i j * nth j (nth k P []) 0)))%Q).
    - rewrite sum_swap. apply sum_ext. intros k Hk.
      assert (nth i (nth k (map (matvec m) P) []) 0%Q == sum_upto d (fun j => entry m i j * nth j (nth k P []) 0))%Q as E.
      { transitivity (nth i (matvec m (nth k P [])) 0%Q).
        - assert (nth i (nth k (map (matvec m) P) []) 0%Q = nth i (matvec m (nth k P [])) 0%Q) as ->; [|reflexivity].
          f_equal. exact (nth_map_in (matvec m) P k [] [] Hk).
        - apply nth_matvec_sum; [split; auto|apply HP; apply nth_In; exact Hk|exact Hi]. }
      rewrite E, <- sum_scale. reflexivity.
    - intros j _. rewrite <- sum_scale. apply sum_ext. intros. ring. }
  split.
  - intros [w [Hw [H1 Hx]]]. exists (map (fun i => sum_upto (length P) (fun k => w k * nth i (nth k P []) 0)%Q) (seq 0 d)).
    split; [rewrite map_length, seq_length; reflexivity|].
    assert (forall i, i < d -> nth i (map (fun i => sum_upto (length P) (fun k => w k * nth i (nth k P []) 0)%Q) (seq 0 d)) 0%Q = sum_upto (length P) (fun k => w k * nth i (nth k P []) 0)%Q) as Hy.
    { intros i Hi. rewrite (nth_map_in _ _ _ 0) by (rewrite seq_length; exact Hi). rewrite seq_nth by exact Hi. reflexivity. }
    split.
    + exists w. split; auto. split; auto. intros i Hi. rewrite Hy by exact Hi. reflexivity.
    + intros i Hi. rewrite (Hx i Hi), (H w i Hi). apply sum_ext. intros j Hj. rewrite Hy by exact Hj. reflexivity.
  - intros [y [_ [[w [Hw [H1 Hy]]] Hx]]]. exists w. split; auto. split; auto. intros i Hi. rewrite (Hx i Hi), (H w i Hi). apply sum_ext. intros j Hj. rewrite (Hy j Hj). reflexivity.
Qed.

(** ** Boxes *)

Lemma box_lines size pos E y : length size = length pos -> (forall s, In s size -> (0 < s)%Q) ->
  length pos = 2 \/ length pos = 3 -> box_edges (length pos) = Some E ->
  ((exists a b, In (a, b) E /\ mixture (length pos) [nth a (box_corners size pos) []; nth b (box_corners size pos) []] y) <-> on_frame size pos y).
Proof.
  intros Hl Hs Hd HE. set (d := length pos) in *. set (C := box_corners size pos).
  destruct (C84_corners size pos Hl Hs) as [LC [HC Hex]]. fold d in LC, HC, Hex. fold C in LC, HC, Hex.
  destruct (C84_edges size pos Hl Hs) as [_ H]. fold d in H. destruct (H Hd) as [E' [HE' [Hr [Hj [_ _]]]]]. fold C in Hj. rewrite HE in HE'. injection HE' as <-. clear H.
  assert (forall i, i < d -> (0 < nth i size 0)%Q) as Hpos by (intros i Hi; apply Hs; apply nth_In; unfold d in *; lia).
  split.
  - intros [a [b [Hab Hm]]]. destruct (Hr a b Hab) as [Ha Hb]. apply mixture_pair in Hm. destruct Hm as [t [Ht Hy]].
    assert (joined size (nth a C []) (nth b C [])) as [i [Hi [Hdiff Hsame]]] by (apply Hj; auto). replace (length size) with d in * by (unfold d; lia).
    assert (forall c, c < 2 ^ d -> forall i, i < d -> exists upper, on_side size pos i upper (nth c C [])) as Hc.
    { intros c Hc. apply HC. apply nth_In. rewrite LC. exact Hc. }
    split.
    + intros j Hj'. fold d in Hj'. specialize (Hpos j Hj'). rewrite (Hy j Hj'). destruct (Hc a Ha j Hj') as [ua Ua]. destruct (Hc b Hb j Hj') as [ub Ub].
      unfold on_side in Ua, Ub. rewrite Ua, Ub. destruct ua, ub; nra.
    + exists i. split; auto. intros j Hj' Hne. fold d in Hj'. destruct (Hc a Ha j Hj') as [u Hu]. exists u. unfold on_side in *.
      rewrite (Hy j Hj'), <- (Hsame j Hj' Hne), Hu. ring.
  - intros [Hin [i [Hi Hside]]]. fold d in Hi, Hside. unfold in_box in Hin. fold d in Hin.
    set (f := fun j => if j =? i then false else Qle_bool (nth j pos 0 + nth j size 0)%Q (nth j y 0%Q)).
    set (g := fun j => if j =? i then true else Qle_bool (nth j pos 0 + nth j size 0)%Q (nth j y 0%Q)).
    destruct (Hex f) as [a [[Ha Hfa] _]]. destruct (Hex g) as [b [[Hb Hgb] _]].
    assert (forall j, j < d -> j <> i -> (nth j y 0 == nth j (nth a C []) 0)%Q /\ (nth j y 0 == nth j (nth b C []) 0)%Q) as Hother.
    { intros j Hj' Hne. pose proof (Hfa j Hj') as F. pose proof (Hgb j Hj') as G. unfold on_side, f, g in F, G. rewrite (proj2 (Nat.eqb_neq j i) Hne) in F, G.
      destruct (Hside j Hj' Hne) as [u Hu]. unfold on_side in Hu. specialize (Hpos j Hj').
      destruct (Qle_bool (nth j pos 0 + nth j size 0)%Q (nth j y 0%Q)) eqn:El.
      - apply Qle_bool_iff in El. destruct u; [|exfalso; lra]. split; lra.
      - destruct u; [|split; lra]. exfalso. assert (Qle_bool (nth j pos 0 + nth j size 0)%Q (nth j y 0%Q) = true) by (apply Qle_bool_iff; lra). congruence. }
    pose proof (Hfa i Hi) as Fi. pose proof (Hgb i Hi) as Gi. unfold on_side, f, g in Fi, Gi. rewrite Nat.eqb_refl in Fi, Gi.
    assert (mixture d [nth a C []; nth b C []] y) as Hm.
    { apply mixture_pair. exists ((nth i y 0 - nth i pos 0) / nth i size 0)%Q. specialize (Hpos i Hi). pose proof (Hin i Hi) as [Hlo Hhi]. split.
      - split; [apply Qle_shift_div_l; lra|apply Qle_shift_div_r; lra].
      - intros j Hj'. destruct (Nat.eq_dec j i) as [->|Hne].
        + rewrite Fi, Gi. field. lra.
        + destruct (Hother j Hj' Hne) as [E1 E2]. rewrite <- E1, <- E2. ring. }
    assert (joined size (nth a C []) (nth b C [])) as HJ.
    { exists i. replace (length size) with d by (unfold d; lia). split; auto. split; [left; rewrite Fi, Gi; ring|]. intros j Hj' Hne. destruct (Hother j Hj' Hne) as [E1 E2]. rewrite <- E1, <- E2. reflexivity. }
    apply Hj in HJ; auto. destruct HJ as [HJ|HJ]; [exists a, b; auto|]. exists b, a. split; auto.
    apply mixture_pair in Hm. destruct Hm as [t [Ht Hy]]. apply mixture_pair. exists (1 - t)%Q. split; [lra|]. intros j Hj'. rewrite (Hy j Hj'). ring.
Qed.

Lemma in_range_div p s y : (0 < s)%Q -> ((0 <= (y - p) / s <= 1)%Q <-> (p <= y <= p + s)%Q).
Proof.
  intro Hs. split; intros [H1 H2].
  - assert ((y - p) == ((y - p) / s) * s)%Q as E by (field; lra). split; nra.
  - split; [apply Qle_shift_div_l; lra|apply Qle_shift_div_r; lra].
Qed.

(** One face: coordinates [i] and [j] run over the box, the others are fixed. *)
Lemma face2 x0 x1 s0 s1 y : (0 < s0)%Q -> (0 < s1)%Q ->
  (quad 2 [x0 + 0; x1 + 0]%Q [x0 + 0; x1 + s1]%Q [x0 + s0; x1 + 0]%Q y <-> in_box [s0; s1] [x0; x1] y).
Proof.
  intros H0 H1. unfold quad, in_box. split.
  - intros [s [t [Hs [Ht H]]]]. pose proof (H 0 ltac:(lia)) as E0. pose proof (H 1 ltac:(lia)) as E1. cbn [nth] in E0, E1.
    intros [|[|i]] Hi; cbn [length] in Hi; [| |lia]; cbn [nth]; [rewrite E0|rewrite E1]; nra.
  - intro H. pose proof (H 0 ltac:(cbn; lia)) as E0. pose proof (H 1 ltac:(cbn; lia)) as E1. cbn [nth] in E0, E1.
    exists ((nth 1 y 0 - x1) / s1)%Q, ((nth 0 y 0 - x0) / s0)%Q. rewrite !in_range_div by assumption. split; auto. split; auto.
    intros [|[|i]] Hi; [| |lia]; cbn [nth]; field; lra.
Qed.

(** The side [k] of a box in three dimensions, where [A] and [B] differ along [i], [A] and [D] along [j]. *)
Lemma face3 size pos A B D y i j k upper (ui uj : bool) :
  length pos = 3 -> i < 3 -> j < 3 -> k < 3 -> i <> j -> i <> k -> j <> k ->
  (0 < nth i size 0)%Q -> (0 < nth j size 0)%Q -> (0 < nth k size 0)%Q ->
  on_side size pos k upper A -> on_side size pos k upper B -> on_side size pos k upper D ->
  on_side size pos i ui A -> on_side size pos i (negb ui) B -> on_side size pos i ui D ->
  on_side size pos j uj A -> on_side size pos j uj B -> on_side size pos j (negb uj) D ->
  (quad 3 A B D y <-> in_box size pos y /\ on_side size pos k upper y).
Proof.
  unfold on_side. intros Hl Hi Hj Hk Hij Hik Hjk Si Sj Sk Ak Bk Dk Ai Bi Di Aj Bj Dj. unfold quad, in_box. rewrite Hl.
  assert (forall c, c < 3 -> c = i \/ c = j \/ c = k) as Hcase by lia. split.
  - intros [s [t [Hs [Ht H]]]]. pose proof (H i Hi) as Ei. pose proof (H j Hj) as Ej. pose proof (H k Hk) as Ek.
    rewrite Ai, Bi, Di in Ei. rewrite Aj, Bj, Dj in Ej. rewrite Ak, Bk, Dk in Ek. split.
    + intros c Hc. destruct (Hcase c Hc) as [->|[->| ->]]; [rewrite Ei; destruct ui; cbn [negb]; nra|rewrite Ej; destruct uj; cbn [negb]; nra|rewrite Ek; destruct upper; nra].
    + rewrite Ek. ring.
  - intros [Hin Hs].
    exists (if ui then (nth i pos 0 + nth i size 0 - nth i y 0) / nth i size 0 else (nth i y 0 - nth i pos 0) / nth i size 0)%Q.
    exists (if uj then (nth j pos 0 + nth j size 0 - nth j y 0) / nth j size 0 else (nth j y 0 - nth j pos 0) / nth j size 0)%Q.
    pose proof (Hin i Hi) as [I1 I2]. pose proof (Hin j Hj) as [J1 J2].
    split; [destruct ui; split; try (apply Qle_shift_div_l; lra); apply Qle_shift_div_r; lra|].
    split; [destruct uj; split; try (apply Qle_shift_div_l; lra); apply Qle_shift_div_r; lra|].
    intros c Hc. destruct (Hcase c Hc) as [->|[->| ->]].
    + rewrite Ai, Bi, Di. destruct ui; cbn [negb]; field; lra.
    + rewrite Aj, Bj, Dj. destruct uj; cbn [negb]; field; lra.
    + rewrite Hs, Ak, Bk, Dk. ring.
Qed.

(** The filled areas of a box without a basis. *)
Definition filled (size pos y : list Q) : Prop := if length pos =? 2 then in_box size pos y else on_sides size pos y.

Local Ltac side_facts := first [lia|intros [|[|[|?]]] ?; [| | |lia]; cbn; ring|unfold on_side; cbn; ring].

Lemma box_faces size pos S y : length size = length pos -> (forall s, In s size -> (0 < s)%Q) ->
  length pos = 2 \/ length pos = 3 -> box_surfaces (length pos) = Some S ->
  ((exists l, In l S /\ mixture (length pos) (take (box_corners size pos) l) y) <-> filled size pos y).
Proof.
  intros Hl Hs Hd HS. unfold filled. destruct Hd as [Hd|Hd]; rewrite Hd in *; cbn in HS; injection HS as <-; cbn [Nat.eqb].
  - destruct size as [|s0 [|s1 [|]]]; try discriminate. destruct pos as [|x0 [|x1 [|]]]; try discriminate.
    assert (0 < s0)%Q as P0 by (apply Hs; cbn; auto). assert (0 < s1)%Q as P1 by (apply Hs; cbn; auto).
    rewrite <- (face2 x0 x1 s0 s1 y P0 P1). unfold take. cbn [box_corners map product flat_map app vadd map2 nth].
    split.
    + intros [l [[<-|[]] Hm]]. cbn [map nth] in Hm. apply mixture_closed in Hm. apply mixture_quad in Hm; auto.
      intros [|[|i]] Hi; [| |lia]; cbn [nth]; ring.
    + intro H. eexists. split; [left; reflexivity|]. cbn [map nth]. apply mixture_closed. apply mixture_quad; auto.
      intros [|[|i]] Hi; [| |lia]; cbn [nth]; ring.
  - destruct size as [|s0 [|s1 [|s2 [|]]]]; try discriminate. destruct pos as [|x0 [|x1 [|x2 [|]]]]; try discriminate.
    assert (0 < s0)%Q as P0 by (apply Hs; cbn; auto). assert (0 < s1)%Q as P1 by (apply Hs; cbn; auto). assert (0 < s2)%Q as P2 by (apply Hs; cbn; auto).
    set (pos := [x0; x1; x2]). set (size := [s0; s1; s2]).
    assert (forall l a b c e, l = [a; b; c; e] -> forall k u i j ui uj, k < 3 -> i < 3 -> j < 3 -> i <> j -> i <> k -> j <> k ->
              let C := box_corners size pos in
              (forall n, n < 3 -> (nth n (nth a C []) 0 + nth n (nth c C []) 0 == nth n (nth b C []) 0 + nth n (nth e C []) 0)%Q) ->
              on_side size pos k u (nth a C []) -> on_side size pos k u (nth b C []) -> on_side size pos k u (nth e C []) ->
              on_side size pos i ui (nth a C []) -> on_side size pos i (negb ui) (nth b C []) -> on_side size pos i ui (nth e C []) ->
              on_side size pos j uj (nth a C []) -> on_side size pos j uj (nth b C []) -> on_side size pos j (negb uj) (nth e C []) ->
              (mixture 3 (take C l) y <-> in_box size pos y /\ on_side size pos k u y)) as F.
    { intros l a b c e -> k u i j ui uj Hk Hi Hj Hij Hik Hjk C HP A1 A2 A3 A4 A5 A6 A7 A8 A9. unfold take. cbn [map].
      rewrite (mixture_quad 3 _ _ _ _ y HP). apply (face3 size pos _ _ _ y i j k u ui uj); auto; clear - P0 P1 P2 Hi Hj Hk; unfold size.
      - destruct i as [|[|[|i]]]; cbn; auto; lia.
      - destruct j as [|[|[|j]]]; cbn; auto; lia.
      - destruct k as [|[|[|k]]]; cbn; auto; lia. }
    assert (mixture 3 (take (box_corners size pos) [0; 2; 3; 1]) y <-> in_box size pos y /\ on_side size pos 0 false y) as F1 by (apply (F _ 0 2 3 1 eq_refl 0 false 1 2 false false); side_facts).
    assert (mixture 3 (take (box_corners size pos) [4; 6; 7; 5]) y <-> in_box size pos y /\ on_side size pos 0 true y) as F2 by (apply (F _ 4 6 7 5 eq_refl 0 true 1 2 false false); side_facts).
    assert (mixture 3 (take (box_corners size pos) [0; 4; 6; 2]) y <-> in_box size pos y /\ on_side size pos 2 false y) as F3 by (apply (F _ 0 4 6 2 eq_refl 2 false 0 1 false false); side_facts).
    assert (mixture 3 (take (box_corners size pos) [2; 6; 7; 3]) y <-> in_box size pos y /\ on_side size pos 1 true y) as F4 by (apply (F _ 2 6 7 3 eq_refl 1 true 0 2 false false); side_facts).
    assert (mixture 3 (take (box_corners size pos) [3; 7; 5; 1]) y <-> in_box size pos y /\ on_side size pos 2 true y) as F5 by (apply (F _ 3 7 5 1 eq_refl 2 true 0 1 false true); side_facts).
    assert (mixture 3 (take (box_corners size pos) [1; 5; 4; 0]) y <-> in_box size pos y /\ on_side size pos 1 false y) as F6 by (apply (F _ 1 5 4 0 eq_refl 1 false 0 2 false true); side_facts).
    clear F. unfold on_sides. split.
    + intros [l [Hin Hm]]. assert (exists i upper, i < length pos /\ in_box size pos y /\ on_side size pos i upper y) as [i [u [Hi [H1 H2]]]]; [|split; auto; exists i, u; auto].
      cbn in Hin. destruct Hin as [<-|[<-|[<-|[<-|[<-|[<-|[]]]]]]];
        [apply F1 in Hm; exists 0, false|apply F2 in Hm; exists 0, true|apply F3 in Hm; exists 2, false|apply F4 in Hm; exists 1, true|apply F5 in Hm; exists 2, true|apply F6 in Hm; exists 1, false];
        (split; [cbn; lia|exact Hm]).
    + intros [H [i [u [Hi Hu]]]]. cbn in Hi.
      destruct i as [|[|[|i]]]; [destruct u; [exists [4; 6; 7; 5]|exists [0; 2; 3; 1]]|destruct u; [exists [2; 6; 7; 3]|exists [1; 5; 4; 0]]|destruct u; [exists [3; 7; 5; 1]|exists [0; 4; 6; 2]]|lia];
        (split; [cbn; tauto|]); [apply F2|apply F1|apply F4|apply F6|apply F5|apply F3]; auto.
Qed.

Lemma line_covers_pair d u v x : line_covers d [u; v] x <-> mixture d [u; v] x.
Proof.
  split.
  - intros [[|[|k]] [a [b [Ha [Hb H]]]]]; cbn in Ha, Hb; try discriminate. injection Ha as <-. injection Hb as <-. exact H.
  - intro H. exists 0, u, v. auto.
Qed.

Lemma take_map f C l : (forall k, In k l -> k < length C) -> take (map f C) l = map f (take C l).
Proof.
  intro H. unfold take. rewrite map_map. apply map_ext_in. intros k Hk. apply nth_map_in. auto.
Qed.

Lemma take_length C d l : (forall k, In k l -> k < length C) -> (forall c, In c C -> length c = d) -> forall p, In p (take C l) -> length p = d.
Proof. intros H HC p Hp. unfold take in Hp. apply in_map_iff in Hp. destruct Hp as [k [<- Hk]]. apply HC. apply nth_In. auto. Qed.

(** What is drawn of a set of corner numbers, in the basis. *)
Lemma covered_placed d C m l x :
  (forall M, m = Some M -> square d M) -> (forall k, In k l -> k < length C) -> (forall c, In c C -> length c = d) ->
  (mixture d (take (match m with None => C | Some M => map (matvec M) C end) l) x <->
   exists y, length y = d /\ mixture d (take C l) y /\ placed d m y x).
Proof.
  intros Hm Hl HC. destruct m as [M|]; cbn [placed].
  - rewrite take_map by exact Hl. apply mixture_map; [apply Hm; reflexivity|]. apply take_length; auto.
  - split.
    + intros [w [Hw [H1 Hx]]]. exists (map (fun i => nth i x 0%Q) (seq 0 d)). split; [rewrite map_length, seq_length; reflexivity|].
      assert (forall i, i < d -> nth i (map (fun i => nth i x 0%Q) (seq 0 d)) 0%Q = nth i x 0%Q) as E.
      { intros i Hi. rewrite (nth_map_in _ _ _ 0) by (rewrite seq_length; exact Hi). rewrite seq_nth by exact Hi. reflexivity. }
      split; [exists w; split; auto; split; auto; intros i Hi; rewrite E by exact Hi; apply Hx; exact Hi|]. intros i Hi. rewrite E by exact Hi. reflexivity.
    + intros [y [_ [[w [Hw [H1 Hy]]] Hx]]]. exists w. split; auto. split; auto. intros i Hi. rewrite (Hx i Hi). apply Hy. exact Hi.
Qed.

(** ** Theorems *)

(** Boxes in two and three dimensions: the lines cover exactly the points of the edges, the filled areas the whole box
    (two dimensions) or its sides (three dimensions); with a basis, the points with these coordinates. *)
Theorem C102_box :
  forall size pos m,
    let d := length pos in
    length size = d -> (forall s, In s size -> (0 < s)%Q) -> d = 2 \/ d = 3 -> (forall M, m = Some M -> square d M) ->
    exists o, plot_box size pos m = Drawn o /\
      (forall x, lines_cover d o x <-> exists y, length y = d /\ on_frame size pos y /\ placed d m y x) /\
      (forall x, faces_cover d o x <-> exists y, length y = d /\ (if d =? 2 then in_box size pos y else on_sides size pos y) /\ placed d m y x).
Proof.
  intros size pos m d Hl Hs Hd Hm.
  destruct (C84_corners size pos Hl Hs) as [LC [HC _]]. fold d in LC, HC.
  destruct (C84_edges size pos Hl Hs) as [_ H]. fold d in H. destruct (H Hd) as [E [HE [Hr _]]]. clear H.
  assert (exists S, box_surfaces d = Some S /\ forall l k, In l S -> In k l -> k < 2 ^ d) as [S [HS HSr]].
  { destruct Hd as [-> | ->]; eexists; (split; [reflexivity|]); intros l k Hin Hk; cbn in Hin;
      repeat (destruct Hin as [<-|Hin]; [cbn in Hk; cbn; lia|]); destruct Hin. }
  unfold plot_box. rewrite Hl, HE, HS. eexists. split; [reflexivity|]. unfold lines_cover, faces_cover. cbn [ol_lines ol_faces].
  set (C := box_corners size pos) in *.
  assert (forall c, In c C -> length c = d) as HCl by (intros c Hc; apply HC; exact Hc).
  assert (forall a b, In (a, b) E -> forall k, In k [a; b] -> k < length C) as Hab'.
  { intros a b Hab k Hk. rewrite LC. destruct (Hr a b Hab). cbn in Hk. destruct Hk as [<-|[<-|[]]]; assumption. }
  assert (forall l, In l S -> forall k, In k l -> k < length C) as HS' by (intros l Hin k Hk; rewrite LC; eauto).
  split; intro x.
  - split.
    + intros [l [Hin Hc]]. apply in_map_iff in Hin. destruct Hin as [[a b] [<- Hab]]. cbn [fst snd] in Hc. cbn [take map] in Hc. apply line_covers_pair in Hc.
      apply (covered_placed d C m [a; b] x Hm) in Hc; [|exact (Hab' a b Hab)|exact HCl].
      destruct Hc as [y [Ly [My Py]]]. exists y. split; auto. split; auto. apply (box_lines size pos E y Hl Hs Hd HE). exists a, b. auto.
    + intros [y [Ly [Hy Py]]]. apply (box_lines size pos E y Hl Hs Hd HE) in Hy. destruct Hy as [a [b [Hab My]]].
      exists (take (match m with None => C | Some M => map (matvec M) C end) [a; b]). split; [apply in_map_iff; exists (a, b); auto|].
      cbn [take map]. apply line_covers_pair. apply (covered_placed d C m [a; b] x Hm); [exact (Hab' a b Hab)|exact HCl|]. exists y. auto.
  - pose proof (fun y => box_faces size pos S y Hl Hs Hd HS) as HF. unfold filled in HF. fold d in HF. fold C in HF. split.
    + intros [l [Hin Hc]]. apply in_map_iff in Hin. destruct Hin as [ks [<- Hks]].
      apply (covered_placed d C m ks x Hm) in Hc; [|exact (HS' ks Hks)|exact HCl].
      destruct Hc as [y [Ly [My Py]]]. exists y. split; auto. split; auto. apply HF. exists ks. auto.
    + intros [y [Ly [Hy Py]]]. apply HF in Hy. destruct Hy as [ks [Hks My]]. exists (take (match m with None => C | Some M => map (matvec M) C end) ks).
      split; [apply in_map_iff; exists ks; auto|]. apply (covered_placed d C m ks x Hm); [exact (HS' ks Hks)|exact HCl|]. exists y. auto.
Qed.

Example C102_box_example :
  plot_box [2; 1]%Q [0; 5]%Q None
  = Drawn (mkOutline [[[0; 5]; [0; 6]]; [[0; 5]; [2; 5]]; [[2; 5]; [2; 6]]; [[2; 6]; [0; 6]]]%Q [[[0; 5]; [0; 6]; [2; 6]; [2; 5]; [0; 5]]]%Q) /\
  plot_box [2; 1]%Q [0; 0]%Q (Some [[1; 1]; [0; 1]]%Q)
  = Drawn (mkOutline [[[0; 0]; [1; 1]]; [[0; 0]; [2; 0]]; [[2; 0]; [3; 1]]; [[3; 1]; [1; 1]]]%Q [[[0; 0]; [1; 1]; [3; 1]; [2; 0]; [0; 0]]]%Q) /\
  square 2 [[1; 1]; [0; 1]]%Q /\ (forall s, In s [2; 1]%Q -> (0 < s)%Q) /\ on_frame [2; 1]%Q [0; 5]%Q [1; 6]%Q.
Proof.
  split; [vm_compute; reflexivity|]. split; [vm_compute; reflexivity|]. split; [split; [reflexivity|intros r [<-|[<-|[]]]; reflexivity]|].
  split; [intros s [<-|[<-|[]]]; reflexivity|]. split.
  - intros [|[|i]] Hi; cbn in *; [lra|lra|lia].
  - exists 0. split; [cbn; lia|]. intros [|[|j]] Hj Hn; cbn in Hj; [lia| |lia]. exists true. unfold on_side. cbn. reflexivity.
Qed.

(** The corners of the filled areas are passed in order: their outlines consist of edges. *)
Theorem C102_box_outline :
  forall size pos m,
    let d := length pos in
    length size = d -> (forall s, In s size -> (0 < s)%Q) -> d = 2 \/ d = 3 ->
    exists o, plot_box size pos m = Drawn o /\
      forall l x, In l (ol_faces o) -> line_covers d (l ++ [hd [] l]) x -> lines_cover d o x.
Proof.
  intros size pos m d Hl Hs Hd.
  assert (exists E S, box_edges d = Some E /\ box_surfaces d = Some S /\
            forall l k a b, In l S -> nth_error (l ++ [hd 0 l]) k = Some a -> nth_error (l ++ [hd 0 l]) (Datatypes.S k) = Some b ->
              l <> [] /\ exists a' b', (In (a', b') E \/ In (b', a') E) /\ a = a' /\ (b = b' \/ b = a')) as [E [S [HE [HS H]]]].
  { destruct Hd as [-> | ->]; eexists; eexists; (split; [reflexivity|]); (split; [reflexivity|]); intros l k a b Hin Ha Hb; cbn in Hin;
      repeat (destruct Hin as [<-|Hin];
        [destruct k as [|[|[|[|[|[|k]]]]]]; cbn in Ha, Hb; try discriminate; try (destruct k; discriminate);
         injection Ha as <-; injection Hb as <-; (split; [discriminate|]);
         first [eexists; eexists; split; [|split; [reflexivity|left; reflexivity]]; cbn; intuition congruence
               |exists 0, 1; split; [|split; [reflexivity|right; reflexivity]]; cbn; intuition congruence]|]); destruct Hin. }
  unfold plot_box. rewrite Hl, HE, HS. eexists. split; [reflexivity|]. unfold lines_cover. cbn [ol_lines ol_faces].
  set (C := match m with None => box_corners size pos | Some m => map (matvec m) (box_corners size pos) end).
  intros l x Hin [k [u [v [Hu [Hv Hm]]]]]. apply in_map_iff in Hin. destruct Hin as [ks [<- Hks]].
  assert (forall j w, nth_error (take C ks ++ [hd [] (take C ks)]) j = Some w -> exists a, nth_error (ks ++ [hd 0 ks]) j = Some a /\ w = nth a C []) as Hn.
  { intros j w Hj. assert (ks <> []) as Hne by (destruct Hd as [E0|E0]; rewrite E0 in HS; injection HS as <-; cbn in Hks; intros ->; intuition discriminate).
    assert (take C ks ++ [hd [] (take C ks)] = map (fun a => nth a C []) (ks ++ [hd 0 ks])) as R by (destruct ks as [|a ks]; [congruence|]; rewrite map_app; reflexivity).
    rewrite R in Hj. rewrite nth_error_map in Hj. destruct (nth_error (ks ++ [hd 0 ks]) j) as [a|] eqn:Ea; [|discriminate]. exists a. split; [reflexivity|]. injection Hj as <-. reflexivity. }
  destruct (Hn _ _ Hu) as [a [Ha ->]]. destruct (Hn _ _ Hv) as [b [Hb ->]].
  destruct (H ks k a b Hks Ha Hb) as [_ [a' [b' [Hab [-> Hb']]]]].
  assert (mixture d [nth a' C []; nth b' C []] x) as Hmx.
  { destruct Hb' as [-> | ->]; [exact Hm|]. apply mixture_stay. exact Hm. }
  destruct Hab as [Hab|Hab].
  - exists (take C [a'; b']). split; [apply in_map_iff; exists (a', b'); auto|]. apply line_covers_pair. exact Hmx.
  - exists (take C [b'; a']). split; [apply in_map_iff; exists (b', a'); auto|]. apply line_covers_pair. apply mixture_swap. exact Hmx.
Qed.

Example C102_box_outline_example :
  box_surfaces 2 = Some [[0; 1; 3; 2; 0]] /\ line_covers 2 [[0; 5]; [0; 6]; [2; 6]; [2; 5]; [0; 5]]%Q [1; 6]%Q.
Proof. split; [reflexivity|]. exists 1, [0; 6]%Q, [2; 6]%Q. split; [reflexivity|]. split; [reflexivity|]. apply mixture_pair. exists (1 # 2)%Q. split; [lra|]. intros [|[|i]] Hi; [| |lia]; cbn; lra. Qed.

(** Other dimensions are refused, with ValueError also above three. *)
Theorem C102_box_other :
  forall size pos m, length size <> 2 -> length size <> 3 -> plot_box size pos m = Failed BadLength.
Proof.
  intros size pos m H2 H3. unfold plot_box. destruct (length size) as [|[|[|[|n]]]]; try reflexivity; lia.
Qed.

Example C102_box_other_example : plot_box [1]%Q [0]%Q None = Failed BadLength /\ plot_box [1; 1; 1; 1]%Q [0; 0; 0; 0]%Q None = Failed BadLength.
Proof. vm_compute. auto. Qed.

(** *** Hulls *)

Lemma inner_mixture d n P x : length n = d -> forall w, (forall i, i < d -> (nth i x 0 == sum_upto (length P) (fun k => w k * nth i (nth k P []) 0))%Q) ->
  (inner n x == sum_upto (length P) (fun k => w k * inner n (nth k P [])))%Q.
Proof.
  intros Hn w Hx. unfold inner. rewrite Hn.
  rewrite (sum_ext d _ (fun i => sum_upto (length P) (fun k => w k * (nth i n 0 * nth i (nth k P []) 0)))%Q).
  - rewrite sum_swap. apply sum_ext. intros k _. rewrite <- sum_scale. reflexivity.
  - intros i Hi. rewrite (Hx i Hi), <- sum_scale. apply sum_ext. intros. ring.
Qed.

Lemma mixture_below d n c P x : length n = d -> (forall p, In p P -> (inner n p + c <= 0)%Q) -> mixture d P x -> (inner n x + c <= 0)%Q.
Proof.
  intros Hn HP [w [Hw [H1 Hx]]]. rewrite (inner_mixture d n P x Hn w Hx).
  assert (sum_upto (length P) (fun k => w k * inner n (nth k P [])) <= sum_upto (length P) (fun k => (- c) * w k))%Q as H.
  { apply sum_mono. intros k Hk. pose proof (Hw k Hk). pose proof (HP _ (nth_In P [] Hk)). nra. }
  rewrite sum_scale, H1 in H. lra.
Qed.

Lemma mixture_on d n c P x : length n = d -> (forall p, In p P -> (inner n p + c == 0)%Q) -> mixture d P x -> (inner n x + c == 0)%Q.
Proof.
  intros Hn HP [w [Hw [H1 Hx]]]. rewrite (inner_mixture d n P x Hn w Hx).
  rewrite (sum_ext (length P) _ (fun k => (- c) * w k)%Q).
  - rewrite sum_scale, H1. ring.
  - intros k Hk. pose proof (HP _ (nth_In P [] Hk)) as H. assert (inner n (nth k P []) == - c)%Q as -> by lra. ring.
Qed.

Lemma in_take C l p : (forall k, In k l -> k < length C) -> In p (take C l) -> In p C.
Proof. intros H Hp. unfold take in Hp. apply in_map_iff in Hp. destruct Hp as [k [<- Hk]]. apply nth_In. auto. Qed.

(** The surface of a hull: contained points at which an equation is met with equality. *)
Definition on_hull (P : list (list Q)) (E : list (list Q * Q)) (x : list Q) : Prop :=
  shape_contains (SHull P E) x 0 = true /\ exists e, In e E /\ (inner (fst e) x + snd e == 0)%Q.

(** Every line is on the surface of the hull, given that the points of a simplex meet one of the equations (scipy: the
    equation of the same number).  In two dimensions the filled area is the shape, given that the hull is also that of the
    vertices; in three dimensions the filled triangles are on the surface. *)
Theorem C102_hull :
  forall d P E simplices vertices,
    d = 2 \/ d = 3 -> is_hull d P E ->
    (forall s k, In s simplices -> In k s -> k < length P) ->
    (forall s, In s simplices -> length s = d /\ exists e, In e E /\ forall k, In k s -> (inner (fst e) (nth k P []) + snd e == 0)%Q) ->
    is_hull d (map (fun k => nth k P []) vertices) E ->
    exists o, plot_hull d P simplices vertices = Drawn o /\ length (ol_lines o) = length simplices /\
      (forall x, length x = d -> lines_cover d o x -> on_hull P E x) /\
      (forall x, length x = d -> if d =? 2 then faces_cover d o x <-> shape_contains (SHull P E) x 0 = true else faces_cover d o x -> on_hull P E x) /\
      (* all pairs of points of a simplex are joined *)
      (forall s a b x, In s simplices -> In a s -> In b s -> a <> b -> mixture d [nth a P []; nth b P []] x -> lines_cover d o x).
Proof.
  intros d P E simplices vertices Hd HH Hr Hf HV. pose proof HH as [_ [HP [HE Hh]]].
  assert (forall l x, length x = d -> (forall p, In p l -> In p P) -> mixture d l x -> shape_contains (SHull P E) x 0 = true) as Hin.
  { intros l x Lx Hl Hm. apply (hull_contains_iff d P E x 0 HH Lx). intros e He. apply (mixture_below d _ _ l); auto.
    intros p Hp. pose proof (proj1 (hull_contains_iff d P E p 0 HH (HP p (Hl p Hp)))) as Hc. apply Hc; auto.
    apply (C83_contains d P E p HH (HP p (Hl p Hp))). apply mixture_point; auto. }
  assert (forall s l x, In s simplices -> length x = d -> (forall p, In p l -> exists k, In k s /\ p = nth k P []) -> mixture d l x -> on_hull P E x) as Hon.
  { intros s l x Hs Lx Hl Hm. destruct (Hf s Hs) as [_ [e [He Hz]]]. split.
    - apply (Hin l x Lx); auto. intros p Hp. destruct (Hl p Hp) as [k [Hk ->]]. apply nth_In. apply (Hr s k Hs Hk).
    - exists e. split; auto. apply (mixture_on d _ _ l); auto. intros p Hp. destruct (Hl p Hp) as [k [Hk ->]]. auto. }
  assert (forall s l u v, (forall k, In k l -> In k s) -> (exists k, nth_error (take P l) k = Some u /\ nth_error (take P l) (S k) = Some v) ->
            forall p, In p [u; v] -> exists k, In k s /\ p = nth k P []) as Hpair.
  { intros s l u v Hl [k [Hu Hv]] p Hp. assert (In p (take P l)) as Hin' by (destruct Hp as [<-|[<-|[]]]; eapply nth_error_In; eassumption).
    unfold take in Hin'. apply in_map_iff in Hin'. destruct Hin' as [j [<- Hj]]. exists j. auto. }
  destruct Hd as [-> | ->]; cbn [plot_hull]; eexists; (split; [reflexivity|]); cbn [ol_lines ol_faces Nat.eqb]; (split; [apply map_length|]); split; [|split| |split].
  - intros x Lx [l [Hl [k [u [v [Hu [Hv Hm]]]]]]]. cbn [ol_lines] in Hl. apply in_map_iff in Hl. destruct Hl as [s [<- Hs]].
    apply (Hon s [u; v] x Hs Lx); auto. apply (Hpair s s); eauto.
  - intros x Lx. unfold faces_cover. cbn [ol_faces]. split.
    + intros [l [[<-|[]] Hm]]. apply (hull_contains_iff _ _ _ x 0 HV Lx). destruct HV as [_ [_ [_ HV]]]. apply HV; auto.
    + intro Hc. eexists. split; [left; reflexivity|]. pose proof (proj1 (hull_contains_iff 2 P E x 0 HH Lx) Hc) as Hc'. destruct HV as [_ [_ [_ HV]]]. apply HV; auto.
  - intros s a b x Hs Ha Hb Hab Hm. exists (take P s). split; [apply in_map; exact Hs|]. destruct (Hf s Hs) as [Ls _].
    destruct s as [|p [|q [|]]]; try discriminate. cbn [take map]. apply line_covers_pair. cbn in Ha, Hb.
    destruct Ha as [->|[->|[]]], Hb as [->|[->|[]]]; try congruence; auto.
    apply mixture_swap. exact Hm.
  - intros x Lx [l [Hl [k [u [v [Hu [Hv Hm]]]]]]]. cbn [ol_lines] in Hl. apply in_map_iff in Hl. destruct Hl as [s [<- Hs]].
    apply (Hon s [u; v] x Hs Lx); auto. apply (Hpair s (s ++ [hd 0 s])); eauto. intros j Hj. apply in_app_iff in Hj. destruct Hj as [Hj|[<-|[]]]; auto.
    destruct (Hf s Hs) as [Ls _]. destruct s; [discriminate|left; reflexivity].
  - intros x Lx [l [Hl Hm]]. cbn [ol_faces] in Hl. apply in_map_iff in Hl. destruct Hl as [s [<- Hs]]. apply (Hon s (take P s) x Hs Lx); auto.
    intros p Hp. unfold take in Hp. apply in_map_iff in Hp. destruct Hp as [k [<- Hk]]. exists k. auto.
  - intros s a b x Hs Ha Hb Hab Hm. exists (take P (s ++ [hd 0 s])). split; [apply in_map_iff; exists s; auto|]. destruct (Hf s Hs) as [Ls _].
    destruct s as [|p [|q [|r [|]]]]; try discriminate. cbn [take map app hd].
    assert (mixture 3 [nth b P []; nth a P []] x) as Hm'.
    { apply mixture_swap. exact Hm. }
    assert (forall k u v, nth_error [nth p P []; nth q P []; nth r P []; nth p P []] k = Some u ->
              nth_error [nth p P []; nth q P []; nth r P []; nth p P []] (S k) = Some v -> mixture 3 [u; v] x ->
              line_covers 3 [nth p P []; nth q P []; nth r P []; nth p P []] x) as Hcov by (intros k u v H1 H2 H3; exists k, u, v; auto).
    cbn in Ha, Hb. destruct Ha as [->|[->|[->|[]]]], Hb as [->|[->|[->|[]]]]; try congruence;
      first [eapply (Hcov 0); [reflexivity|reflexivity|assumption]|eapply (Hcov 1); [reflexivity|reflexivity|assumption]|eapply (Hcov 2); [reflexivity|reflexivity|assumption]].
Qed.

Example C102_hull_example :
  let P := [[0; 0]; [4; 0]; [0; 3]]%Q in
  let E := [([-1; 0], 0); ([0; -1], 0); ([3 # 5; 4 # 5], - (12 # 5))]%Q in
  is_hull 2 P E /\ is_hull 2 (map (fun k => nth k P []) [0; 1; 2]) E /\
  plot_hull 2 P [[2; 0]; [1; 0]; [2; 1]] [0; 1; 2]
  = Drawn (mkOutline [[[0; 3]; [0; 0]]; [[4; 0]; [0; 0]]; [[0; 3]; [4; 0]]]%Q [[[0; 0]; [4; 0]; [0; 3]]]%Q) /\
  (forall k, In k [2; 0] -> (inner [-1; 0] (nth k P []) + 0 == 0)%Q) /\
  on_hull P E [2; 3 # 2]%Q /\
  plot_hull 3 [[0; 0; 0]; [1; 0; 0]; [0; 1; 0]; [0; 0; 1]]%Q [[0; 1; 2]] [0; 1; 2; 3]
  = Drawn (mkOutline [[[0; 0; 0]; [1; 0; 0]; [0; 1; 0]; [0; 0; 0]]]%Q [[[0; 0; 0]; [1; 0; 0]; [0; 1; 0]]]%Q).
Proof.
  cbv zeta. destruct C83_example as [H _]. split; [exact H|]. split; [exact H|]. split; [reflexivity|].
  split; [intros k [<-|[<-|[]]]; reflexivity|]. split; [|reflexivity].
  split; [reflexivity|]. exists ([3 # 5; 4 # 5], - (12 # 5))%Q. split; [cbn; auto|reflexivity].
Qed.

Lemma sum_pick n f a : a < n -> (sum_upto n f == f a + sum_upto n (fun k => if k =? a then 0 else f k))%Q.
Proof.
  intro Ha.
  rewrite (sum_ext n f (fun k => (if k =? a then f k else 0) + (if k =? a then 0 else f k))%Q).
  - rewrite sum_plus. rewrite (sum_single n a (fun k => if k =? a then f k else 0)%Q Ha); [rewrite Nat.eqb_refl; reflexivity|].
    intros k _ Hk. apply Nat.eqb_neq in Hk. rewrite Hk. reflexivity.
  - intros k _. destruct (k =? a); ring.
Qed.

Lemma sum_support n s : NoDup s -> forall f, (forall k, In k s -> k < n) -> (forall k, k < n -> ~ In k s -> (f k == 0)%Q) ->
  (sum_upto n f == sum_upto (length s) (fun j => f (nth j s 0%nat)))%Q.
Proof.
  induction 1 as [|a s Ha Hs IH]; intros f Hr Hz; cbn [length].
  - cbn [sum_upto]. apply sum_zero. intros k Hk. apply Hz; auto.
  - rewrite sum_shift. cbn [nth]. rewrite (sum_pick n f a) by (apply Hr; left; reflexivity).
    rewrite (IH (fun k => if k =? a then 0 else f k)%Q).
    + rewrite (sum_ext (length s) (fun j => if nth j s 0%nat =? a then 0 else f (nth j s 0%nat))%Q (fun j => f (nth j s 0%nat))); [reflexivity|].
      intros j Hj. destruct (nth j s 0 =? a) eqn:E; [|reflexivity]. apply Nat.eqb_eq in E. exfalso. apply Ha. rewrite <- E. apply nth_In. exact Hj.
    + intros k Hk. apply Hr. right. exact Hk.
    + intros k Hk Hn. destruct (k =? a) eqn:E; [reflexivity|]. apply Nat.eqb_neq in E. apply Hz; [exact Hk|]. intros [<-|H]; auto.
Qed.

(** A mixture of the points below a plane which is on the plane mixes the points on it. *)
Lemma mixture_face d n c P s x : length n = d -> (forall p, In p P -> (inner n p + c <= 0)%Q) -> NoDup s -> (forall k, In k s -> k < length P) ->
  (forall k, k < length P -> (inner n (nth k P []) + c == 0)%Q -> In k s) ->
  mixture d P x -> (inner n x + c == 0)%Q -> mixture d (take P s) x.
Proof.
  intros Hn HP Hd Hr Hs [w [Hw [H1 Hx]]] Hz.
  assert (forall k, k < length P -> ~ In k s -> (w k == 0)%Q) as H0.
  { intros k Hk Hns.
    assert (sum_upto (length P) (fun k => w k * (- (inner n (nth k P []) + c))) == 0)%Q as Hsum.
    { rewrite (sum_ext _ _ (fun k => (-1) * (w k * inner n (nth k P [])) + (- c) * w k)%Q) by (intros; ring).
      rewrite sum_plus, !sum_scale, H1, <- (inner_mixture d n P x Hn w Hx). lra. }
    assert (w k * (- (inner n (nth k P []) + c)) == 0)%Q as H.
    { apply (sum_nonneg_zero (length P) (fun k => w k * (- (inner n (nth k P []) + c)))%Q); auto.
      intros j Hj. pose proof (Hw j Hj). pose proof (HP _ (nth_In P [] Hj)). nra. }
    apply Qmult_integral in H. destruct H as [H|H]; [exact H|]. exfalso. apply Hns. apply Hs; [exact Hk|]. lra. }
  exists (fun j => w (nth j s 0%nat)). unfold take. rewrite map_length. split; [intros j Hj; apply Hw; apply Hr; apply nth_In; exact Hj|]. split.
  - rewrite <- H1. symmetry. apply (sum_support (length P) s Hd w Hr H0).
  - intros i Hi. rewrite (Hx i Hi). rewrite (sum_support (length P) s Hd (fun k => w k * nth i (nth k P []) 0)%Q Hr) by (intros k Hk Hk'; rewrite (H0 k Hk Hk'); ring).
    apply sum_ext. intros j Hj. rewrite (nth_map_in _ _ _ 0) by exact Hj. reflexivity.
Qed.

(** When no further points are on the planes of the simplices, the lines in two dimensions, and the filled areas in three,
    cover the whole surface. *)
Theorem C102_hull_surface :
  forall d P E simplices vertices,
    d = 2 \/ d = 3 -> is_hull d P E ->
    (forall e, In e E -> exists s, In s simplices /\ length s = d /\ NoDup s /\ (forall k, In k s -> k < length P) /\
       forall k, k < length P -> (inner (fst e) (nth k P []) + snd e == 0)%Q -> In k s) ->
    exists o, plot_hull d P simplices vertices = Drawn o /\
      forall x, length x = d -> on_hull P E x -> if d =? 2 then lines_cover d o x else faces_cover d o x.
Proof.
  intros d P E simplices vertices Hd HH Hf. pose proof HH as [_ [HP [HE Hh]]].
  assert (forall x, length x = d -> on_hull P E x -> exists s, In s simplices /\ length s = d /\ mixture d (take P s) x) as Hs.
  { intros x Lx [Hc [e [He Hz]]]. destruct (Hf e He) as [s [Hs [Ls [Hn [Hr Hk]]]]]. exists s. split; auto. split; auto.
    apply (mixture_face d (fst e) (snd e) P s x); auto.
    - intros p Hp. apply (proj2 (Hh p (HP p Hp))); auto. apply mixture_point; auto.
    - apply (C83_contains d P E x HH Lx). exact Hc. }
  destruct Hd as [-> | ->]; cbn [plot_hull]; eexists; (split; [reflexivity|]); cbn [Nat.eqb]; intros x Lx Hx; destruct (Hs x Lx Hx) as [s [Hin [Ls Hm]]].
  - exists (take P s). split; [apply in_map; exact Hin|]. destruct s as [|p [|q [|]]]; try discriminate. apply line_covers_pair. exact Hm.
  - exists (take P s). split; [apply in_map; exact Hin|exact Hm].
Qed.

Example C102_hull_surface_example :
  let P := [[0; 0]; [4; 0]; [0; 3]]%Q in
  let E := [([-1; 0], 0); ([0; -1], 0); ([3 # 5; 4 # 5], - (12 # 5))]%Q in
  forall e, In e E -> exists s, In s [[2; 0]; [1; 0]; [2; 1]] /\ length s = 2 /\ NoDup s /\ (forall k, In k s -> k < length P) /\
    forall k, k < length P -> (inner (fst e) (nth k P []) + snd e == 0)%Q -> In k s.
Proof.
  intros P E e [<-|[<-|[<-|[]]]]; [exists [2; 0]|exists [1; 0]|exists [2; 1]]; (split; [cbn; auto|]); (split; [reflexivity|]);
    (split; [repeat constructor; cbn; intuition lia|]); (split; [cbn; intros k [<-|[<-|[]]]; lia|]);
    intros [|[|[|k]]] Hk Hz; cbn in Hk; try lia; cbn; auto; vm_compute in Hz; discriminate.
Qed.

(** The outline of the filled polygon is on the surface, given that consecutive vertices are on a common side (scipy: the
    vertices are in counterclockwise order). *)
Theorem C102_hull_outline :
  forall P E simplices vertices,
    is_hull 2 P E -> vertices <> [] -> (forall k, In k vertices -> k < length P) ->
    (forall k a b, nth_error (vertices ++ [hd 0 vertices]) k = Some a -> nth_error (vertices ++ [hd 0 vertices]) (S k) = Some b ->
       exists e, In e E /\ (inner (fst e) (nth a P []) + snd e == 0)%Q /\ (inner (fst e) (nth b P []) + snd e == 0)%Q) ->
    exists o l, plot_hull 2 P simplices vertices = Drawn o /\ ol_faces o = [l] /\ length l = length vertices /\
      forall x, length x = 2 -> line_covers 2 (l ++ [hd [] l]) x -> on_hull P E x.
Proof.
  intros P E simplices vertices HH Hne Hr Hv. pose proof HH as [_ [HP [HE Hh]]].
  eexists. eexists. split; [reflexivity|]. split; [reflexivity|]. split; [apply map_length|].
  intros x Lx [k [u [v [Hu [Hw Hm]]]]].
  assert (take P vertices ++ [hd [] (take P vertices)] = map (fun a => nth a P []) (vertices ++ [hd 0 vertices])) as R
    by (destruct vertices as [|a ks]; [congruence|]; rewrite map_app; reflexivity).
  rewrite R, nth_error_map in Hu, Hw.
  destruct (nth_error (vertices ++ [hd 0 vertices]) k) as [a|] eqn:Ea; [|discriminate]. destruct (nth_error (vertices ++ [hd 0 vertices]) (S k)) as [b|] eqn:Eb; [|discriminate].
  injection Hu as <-. injection Hw as <-. destruct (Hv k a b Ea Eb) as [e [He [Ha Hb]]].
  assert (forall c j, nth_error (vertices ++ [hd 0 vertices]) j = Some c -> In (nth c P []) P) as Hin.
  { intros c j Hc. apply nth_In. apply Hr. apply nth_error_In in Hc. apply in_app_iff in Hc. destruct Hc as [Hc|[<-|[]]]; auto. destruct vertices; [congruence|left; reflexivity]. }
  split.
  - apply (hull_contains_iff 2 P E x 0 HH Lx). intros e' He'. apply (mixture_below 2 _ _ [nth a P []; nth b P []]); auto.
    intros p Hp. assert (In p P) as Hp' by (destruct Hp as [<-|[<-|[]]]; eauto). apply (proj2 (Hh p (HP p Hp'))); auto. apply mixture_point; auto.
  - exists e. split; auto. apply (mixture_on 2 _ _ [nth a P []; nth b P []]); auto. intros p [<-|[<-|[]]]; assumption.
Qed.

Example C102_hull_outline_example :
  let P := [[0; 0]; [4; 0]; [1; 1]; [0; 3]]%Q in
  let E := [([-1; 0], 0); ([0; -1], 0); ([3 # 5; 4 # 5], - (12 # 5))]%Q in
  (forall k a b, nth_error [0; 1; 3; 0] k = Some a -> nth_error [0; 1; 3; 0] (S k) = Some b ->
     exists e, In e E /\ (inner (fst e) (nth a P []) + snd e == 0)%Q /\ (inner (fst e) (nth b P []) + snd e == 0)%Q) /\
  plot_hull 2 P [[3; 0]; [1; 0]; [3; 1]] [0; 1; 3]
  = Drawn (mkOutline [[[0; 3]; [0; 0]]; [[4; 0]; [0; 0]]; [[0; 3]; [4; 0]]]%Q [[[0; 0]; [4; 0]; [0; 3]]]%Q).
Proof.
  cbv zeta. split; [|reflexivity]. intros [|[|[|[|k]]]] a b Ha Hb; cbn in Ha, Hb; try discriminate; try (destruct k; discriminate);
    injection Ha as <-; injection Hb as <-; [exists ([0; -1], 0)%Q|exists ([3 # 5; 4 # 5], - (12 # 5))%Q|exists ([-1; 0], 0)%Q];
    (split; [cbn; auto|]); split; reflexivity.
Qed.

(** Hulls of other dimensions are not implemented. *)
Theorem C102_hull_other :
  forall d P simplices vertices, d <> 2 -> d <> 3 -> plot_hull d P simplices vertices = Failed NotImplementedErr.
Proof. intros [|[|[|[|d]]]] P simplices vertices H2 H3; try reflexivity; lia. Qed.

Example C102_hull_other_example : plot_hull 4 [[0; 0; 0; 0]]%Q [] [] = Failed NotImplementedErr.
Proof. reflexivity. Qed.

Print Assumptions C102_box.
Print Assumptions C102_box_outline.
Print Assumptions C102_box_other.
Print Assumptions C102_hull.
Print Assumptions C102_hull_surface.
Print Assumptions C102_hull_outline.
Print Assumptions C102_hull_other.
