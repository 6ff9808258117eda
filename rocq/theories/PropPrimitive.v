(** * Property C62 (lattpy/__init__.py, lattice.py, structure.py: primitive builds) *)
From Coq Require Import String List ZArith QArith Qround Qabs Qminmax Bool Arith Lia Lqa Permutation.
From Verif Require Import Np NpFacts LinAlg LinFacts AtomModel SpecUtils SpecBasis SpecSpatial BasisModel BasisProofs
  SpatialModel SpatialProofs PropSpatial ShapeModel ShapeProofs PropShape SpecStructure SpecBuild StructureModel StructureFacts
  StructureProofs AnalyzeProofs BuildProofs PropBuild KDBrute LatticeModel PropData PropStructure LatticeExamples PropFailed PropDataMap PresetModel.
Import ListNotations.
Open Scope nat_scope.
Open Scope list_scope.

(** ** Bases of orthogonal lattice vectors along the axes *)

(** The lattice vectors point along the axes and have the lengths [cs]. *)
Definition axis_lattice (b : basis) (cs : list Q) : Prop :=
  valid_basis b /\ length cs = b_dim b /\
  forall i j, i < b_dim b -> j < b_dim b -> (0 < nth i cs 0 /\ entry (b_mat b) i j == nth i cs 0 * delta i j)%Q.

Section Axis.
  Variable b : basis.
  Variable cs : list Q.
  Hypothesis Hax : axis_lattice b cs.
  Let d := b_dim b.

  Lemma axis_pos i : i < d -> (0 < nth i cs 0)%Q.
  Proof. intro Hi. destruct Hax as [_ [_ H]]. apply (H i i Hi Hi). Qed.

  Lemma axis_entry i j : i < d -> j < d -> (entry (b_mat b) i j == nth i cs 0 * delta i j)%Q.
  Proof. intros Hi Hj. destruct Hax as [_ [_ H]]. apply (H i j Hi Hj). Qed.

  Lemma axis_matvec x i : length x = d -> i < d -> (nth i (matvec (b_mat b) x) 0 == nth i cs 0 * nth i x 0)%Q.
  Proof.
    intros Hx Hi. destruct Hax as [Hv _]. rewrite (nth_matvec_sum d); [|apply Hv|auto|auto].
    rewrite (sum_ext d _ (fun k => nth i cs 0 * (delta i k * nth k x 0))%Q).
    - rewrite sum_scale, sum_delta by auto. reflexivity.
    - intros k Hk. rewrite axis_entry by auto. ring.
  Qed.

  Lemma axis_inverse i j : i < d -> j < d -> (entry (b_inv b) i j * nth j cs 0 == delta i j)%Q.
  Proof.
    intros Hi Hj. destruct Hax as [[_ [_ [_ H]]] _]. rewrite <- (H i j Hi Hj).
    rewrite (sum_ext _ _ (fun k => delta j k * (entry (b_inv b) i k * nth k cs 0))%Q).
    - fold d. rewrite sum_delta by auto. reflexivity.
    - intros k Hk. rewrite axis_entry by auto. unfold delta. rewrite Nat.eqb_sym. destruct (j =? k); ring.
  Qed.

  Lemma axis_coord p i : i < d -> (coord b p i == nth i p 0 / nth i cs 0)%Q.
  Proof.
    intro Hi. unfold coord, coordinate. fold d.
    rewrite (sum_ext d _ (fun k => delta i k * (nth k p 0 / nth k cs 0))%Q).
    - rewrite sum_delta by auto. reflexivity.
    - intros k Hk. pose proof (axis_pos k Hk). rewrite <- (axis_inverse i k Hi Hk). field. lra.
  Qed.

  Lemma axis_imatvec x i : length x = d -> i < d -> (nth i (matvec (b_inv b) x) 0 == nth i x 0 / nth i cs 0)%Q.
  Proof.
    intros Hx Hi. destruct Hax as [[_ [Hsq _]] _]. rewrite (nth_matvec_sum d); auto. apply (axis_coord x i Hi).
  Qed.

  Lemma axis_max_vectors i : i < d -> (nth i (max_vectors b) 0 == nth i cs 0)%Q.
  Proof.
    intro Hi. unfold max_vectors, b_vectors. destruct Hax as [[Hsq _] _].
    assert (forall j, j < d -> nth j (transpose (b_dim b) (b_mat b)) [] = map (fun row => nth j row 0%Q) (b_mat b)) as Hrow.
    { intros j Hj. unfold transpose. rewrite (nth_map_in _ _ _ 0) by (rewrite seq_length; auto). rewrite seq_nth by auto. reflexivity. }
    assert (length (transpose (b_dim b) (b_mat b)) = d) as Hlen by (unfold transpose; rewrite map_length, seq_length; reflexivity).
    assert (forall v, In v (transpose (b_dim b) (b_mat b)) -> exists j, j < d /\ nth i v 0%Q = entry (b_mat b) i j) as Hin.
    { intros v Hv. destruct (In_nth _ _ [] Hv) as [j [Hj <-]]. assert (j < d) by (rewrite <- Hlen; exact Hj). clear Hj. exists j. split; auto. rewrite Hrow by auto.
      rewrite (nth_map_in _ _ _ []) by (destruct Hsq as [E _]; rewrite E; auto). reflexivity. }
    assert (In (nth i (transpose (b_dim b) (b_mat b)) []) (transpose (b_dim b) (b_mat b))) as Hii by (apply nth_In; lia).
    assert (nth i (nth i (transpose (b_dim b) (b_mat b)) []) 0%Q = entry (b_mat b) i i) as Eii.
    { rewrite Hrow by auto. rewrite (nth_map_in _ _ _ []) by (destruct Hsq as [E _]; rewrite E; auto). reflexivity. }
    destruct (transpose (b_dim b) (b_mat b)) as [|v0 rest] eqn:E; [destruct Hii|].
    assert (length v0 = d) as Hv0.
    { specialize (Hrow 0). cbn in Hrow. rewrite Hrow by lia. rewrite map_length. apply Hsq. }
    rewrite (nth_map_in _ _ _ 0) by (rewrite seq_length; lia). rewrite seq_nth by lia. cbn [Nat.add].
    destruct (qmax_list_is_max (nth i v0 0%Q) (map (fun v => nth i v 0%Q) rest)) as [[x [Hx Ex]] Hle].
    change (nth i v0 0%Q :: map (fun v => nth i v 0%Q) rest) with (map (fun v => nth i v 0%Q) (v0 :: rest)) in Hx, Hle.
    pose proof (axis_pos i Hi) as Hp.
    assert (nth i cs 0 <= qmax_list (nth i v0 0) (map (fun v => nth i v 0) rest))%Q as H1.
    { apply (Qle_trans _ (entry (b_mat b) i i)).
      - rewrite axis_entry by auto. unfold delta. rewrite Nat.eqb_refl. lra.
      - rewrite <- Eii. apply Hle. apply (in_map (fun v => nth i v 0%Q)). exact Hii. }
    assert (x <= nth i cs 0)%Q as H2.
    { apply in_map_iff in Hx. destruct Hx as [v [<- Hv]]. destruct (Hin v Hv) as [j [Hj ->]]. rewrite axis_entry by auto.
      unfold delta. destruct (i =? j); lra. }
    lra.
  Qed.

  (** The limits of the box with edges [s] in units of the lattice vectors. *)
  Lemma axis_limits s i : length s = d -> i < d -> (forall j, j < d -> (0 <= nth j s 0)%Q) ->
    let lim := shape_limits (SBoxBasis s (vzero d) (b_mat b) (b_inv b)) in
    length lim = d /\ (nth i (map fst lim) 0 == 0 /\ nth i (map snd lim) 0 == nth i cs 0 * nth i s 0)%Q.
  Proof.
    intros Hs Hi H0 lim. cbn [shape_limits] in lim.
    set (corners := box_corners s (vzero d)) in lim.
    assert (forall c, In c corners -> length c = d) as Hcl by (intros c Hc; apply (corner_length d s (vzero d)); auto; apply repeat_length).
    assert (length lim = d) as Hll.
    { apply point_limits_length.
      - intro E. apply map_eq_nil in E. apply (box_corners_nonempty s (vzero d)). exact E.
      - intros p Hp. apply in_map_iff in Hp. destruct Hp as [c [<- Hc]]. destruct Hax as [[Hsq _] _]. apply matvec_len. exact Hsq. }
    split; auto.
    destruct (nth_error_lt lim i) as [[lo hi] Hn]; [lia|].
    assert (nth i (map fst lim) 0%Q = lo) as -> by (apply nth_of_nth_error; rewrite nth_error_map', Hn; reflexivity).
    assert (nth i (map snd lim) 0%Q = hi) as -> by (apply nth_of_nth_error; rewrite nth_error_map', Hn; reflexivity).
    apply point_limits_spec in Hn. destruct Hn as [[[x [Hx Ex]] Hlo] [[y [Hy Ey]] Hhi]].
    assert (forall z, In z (map (fun p => nth i p 0%Q) (map (matvec (b_mat b)) corners)) -> (z == 0 \/ z == nth i cs 0 * nth i s 0)%Q) as Hz.
    { intros z Hz. apply in_map_iff in Hz. destruct Hz as [p [<- Hp]]. apply in_map_iff in Hp. destruct Hp as [c [<- Hc]].
      rewrite axis_matvec by auto. apply In_box_corners in Hc. destruct Hc as [o [-> Ho]].
      assert (length o = d) as Hol by (apply Forall2_len in Ho; lia).
      assert (nth i o 0 = 0 \/ nth i o 0 = nth i s 0)%Q as Hoi.
      { clear -Ho. revert i. induction Ho as [|a c o s H Ho IH]; intros [|i]; cbn; auto. }
      rewrite nth_vadd by (unfold vzero; rewrite repeat_length; auto). unfold vzero. rewrite nth_repeat.
      destruct Hoi as [E|E]; rewrite E; [left|right]; ring. }
    assert (forall o, Forall2 (fun x s => x = 0%Q \/ x = s) o s -> length o = d ->
              exists z, In z (map (fun p => nth i p 0%Q) (map (matvec (b_mat b)) corners)) /\ (z == nth i cs 0 * nth i o 0)%Q) as Hex.
    { intros o Ho Hol. exists (nth i (matvec (b_mat b) (vadd (vzero d) o)) 0%Q). split.
      - apply (in_map (fun p => nth i p 0%Q)). apply in_map. apply In_box_corners. exists o. auto.
      - rewrite axis_matvec by (auto; rewrite vadd_length; unfold vzero; rewrite repeat_length; auto).
        rewrite nth_vadd by (unfold vzero; rewrite repeat_length; auto). unfold vzero. rewrite nth_repeat. ring. }
    destruct (Hex (repeat 0%Q d)) as [z0 [Hz0 Ez0]].
    { clear -Hs. revert s Hs. induction d as [|n IH]; intros [|x s] E; try discriminate; cbn; constructor; auto. }
    { apply repeat_length. }
    destruct (Hex s) as [z1 [Hz1 Ez1]]; auto.
    { clear. induction s; constructor; auto. }
    rewrite nth_repeat in Ez0. pose proof (Hlo _ Hz0). pose proof (Hlo _ Hz1). pose proof (Hhi _ Hz0). pose proof (Hhi _ Hz1).
    pose proof (axis_pos i Hi). specialize (H0 i Hi). assert (0 <= nth i cs 0 * nth i s 0)%Q by nra.
    destruct (Hz x Hx), (Hz y Hy); lra.
  Qed.
End Axis.

(** ** C62 *)

(** A primitive build on an axis-parallel lattice with one atom at the origin: the sites are cut off both at the
    requested number of cells and, by lattice constants, at the requested number times the constant minus a tenth. *)
Theorem C62_primitive_sites :
  forall b cs s,
    let d := b_dim b in
    axis_lattice b cs -> 1 <= d -> length s = d ->
    (forall i, i < d -> (0 <= nth i s 0 /\ 1#10 <= nth i s 0 * nth i cs 0 < inject_Z (2 ^ 62))%Q) ->
    exists I P, build_indices b cs [repeat 0%Q d] (AShape (build_shape b (ASize s) true None)) true None true None = Ok (I, P) /\
      NoDup I /\
      forall n, In (n ++ [0%Z]) I <->
        length n = d /\ forall i, i < d ->
          (0 <= nth i n 0)%Z /\
          (inject_Z (nth i n 0%Z) <= nth i s 0 + (1#1000) /\ inject_Z (nth i n 0%Z) <= nth i s 0 * nth i cs 0 - (1#10))%Q.
Proof.
  intros b cs s d Hax Hd Hs Hrange. pose proof Hax as [Hb [Hcs _]]. fold d in Hcs.
  assert (forall j, j < d -> (0 <= nth j s 0)%Q) as H0 by (intros j Hj; apply Hrange; auto).
  cbn [build_shape]. rewrite Hs. set (sh := SBoxBasis s (vzero d) (b_mat b) (b_inv b)).
  set (lim := shape_limits sh).
  assert (length lim = d) as Hll by (destruct (axis_limits b cs Hax s 0 Hs) as [H _]; auto).
  set (lower := map fst lim). set (size0 := vsub (map snd lim) (map fst lim)).
  set (size := vsub (map2 Qmult size0 (max_vectors b)) (vscale (1#10) cs)).
  assert (length lower = d) as Hl by (unfold lower; rewrite map_length; auto).
  assert (length size0 = d) as Hs0 by (unfold size0; rewrite vsub_length; rewrite !map_length; auto).
  assert (length (map2 Qmult size0 (max_vectors b)) = d) as Hm2 by (rewrite map2_length, max_vectors_length by auto; fold d; lia).
  assert (length size = d) as Hsz.
  { unfold size. rewrite vsub_length; auto. unfold vscale. rewrite map_length. lia. }
  assert (forall i, i < d -> (nth i lower 0 == 0)%Q) as Elower.
  { intros i Hi. destruct (axis_limits b cs Hax s i Hs Hi H0) as [_ [H _]]. exact H. }
  assert (forall i, i < d -> (nth i size 0 == (nth i s 0 * nth i cs 0 - (1#10)) * nth i cs 0)%Q) as Esize.
  { intros i Hi. unfold size. rewrite nth_vsub by (unfold vscale; rewrite map_length; lia).
    rewrite (nth_map2 _ _ _ _ 0%Q 0%Q) by (rewrite ?max_vectors_length by auto; fold d; lia).
    unfold vscale. rewrite (nth_map_in _ _ _ 0%Q) by lia. rewrite (axis_max_vectors b cs Hax i Hi).
    unfold size0. rewrite nth_vsub by (rewrite !map_length; auto).
    assert (nth i (map fst lim) 0 == 0 /\ nth i (map snd lim) 0 == nth i cs 0 * nth i s 0)%Q as [E1 E2] by apply (axis_limits b cs Hax s i Hs Hi H0).
    rewrite E1, E2. ring. }
  set (f := fun i => Qfloor (nth i s 0 * nth i cs 0 - (1#10))%Q).
  assert (forall i, i < d -> (0 <= f i < 2 ^ 62)%Z) as Hf.
  { intros i Hi. destruct (Hrange i Hi) as [_ [R1 R2]]. unfold f. split.
    - apply (Qfloor_resp_le 0). lra.
    - rewrite Zlt_Qlt. eapply Qle_lt_trans; [apply Qfloor_le|]. lra. }
  assert (forall i, i < d -> nth i (nvec_limits b lower size 0) (0, 0)%Z = (-1, f i + 1)%Z) as Hlim.
  { intros i Hi. destruct (nvec_range b lower (vadd lower size)) as [lo hi] eqn:E.
    rewrite (nth_nvec_limits b lower size i lo hi) by auto.
    pose proof (range_spec b Hb lower (vadd lower size) Hl) as Hr. rewrite E in Hr.
    destruct Hr as [_ [_ Hr]]; [fold d; rewrite vadd_length; lia|]. destruct (Hr i Hi) as [Hlo [Hhi _]].
    destruct (range_attained b lower size lo hi Hb Hl Hsz E i Hi) as [[p [Hp [Ep Hpp]]] [q [Hq [Eq Hqq]]]].
    pose proof (axis_pos b cs Hax i Hi) as Hc.
    assert (forall p, (nth i p 0 == 0)%Q -> Qfloor (coord b p i) = 0%Z) as Hzero.
    { intros p' E'. apply (Qfloor_comp _ 0). rewrite (axis_coord b cs Hax p' i Hi), E'. field. lra. }
    assert (forall p, (nth i p 0 == nth i lower 0 + nth i size 0)%Q -> Qfloor (coord b p i) = f i) as Hend.
    { intros p' E'. unfold f. apply Qfloor_comp. rewrite (axis_coord b cs Hax p' i Hi), E', Elower, Esize by auto. field. lra. }
    rewrite Hzero in Hlo by auto. rewrite Hend in Hhi by (apply nth_vadd; lia).
    specialize (Hf i Hi).
    assert (nth i lo 0 = 0 \/ nth i lo 0 = f i)%Z as Hlo'.
    { destruct Hpp as [Hpp|Hpp]; specialize (Hpp i Hi).
      - left. rewrite Ep. apply Hzero. rewrite Hpp. auto.
      - destruct Hpp as [Hpp|Hpp]; [left; rewrite Ep; auto|right; rewrite Ep; auto]. }
    assert (nth i hi 0 = 0 \/ nth i hi 0 = f i)%Z as Hhi'.
    { destruct Hqq as [Hqq|Hqq]; specialize (Hqq i Hi).
      - left. rewrite Eq. apply Hzero. rewrite Hqq. auto.
      - destruct Hqq as [Hqq|Hqq]; [left; rewrite Eq; auto|right; rewrite Eq; auto]. }
    f_equal; lia. }
  pose proof (nvec_limits_length b lower size 0 Hb Hl Hsz) as Hlen. fold d in Hlen.
  assert (nvec_limits b lower size 0 <> []) as Hne by (intro E; rewrite E in Hlen; cbn in Hlen; lia).
  assert (forall l, In l (nvec_limits b lower size 0) -> exists i, i < d /\ l = (-1, f i + 1)%Z) as Hlin.
  { intros l Hin. destruct (In_nth _ _ (0, 0)%Z Hin) as [i [Hi <-]]. exists i. split; [lia|]. apply Hlim. lia. }
  assert (no_wrap (nvec_limits b lower size 0)) as [w [Hw Hext]].
  { apply no_wrap_from; auto.
    - exists (2 ^ 62)%Z. split; [|lia]. intros l Hin. destruct (Hlin l Hin) as [i [Hi ->]]. specialize (Hf i Hi). cbn [fst snd]. lia.
    - intros l Hin. destruct (Hlin l Hin) as [i [Hi ->]]. specialize (Hf i Hi). cbn [fst snd]. lia. }
  destruct (C16_vindices_enumerates_the_grid (nvec_limits b lower size 0) (Some 0) w Hne) as [cells [Ec [Hnd [Hcells _]]]]; auto.
  { intros l Hin. destruct (Hlin l Hin) as [i [Hi ->]]. specialize (Hf i Hi). cbn [fst snd]. lia. }
  { intros a Ea. injection Ea as <-. lia. }
  assert (build_translation_vectors b cs (AShape sh) true None false 0 = Ok cells) as Ebt.
  { rewrite build_cells_eq. unfold requested_box. fold lim. fold lower. fold size0.
    change (map2 Qminus (map snd lim) lower) with size0. cbv beta iota zeta.
    fold d. rewrite (proj2 (Nat.eqb_eq _ _) Hl). unfold vsub at 1. fold (vsub (map snd lim) lower). change (vsub (map snd lim) lower) with size0.
    rewrite (proj2 (Nat.eqb_eq _ _) Hs0). cbn [negb]. change (vsub (map2 Qmult size0 (max_vectors b)) (vscale (1 # 10) cs)) with size.
    rewrite Ec. reflexivity. }
  destruct (checked_members b cs [repeat 0%Q d] (AShape sh) true None (fun p => shape_contains sh p (1#1000) = true) cells Hb) as [I [P [EI HI]]]; auto.
  - intros r [<-|[]]. apply repeat_length.
  - discriminate.
  - intros p q Hp Hv. rewrite (contains_veq d sh p q); [reflexivity| |auto|auto]. left. exists s, (vzero d).
    split; [|split; [auto|apply repeat_length]]. cbn. split; auto.
  - intros points _. cbn [check_points]. eexists. split; [reflexivity|]. rewrite map_length. split; auto. intros k p Hk.
    rewrite (nth_of_nth_error _ _ _ (shape_contains sh p (1#1000))); [reflexivity|]. unfold vec. rewrite nth_error_map', Hk. reflexivity.
  - exists I, P. split; auto.
    split; [eapply C33_no_site_twice; [exact Hb| | |exact EI]; [auto|intros r [<-|[]]; apply repeat_length]|].
    intro n. specialize (HI n 0 (repeat 0%Q d) eq_refl). change (Z.of_nat 0) with 0%Z in HI. rewrite HI. clear HI.
    rewrite Hcells, in_limits_nth, Hlen.
    assert (length n = d -> (shape_contains sh (lattice_point d (b_mat b) (repeat 0%Q d) n) (1#1000) = true <->
              forall i, i < d -> (- (1#1000) <= inject_Z (nth i n 0%Z) <= nth i s 0 + (1#1000))%Q)) as Hcont.
    { intro Hn. cbn [shape_contains sh]. destruct Hb as [_ [Hsq _]].
      rewrite (box_contains_spec d) by (auto; try apply repeat_length; apply matvec_len; auto).
      assert (forall i, i < d -> (nth i (matvec (b_inv b) (lattice_point d (b_mat b) (repeat 0%Q d) n)) 0 == inject_Z (nth i n 0%Z))%Q) as Ei.
      { intros i Hi. rewrite (axis_imatvec b cs Hax) by (auto; apply lattice_point_length). rewrite nth_lattice_point by auto. rewrite nth_repeat.
        rewrite (sum_ext d _ (fun k => nth i cs 0 * (delta i k * inject_Z (nth k n 0%Z)))%Q).
        - rewrite sum_scale, sum_delta by auto. pose proof (axis_pos b cs Hax i Hi). field. lra.
        - intros k Hk. rewrite (axis_entry b cs Hax) by auto. ring. }
      unfold vzero. split; intros H i Hi; specialize (H i Hi); rewrite Ei in * by auto; rewrite nth_repeat in *; lra. }
    split.
    + intros [[Hn Hc] Hp]. split; auto. pose proof (proj1 (Hcont Hn) Hp) as Hp'. clear Hp. rename Hp' into Hp. intros i Hi. specialize (Hp i Hi). specialize (Hc i Hi).
      rewrite (Hlim i Hi) in Hc. cbn [fst snd] in Hc. split.
      * destruct (Z.eq_dec (nth i n 0%Z) (-1)) as [E|]; [|lia]. rewrite E in Hp. change (inject_Z (-1)) with (-1)%Q in Hp. lra.
      * split; [lra|]. apply (Qle_trans _ (inject_Z (f i))); [rewrite <- Zle_Qle; lia|apply Qfloor_le].
    + intros [Hn H]. split; [split; auto|].
      * intros i Hi. rewrite (Hlim i Hi). cbn [fst snd]. destruct (H i Hi) as [H1 [H2 H3]].
        assert (nth i n 0 <= f i)%Z; [|lia]. rewrite <- (Qfloor_Z (nth i n 0%Z)). apply Qfloor_resp_le. exact H3.
      * apply (Hcont Hn). intros i Hi. destruct (H i Hi) as [H1 [H2 H3]]. split; auto.
        rewrite Zle_Qle in H1. change (inject_Z 0) with 0%Q in H1. lra.
Qed.

(** The number of cells along an axis: requested [s], lattice constant [a]. *)
Definition cells_along (s a : Q) : Z := (Z.min (Qfloor (s + (1#1000))) (Qfloor (s * a - (1#10))) + 1)%Z.

(** Product of [f 0], ..., [f (d - 1)]. *)
Fixpoint times (d : nat) (f : nat -> Z) : Z := match d with 0 => 1%Z | S n => (times n f * f n)%Z end.

Lemma times_ext d f g : (forall i, i < d -> f i = g i) -> times d f = times d g.
Proof. induction d as [|d IH]; intro H; cbn [times]; auto. rewrite IH by (intros; apply H; lia). rewrite (H d) by lia. reflexivity. Qed.

Lemma times_shift d f : times (S d) f = (f 0%nat * times d (fun i => f (S i)))%Z.
Proof.
  induction d as [|d IH]; [cbn [times]; lia|]. change (times (S (S d)) f) with (times (S d) f * f (S d))%Z. rewrite IH. cbn [times]. lia.
Qed.

Lemma product_count (ls : list (list Z)) :
  Z.of_nat (length (product ls)) = times (length ls) (fun i => Z.of_nat (length (nth i ls []))).
Proof.
  induction ls as [|l ls IH]; [reflexivity|]. cbn [length product]. rewrite times_shift. cbn [nth]. rewrite <- IH. clear IH.
  rewrite <- Nat2Z.inj_mul. f_equal. induction l as [|x l IH]; [reflexivity|]. cbn [flat_map length]. rewrite app_length, map_length, IH. lia.
Qed.

Lemma floor_ge q z : (z <= Qfloor q)%Z <-> (inject_Z z <= q)%Q.
Proof.
  split; intro H.
  - eapply Qle_trans; [|apply Qfloor_le]. rewrite <- Zle_Qle. exact H.
  - rewrite <- (Qfloor_Z z). apply Qfloor_resp_le. exact H.
Qed.

Theorem C62_number_of_sites :
  forall b cs s,
    let d := b_dim b in
    axis_lattice b cs -> 1 <= d -> length s = d ->
    (forall i, i < d -> (0 <= nth i s 0 /\ 1#10 <= nth i s 0 * nth i cs 0 < inject_Z (2 ^ 62))%Q) ->
    exists I P, build_indices b cs [repeat 0%Q d] (AShape (build_shape b (ASize s) true None)) true None true None = Ok (I, P) /\
      Z.of_nat (length I) = times d (fun i => cells_along (nth i s 0%Q) (nth i cs 0%Q)).
Proof.
  intros b cs s d Hax Hd Hs Hrange. destruct (C62_primitive_sites b cs s Hax Hd Hs Hrange) as [I [P [E [Hnd HI]]]]. fold d in E, HI.
  exists I, P. split; auto. pose proof Hax as [Hb [Hcs _]].
  set (ls := map (fun i => zrange 0 (cells_along (nth i s 0%Q) (nth i cs 0%Q))) (seq 0 d)).
  assert (length ls = d) as Hls by (unfold ls; rewrite map_length, seq_length; auto).
  assert (forall i, i < d -> nth i ls [] = zrange 0 (cells_along (nth i s 0%Q) (nth i cs 0%Q))) as Hnth.
  { intros i Hi. unfold ls. rewrite (nth_map_in _ _ _ 0) by (rewrite seq_length; auto). rewrite seq_nth by auto. reflexivity. }
  assert (Permutation I (map (fun n => n ++ [0%Z]) (product ls))) as Hperm.
  { apply NoDup_Permutation; auto.
    - apply FinFun.Injective_map_NoDup.
      + intros u v H. apply app_inj_tail in H. apply H.
      + apply NoDup_product. apply Forall_forall. intros l Hl. unfold ls in Hl. apply in_map_iff in Hl. destruct Hl as [i [<- _]]. apply NoDup_zrange.
    - intro site.
      assert (forall n, In n (product ls) <-> length n = d /\ forall i, i < d -> (0 <= nth i n 0 < cells_along (nth i s 0%Q) (nth i cs 0%Q))%Z) as Hprod.
      { intro n. rewrite In_product. rewrite <- Hls at 1. rewrite <- Hls. split.
        - intro H. assert (length n = length ls) as Hn by (apply (Forall2_len H)). split; auto. intros i Hi.
          specialize (Hnth i). rewrite Hls in Hi. specialize (Hnth Hi). rewrite <- In_zrange, <- Hnth. clear -H Hi Hls.
          rewrite <- Hls in Hi. clear Hls. revert i Hi. induction H as [|x l n ls Hx H IH]; intros i Hi; [cbn in Hi; lia|]. destruct i as [|i]; cbn; auto.
          apply IH. cbn in Hi. lia.
        - intros [Hn H]. assert (forall i, i < length ls -> In (nth i n 0%Z) (nth i ls [])) as H'.
          { intros i Hi. rewrite Hnth by lia. apply In_zrange. apply H. exact Hi. }
          clear -Hn H'. revert n Hn H'. induction ls as [|l ls IH]; intros [|x n] Hn H'; try discriminate; constructor.
          + apply (H' 0). cbn. lia.
          + apply IH; [cbn in Hn; lia|]. intros i Hi. apply (H' (S i)). cbn. lia. }
      assert (forall n, In n (product ls) <-> In (n ++ [0%Z]) I) as Hiff.
      { intro n. rewrite Hprod, HI. split; intros [Hn H]; (split; [exact Hn|]); intros i Hi; specialize (H i Hi).
        - unfold cells_along in H. rewrite <- !floor_ge. lia.
        - rewrite <- !floor_ge in H. unfold cells_along. lia. }
      split.
      + intro Hin. destruct (In_nth_error _ _ Hin) as [k Hk].
        destruct (C31_indices_and_positions_aligned b cs [repeat 0%Q d] (AShape (build_shape b (ASize s) true None)) true None true None I P Hb) as [Hl [Hal _]]; [auto| |exact E|].
        { intros r [<-|[]]. apply repeat_length. }
        destruct (nth_error_lt P k) as [p Hp]; [rewrite <- Hl; apply nth_error_length_lt in Hk; exact Hk|].
        destruct (Hal k site p Hk Hp) as [n [a [r [-> [_ [Ha _]]]]]]. destruct a as [|a]; [|destruct a; discriminate].
        apply in_map_iff. exists n. split; auto. apply Hiff. exact Hin.
      + intro Hin. apply in_map_iff in Hin. destruct Hin as [n [<- Hn]]. apply Hiff. exact Hn. }
  rewrite (Permutation_length Hperm), map_length, product_count, Hls. apply times_ext. intros i Hi. rewrite Hnth by auto.
  rewrite zrange_length, Z.sub_0_r. apply Z2Nat.id. destruct (Hrange i Hi) as [R1 [R2 _]].
  assert (0 <= Qfloor (nth i s 0 + (1#1000))%Q)%Z by (apply floor_ge; change (inject_Z 0) with 0%Q; lra).
  assert (0 <= Qfloor (nth i s 0 * nth i cs 0 - (1#10))%Q)%Z by (apply floor_ge; change (inject_Z 0) with 0%Q; lra).
  unfold cells_along. lia.
Qed.

(** Integer sizes: one site per requested cell for the constant 1, one more for constants from 11/10 on. *)
Corollary C62_integer_sizes :
  forall z a, (1 <= z)%Z ->
    ((a == 1)%Q -> cells_along (inject_Z z) a = z) /\ ((11#10 <= a)%Q -> cells_along (inject_Z z) a = (z + 1)%Z).
Proof.
  intros z a Hz. unfold cells_along.
  assert (Qfloor (inject_Z z + (1#1000))%Q = z) as E1.
  { apply Qfloor_unique; [lra|]. rewrite inject_Z_plus. change (inject_Z 1) with 1%Q. lra. }
  rewrite E1. rewrite Zle_Qle in Hz. change (inject_Z 1) with 1%Q in Hz. split; intro Ha.
  - assert (Qfloor (inject_Z z * a - (1#10))%Q = z - 1)%Z as ->; [|lia]. apply Qfloor_unique; rewrite Ha, ?Z.sub_add.
    + unfold Z.sub. rewrite inject_Z_plus. change (inject_Z (- (1))) with (- (1))%Q. lra.
    + lra.
  - assert (z <= Qfloor (inject_Z z * a - (1#10))%Q)%Z; [|lia]. apply floor_ge. nra.
Qed.

(** ** The finite hypercubic lattice *)

Lemma hypercubic_dim inv d a : b_dim (hypercubic inv d a) = d.
Proof.
  unfold hypercubic, new_basis, b_dim, scaled_eye. cbn [b_mat]. unfold transpose. rewrite !map_length, !seq_length. reflexivity.
Qed.

Lemma hypercubic_entry inv d a i j : i < d -> j < d -> (entry (b_mat (hypercubic inv d a)) i j == a * delta i j)%Q.
Proof.
  intros Hi Hj. unfold hypercubic, new_basis, entry, scaled_eye. cbn [b_mat]. unfold transpose.
  rewrite (nth_map_in _ _ _ 0) by (rewrite seq_length, map_length, seq_length; auto).
  rewrite seq_nth by (rewrite map_length, seq_length; auto). cbn [Nat.add].
  rewrite (nth_map_in _ _ _ []) by (rewrite map_length, seq_length; auto).
  rewrite (nth_map_in _ _ _ 0) by (rewrite seq_length; auto). rewrite seq_nth by auto. cbn [Nat.add].
  rewrite (nth_map_in _ _ _ 0) by (rewrite seq_length; auto). rewrite seq_nth by auto. cbn [Nat.add].
  unfold delta. rewrite Nat.eqb_sym. reflexivity.
Qed.

Lemma hypercubic_axis inv d a : (0 < a)%Q -> valid_basis (hypercubic inv d a) ->
  axis_lattice (hypercubic inv d a) (repeat (Qabs a) d).
Proof.
  intros Ha Hv. split; auto. rewrite repeat_length, hypercubic_dim. split; auto. intros i j Hi Hj.
  assert (nth i (repeat (Qabs a) d) 0 == a)%Q as E.
  { rewrite (nth_error_nth (repeat (Qabs a) d) i 0%Q (x := Qabs a)); [apply Qabs_pos; lra|]. apply nth_error_repeat. auto. }
  rewrite E. split; auto. apply hypercubic_entry; auto.
Qed.

(** All its sites are built from the atom at the origin; their number depends on the lattice constant. *)
Theorem C62_finite_hypercubic :
  forall query argsort inv s a at_ neighbors periodic l,
    let d := length s in
    1 <= d -> (0 < a)%Q -> valid_basis (hypercubic inv d a) ->
    (forall i, i < d -> (0 <= nth i s 0 /\ 1#10 <= nth i s 0 * a < inject_Z (2 ^ 62))%Q) ->
    finite_hypercubic query argsort inv (ASize s) a at_ neighbors true periodic = Ok l ->
    Z.of_nat (lt_num_sites l) = times d (fun i => cells_along (nth i s 0%Q) a) /\
    forall n, In (n ++ [0%Z]) (lt_indices l) <->
      length n = d /\ forall i, i < d -> (0 <= nth i n 0 < cells_along (nth i s 0%Q) a)%Z.
Proof.
  intros query argsort inv s a at_ nb periodic l d Hd Ha Hb Hrange H.
  set (b := hypercubic inv d a) in *. assert (b_dim b = d) as Hbd by apply hypercubic_dim.
  unfold finite_hypercubic in H. fold d in H. fold b in H.
  destruct (preset query b [(None, at_)] nb) as [st|e] eqn:Ep; [|discriminate].
  destruct (build query argsort (repeat (Qabs a) d) (new_lattice st) (ASize s) true None true None periodic None) as [l' [[]|e]] eqn:Eb; [|discriminate].
  injection H as ->.
  assert (st_basis st = b /\ st_positions st = [repeat 0%Q d]) as [Hsb Hsp].
  { unfold preset in Ep. cbn [add_atoms] in Ep. unfold add_atom in Ep. cbn [new_structure st_basis st_positions st_atoms st_frozen existsb app] in Ep.
    unfold vzero in Ep at 1. rewrite repeat_length, Nat.eqb_refl in Ep. cbn [negb Nat.eqb] in Ep.
    match type of Ep with context [add_connections query ?s0 nb true] => set (s0' := s0) in Ep end.
    assert (st_basis s0' = b /\ st_positions s0' = [repeat 0%Q d]) as [E1 E2] by (split; [reflexivity|]; rewrite <- Hbd; reflexivity).
    unfold add_connections in Ep. destruct (st_connections s0') as [conns|]; [|discriminate].
    match type of Ep with context [analyze query ?s1] => set (s1' := s1) in Ep end.
    destruct (analyze query s1') as [s2 r] eqn:Ea. destruct r as [?|]; [|discriminate]. injection Ep as <-.
    destruct (analyze_keeps query s1') as [K1 [_ [K2 _]]]. rewrite Ea in K1, K2. cbn [fst] in K1, K2.
    rewrite K1, K2. auto. }
  pose proof (hypercubic_axis inv d a Ha Hb) as Hax. fold b in Hax.
  assert (forall i, i < d -> (nth i (repeat (Qabs a) d) 0 == a)%Q) as Hcs.
  { intros i Hi. rewrite (nth_error_nth (repeat (Qabs a) d) i 0%Q (x := Qabs a)); [apply Qabs_pos; lra|]. apply nth_error_repeat. auto. }
  assert (forall i, i < b_dim b -> (0 <= nth i s 0 /\ 1#10 <= nth i s 0 * nth i (repeat (Qabs a) d) 0 < inject_Z (2 ^ 62))%Q) as Hrange'.
  { intros i Hi. rewrite Hbd in Hi. rewrite (Hcs i Hi). apply Hrange. auto. }
  assert (forall i, i < d -> cells_along (nth i s 0%Q) (nth i (repeat (Qabs a) d) 0%Q) = cells_along (nth i s 0%Q) a) as Hca.
  { intros i Hi. unfold cells_along. rewrite (Qfloor_comp (nth i s 0 * nth i (repeat (Qabs a) d) 0 - (1#10))%Q (nth i s 0 * a - (1#10))%Q); [reflexivity|].
    rewrite (Hcs i Hi). reflexivity. }
  destruct (C62_primitive_sites b (repeat (Qabs a) d) s Hax) as [I [P [E [Hnd HI]]]]; auto; [lia|].
  destruct (C62_number_of_sites b (repeat (Qabs a) d) s Hax) as [I' [P' [E' HN]]]; auto; [lia|].
  rewrite E in E'. injection E' as <- <-.
  destruct (C53_successful_build query argsort (repeat (Qabs a) d) (new_lattice st) (ASize s) true None true None periodic None l) as [_ [_ [_ [_ [_ [_ [_ HIP]]]]]]].
  - change (valid_basis (st_basis st)). rewrite Hsb. exact Hb.
  - intros _. change (length (repeat (Qabs a) d) = b_dim (st_basis st)). rewrite Hsb, repeat_length. auto.
  - change (forall r, In r (st_positions st) -> length r = b_dim (st_basis st)). rewrite Hsb, Hsp. intros r [<-|[]]. rewrite repeat_length. auto.
  - exact Eb.
  - cbn [lt_structure new_lattice] in HIP. unfold lt_basis in HIP. cbn [lt_structure new_lattice] in HIP. rewrite Hsb, Hsp in HIP.
    rewrite Hbd in *. destruct (HIP eq_refl I P E) as [EI _]. unfold lt_num_sites. rewrite EI. split.
    + rewrite HN. apply times_ext. exact Hca.
    + intro n. rewrite HI. split; intros [Hn H]; (split; [exact Hn|]); intros i Hi; specialize (H i Hi).
      * rewrite <- !floor_ge in H. rewrite <- (Hca i Hi). unfold cells_along. lia.
      * rewrite <- (Hca i Hi) in H. unfold cells_along in H. rewrite <- !floor_ge. lia.
Qed.

(** The inverse of a diagonal matrix. *)
Definition diagonal_inverse (m : mat) : mat := map (map (fun x => if Qeq_bool x 0 then 0 else Qred (/ x))%Q) m.

Definition sites_of (r : result lattice) : list (list Z) := match r with Ok l => lt_indices l | Raise _ => [] end.

(** A 3 x 2 lattice with the constant 3/2 has 4 x 3 sites. *)
Example C62_example :
  valid_basis (hypercubic diagonal_inverse 2 (3#2)) /\
  (exists l, finite_hypercubic brute dist_argsort diagonal_inverse (ASize [3; 2]%Q) (3#2) (ex_atom "A") 1 true None = Ok l /\
     lt_num_sites l = 12 /\ In [3; 2; 0]%Z (lt_indices l)) /\
  (forall i, i < 2 -> (0 <= nth i [3; 2] 0 /\ 1#10 <= nth i [3; 2] 0 * (3#2) < inject_Z (2 ^ 62))%Q) /\
  times 2 (fun i => cells_along (nth i [3; 2]%Q 0%Q) (3#2)) = 12%Z.
Proof.
  split; [|split; [|split]].
  - split; [|split; [|split]].
    + split; [reflexivity|]. intros r [<-|[<-|[]]]; reflexivity.
    + split; [reflexivity|]. intros r [<-|[<-|[]]]; reflexivity.
    + intros [|[|i]] [|[|j]] Hi Hj; cbn in Hi, Hj; try lia; reflexivity.
    + intros [|[|i]] [|[|j]] Hi Hj; cbn in Hi, Hj; try lia; reflexivity.
  - destruct (finite_hypercubic brute dist_argsort diagonal_inverse (ASize [3; 2]%Q) (3#2) (ex_atom "A") 1 true None) as [l|e] eqn:E.
    + exists l. split; auto. change (lt_num_sites l) with (length (sites_of (Ok l))). change (lt_indices l) with (sites_of (Ok l)).
      rewrite <- E. vm_compute. split; [reflexivity|]. repeat (try (left; reflexivity); right).
    + apply (f_equal sites_of) in E. vm_compute in E. discriminate.
  - intros [|[|i]] Hi; [| |lia]; cbn; repeat split; lra.
  - reflexivity.
Qed.

(** The expected claim, that the number of sites does not depend on the lattice constant, is false: [s = 4] gives
    4, 5 and 2 sites for the constants 1, 2 and 1/2. *)
Theorem C62_same_number_refuted :
  let sites a := length (sites_of (finite_hypercubic brute dist_argsort diagonal_inverse (ASize [4]%Q) a (ex_atom "A") 1 true None)) in
  sites 1%Q = 4 /\ sites 2%Q = 5 /\ sites (1#2)%Q = 2.
Proof. vm_compute. auto. Qed.

(** A tenth of a cell is taken off the size: site 1 is in a chain of size 1.15, but not in one of size 1.05. *)
Example C62_tenth_example :
  let sites s := sites_of (finite_hypercubic brute dist_argsort diagonal_inverse (ASize [s]%Q) 1 (ex_atom "A") 1 true None) in
  sites (23#20)%Q = [[0; 0]; [1; 0]]%Z /\ sites (21#20)%Q = [[0; 0]]%Z.
Proof. vm_compute. auto. Qed.

Print Assumptions C62_primitive_sites.
Print Assumptions C62_number_of_sites.
Print Assumptions C62_integer_sizes.
Print Assumptions C62_finite_hypercubic.
Print Assumptions C62_same_number_refuted.
