(** * Property C113 (lattpy/lattice.py: build; primitive blocks of hexagonal and honeycomb lattices) *)
From Coq Require Import String List ZArith QArith Qabs Qround Bool Arith Lia Lqa Permutation Sorting.Sorted.
From Verif Require Import Np NpFacts LinAlg LinFacts SpecUtils UtilsModel UtilsProofs SpecBasis AtomModel BasisModel BasisProofs
  NeighborCellProofs PropBasis SpatialModel SpecSpatial SpatialProofs KDProofs SpecStructure SpecBuild ShapeModel ShapeProofs PropShape PropSpatial StructureModel KDBrute RoundFacts StructureFacts
  DataModel SpecData DataFacts DataProofs PropData AnalyzeProofs StructureProofs PropStructure PropAnalyze FilterProofs SpecNeighbors
  NeighborProofs RadiusProofs RangeProofs PropNeighbors BuiltProofs BuildProofs PropBuild LatticeModel LatticeExamples PropFailed SpecGrid GridProofs SpecJoin SpecBlock
  PropBuilt PropBlock PropReciprocal PresetModel PropPreset PropPrimitive PropGrid SpecShell ShellProofs PropShell PropForm PropFormBuilt HoneycombModel PropHoneycomb PropHoneyBuilt
  PropHoneyTorus PropRing.
Import ListNotations.
Open Scope nat_scope.
Open Scope list_scope.

(** ** The cells that are searched *)

Lemma width_exists limits M : (forall l, In l limits -> Z.abs (fst l) <= M /\ Z.abs (snd l) <= M)%Z -> (0 <= M < 2 ^ 63)%Z ->
  exists w, width_of (flat_map (fun l => [fst l; snd l]) limits) w.
Proof.
  intros HM HM63.
  assert (forall w, (forall l, In l limits -> Z.abs (fst l) < 2 ^ (w - 1) /\ Z.abs (snd l) < 2 ^ (w - 1))%Z ->
       forall x, In x (flat_map (fun l => [fst l; snd l]) limits) -> fits_signed w x /\ fits_signed w (- x)) as Hfits.
    { intros w H x Hx. apply in_flat_map in Hx. destruct Hx as [l [Hl [<-|[<-|[]]]]]; specialize (H l Hl); unfold fits_signed; lia. }
    assert (forall w, {forall l, In l limits -> (Z.abs (fst l) < 2 ^ (w - 1) /\ Z.abs (snd l) < 2 ^ (w - 1))%Z} +
                      {exists l, In l limits /\ ~ (Z.abs (fst l) < 2 ^ (w - 1) /\ Z.abs (snd l) < 2 ^ (w - 1))%Z}) as Hdec.
    { intro w. destruct (forallb (fun l => (Z.abs (fst l) <? 2 ^ (w - 1)) && (Z.abs (snd l) <? 2 ^ (w - 1)))%Z limits) eqn:E.
      - left. intros l Hl. rewrite forallb_forall in E. specialize (E l Hl). lia.
      - right. apply not_true_iff_false in E. destruct (existsb (fun l => negb ((Z.abs (fst l) <? 2 ^ (w - 1)) && (Z.abs (snd l) <? 2 ^ (w - 1))))%Z limits) eqn:E2.
        + apply existsb_exists in E2. destruct E2 as [l [Hl Hb]]. exists l. split; auto. lia.
        + exfalso. apply E. apply forallb_forall. intros l Hl. apply negb_false_iff. apply not_true_iff_false. intro Hn.
          apply not_true_iff_false in E2. apply E2. apply existsb_exists. exists l. split; auto. }
    assert (forall w l, In l limits -> ~ (Z.abs (fst l) < 2 ^ (w - 1) /\ Z.abs (snd l) < 2 ^ (w - 1))%Z ->
       ~ (forall x, In x (flat_map (fun l => [fst l; snd l]) limits) -> fits_signed w x /\ fits_signed w (- x))) as Hnot.
    { intros w l Hl Hn H. apply Hn.
      assert (In (fst l) (flat_map (fun l => [fst l; snd l]) limits)) as H1 by (apply in_flat_map; exists l; cbn; auto).
      assert (In (snd l) (flat_map (fun l => [fst l; snd l]) limits)) as H2 by (apply in_flat_map; exists l; cbn; auto).
      apply H in H1. apply H in H2. unfold fits_signed in *. lia. }
    destruct (Hdec 8%Z) as [H8|[l8 [Hl8 Hn8]]].
    { exists 8%Z. split; [left; reflexivity|]. split; [apply Hfits; auto|]. intros w' Hw' _. unfold machine_width in Hw'. cbn in Hw'. lia. }
    destruct (Hdec 16%Z) as [H16|[l16 [Hl16 Hn16]]].
    { exists 16%Z. split; [right; left; reflexivity|]. split; [apply Hfits; auto|]. intros w' Hw' Hf. unfold machine_width in Hw'. cbn in Hw'.
      destruct Hw' as [<-|Hw']; [exfalso; apply (Hnot _ _ Hl8 Hn8 Hf)|lia]. }
    destruct (Hdec 32%Z) as [H32|[l32 [Hl32 Hn32]]].
    { exists 32%Z. split; [right; right; left; reflexivity|]. split; [apply Hfits; auto|]. intros w' Hw' Hf. unfold machine_width in Hw'. cbn in Hw'.
      destruct Hw' as [<-|[<-|Hw']]; [exfalso; apply (Hnot _ _ Hl8 Hn8 Hf)|exfalso; apply (Hnot _ _ Hl16 Hn16 Hf)|lia]. }
    exists 64%Z. split; [right; right; right; left; reflexivity|]. split.
    { apply Hfits. intros l Hl. specialize (HM l Hl). cbn [Z.sub]. change (64 - 1)%Z with 63%Z. lia. }
    intros w' Hw' Hf. unfold machine_width in Hw'. cbn in Hw'.
    destruct Hw' as [<-|[<-|[<-|Hw']]]; [exfalso; apply (Hnot _ _ Hl8 Hn8 Hf)|exfalso; apply (Hnot _ _ Hl16 Hn16 Hf)|exfalso; apply (Hnot _ _ Hl32 Hn32 Hf)|lia]. 
Qed.

Lemma searched limits M : limits <> [] -> (forall l, In l limits -> fst l <= snd l)%Z ->
  (forall l, In l limits -> Z.abs (fst l) <= M /\ Z.abs (snd l) <= M)%Z -> (0 <= M < 2 ^ 63)%Z ->
  exists cells w, vindices limits (Some 0) = Some cells /\ (8 <= w)%Z /\ (forall l, In l limits -> snd l < 2 ^ (w - 1))%Z /\
    (forall n, In n cells -> length n = length limits) /\
    (forall n, Forall2 (fun l x => fst l <= x < snd l /\ x - fst l < 2 ^ (w - 1))%Z limits n -> In n cells).
Proof.
  intros Hne Hle HM HM63. destruct (width_exists limits M HM HM63) as [w Hw].
  assert (8 <= w)%Z as H8 by (destruct Hw as [Hw _]; unfold machine_width in Hw; cbn in Hw; lia).
  do 2 eexists. split; [apply (vindices_unfold limits (Some 0) w); auto|].
  { intros a E. injection E as <-. destruct limits; [congruence|cbn; lia]. }
  split; [exact H8|]. split.
  { intros l Hl. destruct Hw as [_ [Hf _]]. assert (In (snd l) (flat_map (fun l => [fst l; snd l]) limits)) as H2 by (apply in_flat_map; exists l; cbn; auto).
    apply Hf in H2. unfold fits_signed in H2. lia. }
  cbn match. split.
  - intros n Hn. apply In_sort_stable in Hn. apply In_product_values in Hn. apply Forall2_len in Hn. auto.
  - intros n Hn. apply In_sort_stable. apply In_product_values. clear - Hn H8.
    induction Hn as [|l x ls xs [H1 H2] _ IH]; constructor; auto. unfold axis_values. apply in_map_iff. exists (x - fst l)%Z. split; [rewrite wrap_signed_id; lia|]. apply In_zrange. lia.
Qed.

(** ** The hexagonal basis *)

(** The block of [N1] by [N2] cells, with [x] atoms in each of them. *)
Definition block_sites (N1 N2 : Z) (x : nat) : list (list Z) := product [zrange 0 N1; zrange 0 N2; map Z.of_nat (seq 0 x)].

Lemma In_block_sites N1 N2 x t : In t (block_sites N1 N2 x) <->
  exists n a, t = n ++ [Z.of_nat a] /\ length n = 2 /\ box 2 [0; 0]%Z [N1; N2] n /\ a < x.
Proof.
  unfold block_sites. rewrite In_product. split.
  - intro H. inversion H as [|? ? ? t1 H1 Ht1]; subst. inversion Ht1 as [|? ? ? t2 H2 Ht2]; subst. inversion Ht2 as [|? ? ? t3 H3 Ht3]; subst. inversion Ht3; subst.
    apply In_zrange in H1. apply In_zrange in H2. apply in_map_iff in H3. destruct H3 as [a [<- H3]]. apply in_seq in H3.
    eexists [_; _], a. split; [reflexivity|]. split; [reflexivity|]. split; [|lia]. intros [|[|k]] Hk; cbn; lia.
  - intros (n & a & -> & Hn & Hb & Ha). destruct n as [|n1 [|n2 [|? ?]]]; try discriminate. pose proof (Hb 0 ltac:(lia)) as B1. pose proof (Hb 1 ltac:(lia)) as B2. cbn in B1, B2.
    cbn [app]. constructor; [apply In_zrange; lia|]. constructor; [apply In_zrange; lia|]. constructor; [|constructor].
    apply in_map. apply in_seq. lia.
Qed.

Lemma block_sites_NoDup N1 N2 x : NoDup (block_sites N1 N2 x).
Proof.
  apply NoDup_product. constructor; [apply NoDup_zrange|]. constructor; [apply NoDup_zrange|]. constructor; [|constructor].
  apply NoDup_map_in; [|apply seq_NoDup]. intros i j _ _ E. lia.
Qed.

Section Hexagonal.
  Variables (inv : mat -> mat) (q a : Q).
  Hypothesis I2 : inverts inv 2.
  Hypothesis Ha : (7#5 <= a)%Q.
  Hypothesis Hq0 : (0 < q)%Q.
  Hypothesis Hqq : (299#100 <= q * q <= 301#100)%Q.
  Let b := hexagonal inv q a.

  Lemma hb_valid : valid_basis b.
  Proof. apply hexagonal_valid; auto; lra. Qed.

  Lemma hb_q : (17#10 <= q <= 18#10)%Q.
  Proof. split; nra. Qed.

  (** The rows of the inverse. *)
  Lemma hb_rows : exists g h, (g * (3 * a) == 1)%Q /\ (h * (q * a) == 1)%Q /\ (0 < g)%Q /\ (0 < h)%Q /\
    forall p, length p = 2 -> (coord b p 0 == g * nth 0 p 0 + h * nth 1 p 0)%Q /\ (coord b p 1 == g * nth 0 p 0 - h * nth 1 p 0)%Q.
  Proof.
    destruct hb_valid as [_ [_ [_ HW]]]. change (b_dim b) with 2 in HW.
    pose proof (HW 0 0 ltac:(lia) ltac:(lia)) as E00. pose proof (HW 0 1 ltac:(lia) ltac:(lia)) as E01.
    pose proof (HW 1 0 ltac:(lia) ltac:(lia)) as E10. pose proof (HW 1 1 ltac:(lia) ltac:(lia)) as E11. clear HW.
    exists (entry (b_inv b) 0 0), (entry (b_inv b) 0 1). unfold coord, coordinate. change (b_dim b) with 2.
    set (w00 := entry (b_inv b) 0 0) in *. set (w01 := entry (b_inv b) 0 1) in *. set (w10 := entry (b_inv b) 1 0) in *. set (w11 := entry (b_inv b) 1 1) in *.
    cbn -[Qmult Qplus Qdiv Qminus Qopp b_inv] in E00, E01, E10, E11. fold w00 in E00, E01. fold w01 in E00, E01. fold w10 in E10, E11. fold w11 in E10, E11.
    assert (w00 * (3 * a) == 1)%Q as G.
    { setoid_replace (w00 * (3 * a))%Q with (2 * (w00 * (a / 2 * 3)))%Q by field. lra. }
    assert (w01 * (q * a) == 1)%Q as H.
    { setoid_replace (w01 * (q * a))%Q with (2 * (w01 * (a / 2 * q)))%Q by field. setoid_replace (w01 * (a / 2 * - q))%Q with (- (w01 * (a / 2 * q)))%Q in E01 by ring. lra. }
    assert (w10 == w00)%Q as G'.
    { apply (Qmult_inj_r _ _ (3 * a)); [lra|]. rewrite G. setoid_replace (w10 * (3 * a))%Q with (2 * (w10 * (a / 2 * 3)))%Q by field.
      setoid_replace (w11 * (a / 2 * - q))%Q with (- (w11 * (a / 2 * q)))%Q in E11 by ring. lra. }
    assert (w11 == - w01)%Q as H'.
    { apply (Qmult_inj_r _ _ (q * a)); [nra|]. setoid_replace (w11 * (q * a))%Q with (2 * (w11 * (a / 2 * q)))%Q by field. setoid_replace (- w01 * (q * a))%Q with (- (w01 * (q * a)))%Q by ring. rewrite H.
      setoid_replace (w11 * (a / 2 * - q))%Q with (- (w11 * (a / 2 * q)))%Q in E11 by ring. lra. }
    assert (0 < q * a)%Q by nra.
    split; [exact G|]. split; [exact H|]. split; [nra|]. split; [nra|].
    intros p Hp. cbn [sum_upto]. fold w00 w01 w10 w11. rewrite G', H'. split; ring.
  Qed.

  (** The box around the rhombus of [s1] by [s2] cells. *)
  Lemma hb_limits s1 s2 : (0 <= s1)%Q -> (0 <= s2)%Q ->
    exists x0 x1 y0 y1, shape_limits (SBoxBasis [s1; s2] (vzero 2) (b_mat b) (b_inv b)) = [(x0, x1); (y0, y1)] /\
      (x0 == 0 /\ x1 == (3#2) * (a * (s1 + s2)) /\ y0 == - (1#2) * (q * a * s2) /\ y1 == (1#2) * (q * a * s1))%Q.
  Proof.
    intros S1 S2. set (lim := shape_limits _).
    assert (length lim = 2) as Hl by reflexivity.
    assert (forall c lo hi, nth_error lim c = Some (lo, hi) -> exists col, col = map (fun p => nth c p 0%Q) (map (matvec (b_mat b)) (box_corners [s1; s2] (vzero 2))) /\
      ((exists x, In x col /\ lo == x) /\ (forall x, In x col -> lo <= x) /\ (exists x, In x col /\ hi == x) /\ (forall x, In x col -> x <= hi))%Q) as Hspec.
    { intros c lo hi Hn. apply point_limits_spec in Hn. eexists. split; [reflexivity|]. destruct Hn as [[[x [Hx Ex]] Hlo] [[y [Hy Ey]] Hhi]].
      split; [exists x; split; auto; lra|]. split; [exact Hlo|]. split; [exists y; split; auto; lra|exact Hhi]. }
    destruct lim as [|[x0 x1] [|[y0 y1] [|? ?]]]; try discriminate Hl. exists x0, x1, y0, y1. split; [reflexivity|].
    assert (0 <= a * s1)%Q by nra. assert (0 <= a * s2)%Q by nra. assert (0 <= q * (a * s1))%Q by nra. assert (0 <= q * (a * s2))%Q by nra.
    destruct (Hspec 0 x0 x1 eq_refl) as (col & E & (u & Hu & Eu) & Hlo & (v & Hv & Ev) & Hhi). subst col.
    destruct (Hspec 1 y0 y1 eq_refl) as (col & E & (u' & Hu' & Eu') & Hlo' & (v' & Hv' & Ev') & Hhi'). subst col.
    clear Hspec Hl. cbn -[Qmult Qplus Qdiv Qopp] in Hu, Hlo, Hv, Hhi, Hu', Hlo', Hv', Hhi'.
    unfold Qdiv in *. change (/ 2)%Q with (1#2)%Q in *.
    pose proof (Hlo _ (or_introl eq_refl)) as L. pose proof (Hhi _ (or_intror (or_intror (or_intror (or_introl eq_refl))))) as U.
    pose proof (Hlo' _ (or_intror (or_introl eq_refl))) as L'. pose proof (Hhi' _ (or_intror (or_intror (or_introl eq_refl)))) as U'. clear Hlo Hhi Hlo' Hhi'.
    split; [destruct Hu as [<-|[<-|[<-|[<-|[]]]]]; lra|]. split; [destruct Hv as [<-|[<-|[<-|[<-|[]]]]]; lra|].
    split; [destruct Hu' as [<-|[<-|[<-|[<-|[]]]]]; lra|destruct Hv' as [<-|[<-|[<-|[<-|[]]]]]; lra].
  Qed.

  Lemma hb_max : exists m1 m2, max_vectors b = [m1; m2] /\ (m1 == (3#2) * a /\ m2 == (1#2) * (q * a))%Q.
  Proof.
    eexists _, _. split; [reflexivity|]. assert (0 < q * a)%Q by nra. unfold qmax_list. cbn -[Qmult Qplus Qdiv Qopp Qminmax.Qmax].
    split; apply Qminmax.Q.max_case_strong; intros; try (rewrite <- H1; assumption); try (rewrite <- H0; assumption); unfold Qdiv in *; change (/ 2)%Q with (1#2)%Q in *; lra.
  Qed.

  (** All the cells of the block are searched. *)
  Lemma hb_cells u v s1 s2 N1 N2 :
    (0 <= u <= 2 * a)%Q -> (0 <= v <= 2 * a)%Q -> (1#10 <= s1)%Q -> (1#10 <= s2)%Q -> (a * (s1 + s2) < inject_Z (2 ^ 60))%Q ->
    (1 <= N1)%Z -> (1 <= N2)%Z -> (inject_Z N1 - 1 <= s1 + (1#1000))%Q -> (inject_Z N2 - 1 <= s2 + (1#1000))%Q ->
    exists cells, build_translation_vectors b [u; v] (AShape (SBoxBasis [s1; s2] (vzero 2) (b_mat b) (b_inv b))) true None false 0 = Ok cells /\
      (forall n, In n cells -> length n = 2) /\ (forall n, length n = 2 -> box 2 [0; 0]%Z [N1; N2] n -> In n cells).
  Proof.
    intros Hu Hv S1 S2 Hbig P1 P2 B1 B2. pose proof hb_q as Hq. pose proof hb_valid as Hb.
    destruct (hb_limits s1 s2 ltac:(lra) ltac:(lra)) as (x0 & x1 & y0 & y1 & El & Ex0 & Ex1 & Ey0 & Ey1).
    destruct hb_max as (m1 & m2 & Em & Em1 & Em2).
    destruct hb_rows as (g & h & G & H & Gp & Hp & Hrow).
    set (lower := [x0; y0]). set (size := [(x1 - x0) * m1 - (1#10) * u; (y1 - y0) * m2 - (1#10) * v]%Q).
    set (A := (a * (s1 + s2))%Q) in *. set (B := (q * A)%Q). set (U := (g * u)%Q). set (W := (h * v)%Q).
    assert ((7#5) * (s1 + s2) <= A)%Q as A1 by (unfold A; nra).
    assert ((17#10) * A <= B <= (18#10) * A)%Q as B3 by (unfold B; nra).
    assert (0 <= U <= 2#3)%Q as HU by (unfold U; split; nra).
    assert (0 <= W <= 6#5)%Q as HW.
    { unfold W. split; [nra|]. assert (h * v <= h * (2 * a))%Q by nra. assert (h * (q * a) == q * (h * a))%Q as E by ring. rewrite H in E. nra. }
    set (ex := (nth 0 lower 0 + nth 0 size 0)%Q). set (ey := (nth 1 lower 0 + nth 1 size 0)%Q).
    set (X := ((3#4) * A - (1#10) * U)%Q). set (Y := ((1#4) * B - (1#10) * W - (1#2) * s2)%Q).
    assert (g * ex == X)%Q as EX.
    { unfold ex, X, U, lower, size. cbn [nth]. rewrite Ex0, Ex1, Em1. setoid_replace (g * (0 + (((3#2) * A - 0) * ((3#2) * a) - (1#10) * u)))%Q with ((3#4) * A * (g * (3 * a)) - (1#10) * (g * u))%Q by ring. rewrite G. ring. }
    assert (h * ey == Y)%Q as EY.
    { unfold ey, Y, W, B, lower, size. cbn [nth]. rewrite Ey0, Ey1, Em2. unfold A.
      setoid_replace (h * (- (1#2) * (q * a * s2) + (((1#2) * (q * a * s1) - - (1#2) * (q * a * s2)) * ((1#2) * (q * a)) - (1#10) * v)))%Q
        with ((h * (q * a)) * (- (1#2) * s2 + (1#4) * (q * (a * (s1 + s2)))) - (1#10) * (h * v))%Q by ring. rewrite H. ring. }
    assert (h * y0 == - (1#2) * s2)%Q as EY0.
    { rewrite Ey0. setoid_replace (h * (- (1#2) * (q * a * s2)))%Q with (- (1#2) * s2 * (h * (q * a)))%Q by ring. rewrite H. ring. }
    assert (g * x0 == 0)%Q as EX0 by (rewrite Ex0; ring).
    destruct (nvec_range b lower (vadd lower size)) as [lo hi] eqn:E.
    pose proof (range_spec b Hb lower (vadd lower size) eq_refl eq_refl) as Hr. rewrite E in Hr. destruct Hr as [Hl1 [Hl2 Hr]].
    change (b_dim b) with 2 in Hl1, Hl2, Hr.
    destruct (Hr 0 ltac:(lia)) as [La [Ha1 Hpr0]]. destruct (Hr 1 ltac:(lia)) as [Lb [Hb1 Hpr1]].
    pose proof (Hpr0 [ex; 0%Q] ltac:(cbn; auto)) as [_ Hc1]. pose proof (Hpr1 [ex; 0%Q] ltac:(cbn; auto)) as [_ Hc2].
    pose proof (Hpr1 [0%Q; ey] ltac:(cbn; auto)) as [Ld _].
    clear Hpr0 Hpr1 Hr Hb1.
    destruct (Hrow lower eq_refl) as [R1 R2]. destruct (Hrow (vadd lower size) eq_refl) as [R3 _]. destruct (Hrow [ex; 0%Q] eq_refl) as [R4 R5]. destruct (Hrow [0%Q; ey] eq_refl) as [_ R6].
    change (nth 0 (vadd lower size) 0%Q) with ex in R3. change (nth 1 (vadd lower size) 0%Q) with ey in R3. cbn [nth] in R1, R2, R4, R5, R6. fold lower in R1, R2.
    cbn [nth lower] in R1, R2. rewrite EX, EY in R3. rewrite EX in R4, R5. rewrite EY in R6. rewrite EX0, EY0 in R1, R2.
    assert (forall c z, (Qfloor c <= z)%Z -> (c < inject_Z z + 1)%Q) as Hup.
    { intros c z Hz. eapply Qlt_le_trans; [apply Qlt_floor|]. rewrite inject_Z_plus. rewrite Zle_Qle in Hz. change (inject_Z 1) with 1%Q. lra. }
    assert (forall c z, (z <= Qfloor c)%Z -> (inject_Z z <= c)%Q) as Hdown.
    { intros c z Hz. eapply Qle_trans; [|apply Qfloor_le]. rewrite <- Zle_Qle. exact Hz. }
    apply Hdown in La. apply Hdown in Lb. apply Hdown in Ld. apply Hup in Ha1. apply Hup in Hc1. apply Hup in Hc2.
    rewrite R1 in La. rewrite R2 in Lb. rewrite R6 in Ld. rewrite R3 in Ha1. rewrite R4 in Hc1. rewrite R5 in Hc2.
    assert (forall z i, i < 2 -> (exists p, length p = b_dim b /\ z = Qfloor (coord b p i) /\
       ((forall j, j < b_dim b -> (nth j p 0 == nth j lower 0)%Q) \/ (forall j, j < b_dim b -> (nth j p 0 == 0 \/ nth j p 0 == nth j lower 0 + nth j size 0)%Q))) ->
       exists c0 c1, ((c0 == 0 \/ c0 == X) /\ (c1 == 0 \/ c1 == Y \/ c1 == - (1#2) * s2) /\
         ((i = 0%nat /\ inject_Z z <= c0 + c1 < inject_Z z + 1) \/ (i = 1%nat /\ inject_Z z <= c0 - c1 < inject_Z z + 1)))%Q) as Hreach.
    { intros z i Hi (p & Hpl & -> & Hpp). change (b_dim b) with 2 in *. exists (g * nth 0 p 0)%Q, (h * nth 1 p 0)%Q. destruct (Hrow p Hpl) as [C0 C1].
      split; [|split].
      - destruct Hpp as [Hpp|Hpp]; specialize (Hpp 0 ltac:(lia)); [left; rewrite Hpp; exact EX0|]. destruct Hpp as [Hpp|Hpp]; [left; rewrite Hpp; ring|right; rewrite Hpp; exact EX].
      - destruct Hpp as [Hpp|Hpp]; specialize (Hpp 1 ltac:(lia)); [right; right; rewrite Hpp; exact EY0|]. destruct Hpp as [Hpp|Hpp]; [left; rewrite Hpp; ring|right; left; rewrite Hpp; exact EY].
      - destruct i as [|[|i]]; [left|right|lia]; (split; [reflexivity|]); [rewrite <- C0|rewrite <- C1]; (split; [apply Qfloor_le|]); apply Hup; lia. }
    destruct (range_attained b lower size lo hi Hb eq_refl eq_refl E 0 ltac:(cbn; lia)) as [T1 T2].
    destruct (range_attained b lower size lo hi Hb eq_refl eq_refl E 1 ltac:(cbn; lia)) as [T3 T4].
    apply Hreach in T1; [|lia]. apply Hreach in T2; [|lia]. apply Hreach in T3; [|lia]. apply Hreach in T4; [|lia]. clear Hreach.
    pose proof (nth_nvec_limits b lower size 0 lo hi Hb eq_refl eq_refl ltac:(cbn; lia) E) as M1. pose proof (nth_nvec_limits b lower size 1 lo hi Hb eq_refl eq_refl ltac:(cbn; lia) E) as M2.
    pose proof (nvec_limits_length b lower size 0 Hb eq_refl eq_refl) as Ml. change (b_dim b) with 2 in Ml.
    set (limits := nvec_limits b lower size 0) in *.
    set (l1 := nth 0 lo 0%Z) in *. set (l2 := nth 1 lo 0%Z) in *. set (h1 := nth 0 hi 0%Z) in *. set (h2 := nth 1 hi 0%Z) in *.
    assert (- (1#2) * s2 - (1#2) - 1 < inject_Z l1)%Q as L1.
    { destruct T1 as (c0 & c1 & C0 & C1 & [[_ C]|[? _]]); [|discriminate]. unfold X, Y in *. destruct C0 as [C0|C0], C1 as [C1|[C1|C1]]; lra. }
    assert (- (1#4) * B + (1#2) * s2 - 1 - (1#100) < inject_Z l2 \/ - 1 - (1#2) < inject_Z l2)%Q as L2.
    { destruct T3 as (c0 & c1 & C0 & C1 & [[? _]|[_ C]]); [discriminate|]. unfold X, Y in *. destruct C0 as [C0|C0], C1 as [C1|[C1|C1]]; try (right; lra); left; lra. }
    assert (inject_Z h1 <= 2 * A)%Q as H1.
    { destruct T2 as (c0 & c1 & C0 & C1 & [[_ C]|[? _]]); [|discriminate]. unfold X, Y in *. destruct C0 as [C0|C0], C1 as [C1|[C1|C1]]; lra. }
    assert (inject_Z h2 <= 2 * A)%Q as H2.
    { destruct T4 as (c0 & c1 & C0 & C1 & [[? _]|[_ C]]); [discriminate|]. unfold X, Y in *. destruct C0 as [C0|C0], C1 as [C1|[C1|C1]]; lra. }
    clear T1 T2 T3 T4. unfold X, Y in *. clearbody A B U W. clear EX EY EY0 EX0 R1 R2 R3 R4 R5 R6 Ex0 Ex1 Ey0 Ey1 Em1 Em2 G H Hrow.
    change (inject_Z (2 ^ 60)) with 1152921504606846976%Q in Hbig.
    assert (forall z, (inject_Z z < 1)%Q -> (z <= 0)%Z) as Hneg by (intros z Hz; apply Z.lt_succ_r; rewrite Zlt_Qlt; exact Hz).
    assert (l1 <= 0)%Z as Z1 by (apply Hneg; lra). assert (l2 <= 0)%Z as Z2 by (apply Hneg; lra). clear Hneg.
    assert (forall m z, (inject_Z m < inject_Z z + 1)%Q -> (m <= z)%Z) as Hlez.
    { intros m z Hz. apply Z.lt_succ_r. rewrite Zlt_Qlt. unfold Z.succ. rewrite inject_Z_plus. exact Hz. }
    assert (N1 - 1 <= h1)%Z as Z3 by (apply Hlez; unfold Z.sub; rewrite inject_Z_plus; change (inject_Z (- (1))) with (- (1))%Q; lra).
    assert (N2 - 1 <= h2)%Z as Z4 by (apply Hlez; unfold Z.sub; rewrite inject_Z_plus; change (inject_Z (- (1))) with (- (1))%Q; lra).
    assert (N1 - l1 <= 127 \/ N1 - l1 <= h1 + 1)%Z as W1.
    { destruct (Qlt_le_dec (s1 + s2) 10) as [D|D]; [left|right]; apply Hlez; unfold Z.sub; rewrite ?inject_Z_plus, inject_Z_opp; [change (inject_Z 127) with 127%Q|change (inject_Z 1) with 1%Q]; lra. }
    assert (N2 - l2 <= 127 \/ N2 - l2 <= h1 + 1)%Z as W2.
    { destruct (Qlt_le_dec ((3#4) * A) (s2 + (6#5))) as [D|D]; [left|right]; apply Hlez; unfold Z.sub; rewrite ?inject_Z_plus, inject_Z_opp; [change (inject_Z 127) with 127%Q|change (inject_Z 1) with 1%Q]; destruct L2; lra. }
    assert (forall z, (- 4611686018427387000 <= inject_Z z <= 4611686018427387000)%Q -> (Z.abs z < 2 ^ 62)%Z) as Habs.
    { intros z [C1 C2]. change (- 4611686018427387000)%Q with (inject_Z (- 4611686018427387000)) in C1. change 4611686018427387000%Q with (inject_Z 4611686018427387000) in C2.
      rewrite <- Zle_Qle in C1, C2. change (2 ^ 62)%Z with 4611686018427387904%Z. lia. }
    assert (Z.abs l1 < 2 ^ 62 /\ Z.abs l2 < 2 ^ 62 /\ Z.abs h1 < 2 ^ 62 /\ Z.abs h2 < 2 ^ 62)%Z as (V1 & V2 & V3 & V4).
    { split; [|split; [|split]]; apply Habs; [lra|destruct L2; lra|lra|lra]. }
    clearbody l1 l2 h1 h2. clear Hup Hdown Habs Hlez.
    assert (limits = [(l1 - 1, h1 + 1); (l2 - 1, h2 + 1)]%Z) as Elim.
    { destruct limits as [|p1 [|p2 [|? ?]]]; try discriminate Ml. cbn in M1, M2. congruence. }
    destruct (searched limits (2 ^ 62)) as (cells & w & Ec & Hw & Hsnd & Hlen & Hin).
    { rewrite Elim. discriminate. }
    { rewrite Elim. intros l [<-|[<-|[]]]; cbn [fst snd]; lia. }
    { rewrite Elim. intros l [<-|[<-|[]]]; cbn [fst snd]; lia. }
    { lia. }
    exists cells. split; [|split].
    - rewrite build_cells_eq. unfold requested_box. rewrite El. cbn [map fst snd]. unfold vsub at 1. cbn [map2 length].
      rewrite Em. cbn -[vindices nvec_limits lower size limits Qmult Qminus].
      change (nvec_limits b [x0; y0] _ 0) with limits. rewrite Ec. reflexivity.
    - intros n Hn. apply Hlen in Hn. rewrite Elim in Hn. exact Hn.
    - intros n Hn Hbox. apply Hin. rewrite Elim. destruct n as [|n1 [|n2 [|? ?]]]; try discriminate.
      pose proof (Hbox 0 ltac:(lia)) as Q1. pose proof (Hbox 1 ltac:(lia)) as Q2. cbn in Q1, Q2.
      assert (h1 + 1 < 2 ^ (w - 1))%Z as Q3 by (apply (Hsnd (l1 - 1, h1 + 1)%Z); rewrite Elim; cbn; auto).
      assert (2 ^ 7 <= 2 ^ (w - 1))%Z as Q4 by (apply Z.pow_le_mono_r; lia). change (2 ^ 7)%Z with 128%Z in Q4.
      constructor; [cbn [fst snd]; lia|]. constructor; [cbn [fst snd]; lia|]. constructor.
  Qed.
End Hexagonal.

(** ** C113 *)

(** A primitive build of [s1] by [s2] cells on the hexagonal basis, with the atoms on the first axis within one lattice constant of the
    origin: the selected sites are those of the [N1] by [N2] cells that fit, for every size up to 2^60 and whatever integer type the cells
    are counted in. *)
Theorem C113_block :
  forall inv sqrt3 a u v s1 s2 N1 N2 R,
    inverts inv 2 -> (7#5 <= a)%Q -> (0 < sqrt3)%Q -> (299#100 <= sqrt3 * sqrt3 <= 301#100)%Q ->
    (0 <= u <= 2 * a)%Q -> (0 <= v <= 2 * a)%Q -> (1#10 <= s1)%Q -> (1#10 <= s2)%Q -> (a * (s1 + s2) < inject_Z (2 ^ 60))%Q ->
    (1 <= N1)%Z -> (1 <= N2)%Z -> R <> [] ->
    (forall r, In r R -> exists x, r = [x; 0%Q] /\ (0 <= x <= a)%Q /\
       (inject_Z N1 - 1 + x / (3 * a) <= s1 + (1#1000))%Q /\ (inject_Z N2 - 1 + x / (3 * a) <= s2 + (1#1000))%Q) ->
    (s1 + (1#1000) < inject_Z N1)%Q -> (s2 + (1#1000) < inject_Z N2)%Q ->
    exists I P,
      build_indices (hexagonal inv sqrt3 a) [u; v] R (AShape (build_shape (hexagonal inv sqrt3 a) (ASize [s1; s2]) true None)) true None true None = Ok (I, P) /\
      (forall t, In t I <-> exists n x, t = n ++ [Z.of_nat x] /\ length n = 2 /\ box 2 [0; 0]%Z [N1; N2] n /\ x < length R) /\
      NoDup I /\ Z.of_nat (length I) = (Z.of_nat (length R) * N1 * N2)%Z.
Proof.
  intros inv q a u v s1 s2 N1 N2 R I2 Ha Hq0 Hqq Hu Hv S1 S2 Hbig P1 P2 HR Hat B1 B2.
  set (b := hexagonal inv q a). pose proof (hb_valid inv q a I2 Ha Hqq) as Hb. fold b in Hb.
  set (sh := SBoxBasis [s1; s2] (vzero 2) (b_mat b) (b_inv b)). change (build_shape b (ASize [s1; s2]) true None) with sh.
  assert (forall x, (0 <= x <= a)%Q -> (0 <= x / (3 * a) <= 1#3)%Q) as Hx.
  { intros x Hx. split; [apply Qle_shift_div_l; nra|apply Qle_shift_div_r; nra]. }
  destruct R as [|r0 R0] eqn:ER; [congruence|]. rewrite <- ER in *. assert (In r0 R) as Hr0 by (rewrite ER; cbn; auto).
  destruct (hb_cells inv q a I2 Ha Hq0 Hqq u v s1 s2 N1 N2 Hu Hv S1 S2 Hbig P1 P2) as (cells & Ec & Hlen & Hcells).
  { destruct (Hat r0 Hr0) as (x & _ & X & X1 & _). specialize (Hx x X). lra. }
  { destruct (Hat r0 Hr0) as (x & _ & X & _ & X2). specialize (Hx x X). lra. }
  assert (forall r, In r R -> length r = 2) as HRl by (intros r Hr; destruct (Hat r Hr) as (x & -> & _); reflexivity).
  assert (true = true -> length [u; v] = b_dim b) as Hno by reflexivity.
  destruct (checked_members b [u; v] R (AShape sh) true None (fun p => shape_contains sh p (1#1000) = true) cells Hb) as [I [P [EI HI]]]; auto.
  - intros p p' Hp Hpv. rewrite (contains_veq 2 sh p p'); [reflexivity| |auto|auto]. left. exists [s1; s2], (vzero 2).
    split; [|split; reflexivity]. cbn [is_box sh]. split; auto.
  - intros points _. cbn [check_points]. eexists. split; [reflexivity|]. rewrite map_length. split; auto. intros k p Hk.
    rewrite (nth_of_nth_error _ _ _ (shape_contains sh p (1#1000))); [reflexivity|]. unfold vec. rewrite nth_error_map', Hk. reflexivity.
  - exists I, P. split; [exact EI|].
    pose proof (C33_no_site_twice _ _ _ _ _ _ _ _ _ _ Hb Hno HRl EI) as HN.
    assert (forall t, In t I <-> exists n x, t = n ++ [Z.of_nat x] /\ length n = 2 /\ box 2 [0; 0]%Z [N1; N2] n /\ x < length R) as Hmem.
    { assert (forall n x r, length n = 2 -> nth_error R x = Some r -> (In (n ++ [Z.of_nat x]) I <-> box 2 [0; 0]%Z [N1; N2] n)) as Hone.
      { intros n x r Hn Hr. rewrite (HI n x r Hr). assert (In r R) as Hin by (eapply nth_error_In; eauto). destruct (Hat r Hin) as (z & Er & Z0 & Z1 & Z2). pose proof (Hx z Z0) as Hz.
        assert (shape_contains sh (lattice_point 2 (b_mat b) r n) (1#1000) = true <->
          forall i, i < 2 -> (- (1#1000) <= z / (3 * a) + inject_Z (nth i n 0%Z) <= nth i [s1; s2] 0 + (1#1000))%Q) as Hc.
        { destruct Hb as [_ [Hsq _]]. change (b_dim b) with 2 in Hsq. cbn [shape_contains sh].
          rewrite (box_contains_spec 2) by (auto; try reflexivity; apply matvec_len; auto).
          assert (forall i, i < 2 -> (nth i (matvec (b_inv b) (lattice_point 2 (b_mat b) r n)) 0 == z / (3 * a) + inject_Z (nth i n 0%Z))%Q) as Ei.
          { intros i Hi. rewrite (nth_matvec_sum 2) by (auto; apply lattice_point_length).
            change (sum_upto 2 (fun k => entry (b_inv b) i k * nth k (lattice_point 2 (b_mat b) r n) 0)%Q) with (coord b (lattice_point (b_dim b) (b_mat b) r n) i).
            rewrite coord_point by (auto; apply hb_valid; auto). apply Qplus_inj_r.
            destruct (hb_rows inv q a I2 Ha Hq0 Hqq) as (g & h & G & _ & _ & _ & Hrow). fold b in Hrow. destruct (Hrow r ltac:(rewrite Er; reflexivity)) as [C0 C1].
            assert (g == / (3 * a))%Q as Eg by (apply (Qmult_inj_r _ _ (3 * a)); [lra|]; rewrite G; field; lra).
            destruct i as [|[|i]]; [rewrite C0|rewrite C1|lia]; rewrite Er; cbn [nth]; rewrite Eg; field; lra. }
          split; intros H i Hi; specialize (H i Hi); rewrite (Ei i Hi) in *; destruct i as [|[|i]]; try lia; cbn [nth vzero repeat] in *; lra. }
        change (b_dim b) with 2. rewrite Hc. split.
        - intros [_ H] k Hk. pose proof (H k Hk) as Hk'.
          assert (nth k [s1; s2] 0 + (1#1000) < inject_Z (nth k [N1; N2] 0%Z))%Q as Hup by (destruct k as [|[|k]]; [exact B1|exact B2|lia]).
          split.
          + assert (- 1 < nth k n 0)%Z; [|destruct k as [|[|k]]; cbn; lia]. rewrite Zlt_Qlt. change (inject_Z (-1)) with (-1)%Q. lra.
          + assert (nth k n 0 < nth k [N1; N2] 0)%Z; [|destruct k as [|[|k]]; cbn in *; lia]. rewrite Zlt_Qlt. lra.
        - intro Hbox. split; [apply Hcells; auto|]. intros k Hk. specialize (Hbox k Hk).
          assert (0 <= nth k n 0 <= nth k [N1; N2] 0 - 1)%Z as [Q1 Q2] by (destruct k as [|[|k]]; cbn in *; lia).
          rewrite Zle_Qle in Q1, Q2. unfold Z.sub in Q2. rewrite inject_Z_plus in Q2. change (inject_Z (- (1))) with (-1)%Q in Q2. change (inject_Z 0) with 0%Q in Q1.
          destruct k as [|[|k]]; cbn [nth] in *; [lra|lra|lia]. }
      intro t. split.
      - intro Ht. destruct (C31_indices_and_positions_aligned _ _ _ _ _ _ _ _ _ _ Hb Hno HRl EI) as [Hl [Hal _]].
        pose proof Ht as Ht'. apply In_nth_error in Ht'. destruct Ht' as [k Hk]. destruct (nth_error_lt P k) as [p Hp]; [apply nth_error_length_lt in Hk; lia|].
        destruct (Hal k t p Hk Hp) as [n [x [r [-> [Hn [Hr _]]]]]]. exists n, x. split; auto. split; auto. split; [apply (Hone n x r Hn Hr); exact Ht|]. apply nth_error_length_lt in Hr. auto.
      - intros (n & x & -> & Hn & Hbox & Hlt). destruct (nth_error_lt R x Hlt) as [r Hr]. apply (Hone n x r Hn Hr). exact Hbox. }
    split; [exact Hmem|]. split; [exact HN|].
    assert (length I = length (block_sites N1 N2 (length R))) as ->.
    { apply Permutation_length. apply NoDup_Permutation; [exact HN|apply block_sites_NoDup|]. intro t. rewrite Hmem, In_block_sites. reflexivity. }
    unfold block_sites. rewrite PropPrimitive.product_count. cbn [length times nth]. rewrite !zrange_length, map_length, seq_length. rewrite !Z2Nat.id by lia. ring.
Qed.

(** Honeycomb lattices and graphene, built as a parallelogram of [N1] by [N2] cells with periodic boundary conditions along any of the axes
    with at least three cells: [2 N1 N2] sites, each linked exactly to the sites of the other kind in the three cells around it. *)
Theorem C113_honeycomb :
  forall query argsort inv sqrt3 a k s l u v s1 s2 N1 N2 axes,
    correct_tree query -> is_argsort dleb argsort -> inverts inv 2 ->
    (a * 1000000 == inject_Z k)%Q -> (7#5 <= a <= 1000000)%Q -> (0 < sqrt3)%Q -> (Qabs (sqrt3 * sqrt3 - 3) <= 1 # 1000000000000)%Q ->
    ((exists at1, honeycomb query inv sqrt3 a at1 = Ok s) \/ (exists count, graphene query inv sqrt3 a count = Ok s)) -> lt_structure l = s ->
    (0 <= u <= 2 * a)%Q -> (0 <= v <= 2 * a)%Q -> (s1 + s2 < inject_Z (2 ^ 40))%Q ->
    (1 <= N1)%Z -> (1 <= N2)%Z ->
    (inject_Z N1 - (2#3) <= s1 + (1#1000) < inject_Z N1)%Q -> (inject_Z N2 - (2#3) <= s2 + (1#1000) < inject_Z N2)%Q ->
    NoDup axes -> (forall c, In c axes -> c < 2 /\ (3 <= nth c [N1; N2] 0)%Z) ->
    exists l' dt, build query argsort [u; v] l (ASize [s1; s2]) true None true None (Some (AxList axes)) None = (l', Ok tt) /\
      lt_structure l' = s /\ lt_data l' = Some dt /\ wf dt /\ Z.of_nat (length (d_indices dt)) = (2 * N1 * N2)%Z /\ NoDup (d_indices dt) /\
      (forall t, In t (d_indices dt) <-> exists n x, t = n ++ [Z.of_nat x] /\ length n = 2 /\ box 2 [0; 0]%Z [N1; N2] n /\ x < 2) /\
      forall i N x, nth_error (d_indices dt) i = Some (N ++ [Z.of_nat x]) ->
        NoDup (map s_nbr (slots dt i)) /\ (forall e, In e (slots dt i) -> s_dist e = Fin k) /\
        (forall j, In j (map s_nbr (slots dt i)) <->
           exists n, In n (three_cells x) /\ nth_error (d_indices dt) j = Some (wrapped axes [0; 0]%Z [N1; N2] (map2 Z.add n N) ++ [Z.of_nat (1 - x)])) /\
        ((forall c, c < 2 -> In c axes) -> length (slots dt i) = 3).
Proof.
  intros query argsort inv q a k s l u v s1 s2 N1 N2 axes Hq Harg I2 Ek Ha Hq0 He Hs El Hu Hv Hsum P1 P2 B1 B2 HN Hax.
  assert (299#100 <= q * q <= 301#100)%Q as Hqq by (apply Qabs_Qle_condition in He; lra).
  assert (1 <= inject_Z N1)%Q as P1' by (change 1%Q with (inject_Z 1); rewrite <- Zle_Qle; auto).
  assert (1 <= inject_Z N2)%Q as P2' by (change 1%Q with (inject_Z 1); rewrite <- Zle_Qle; auto).
  assert (1400000 <= k)%Z as Hk by (rewrite Zle_Qle, <- Ek; change (inject_Z 1400000) with 1400000%Q; lra).
  destruct (C113_block inv q a u v s1 s2 N1 N2 [[0; 0]; [a; 0]]%Q) as (I & P & EI & Hmem & HNI & Hcount); auto; try lra.
  - change (inject_Z (2 ^ 60)) with 1152921504606846976%Q. change (inject_Z (2 ^ 40)) with 1099511627776%Q in Hsum.
    assert (a * (s1 + s2) <= 1000000 * (s1 + s2))%Q by (apply Qmult_le_compat_r; lra). lra.
  - discriminate.
  - intros r [<-|[<-|[]]].
    + exists 0%Q. split; [reflexivity|]. split; [lra|]. setoid_replace (0 / (3 * a))%Q with 0%Q by (field; lra). lra.
    + exists a. split; [reflexivity|]. split; [lra|]. setoid_replace (a / (3 * a))%Q with (1#3)%Q by (field; lra). lra.
  - destruct (C111_honeycomb query argsort [u; v] inv q a k s l (ASize [s1; s2]) None true None I P [0; 0]%Z [N1; N2] axes) as (l' & dt & T1 & T2 & T3 & T4 & T5 & T6 & T7); auto; try lia; try lra.
    + split; [discriminate|reflexivity].
    + intros [|[|c]] Hc; cbn; lia.
    + exists l', dt. rewrite T5. repeat (split; [assumption|]). auto.
Qed.

(** The same for hexagonal lattices with one atom: [N1 N2] sites with the six cells around each as neighbours. *)
Theorem C113_hexagonal :
  forall query argsort inv sqrt3 a at1 k u v s1 s2 N1 N2 axes,
    correct_tree query -> is_argsort dleb argsort -> inverts inv 2 ->
    (7#5 <= a)%Q -> (0 < sqrt3)%Q -> (299#100 <= sqrt3 * sqrt3 <= 301#100)%Q ->
    rounds_to_micro (a * a * ((9 + sqrt3 * sqrt3) * (1#4)))%Q k -> rounds_to_micro (a * a * (sqrt3 * sqrt3))%Q k ->
    (0 <= u <= 2 * a)%Q -> (0 <= v <= 2 * a)%Q -> (1#10 <= s1)%Q -> (1#10 <= s2)%Q -> (a * (s1 + s2) < inject_Z (2 ^ 60))%Q ->
    (1 <= N1)%Z -> (1 <= N2)%Z ->
    (inject_Z N1 - 1 <= s1 + (1#1000) < inject_Z N1)%Q -> (inject_Z N2 - 1 <= s2 + (1#1000) < inject_Z N2)%Q ->
    NoDup axes -> (forall c, In c axes -> c < 2 /\ (3 <= nth c [N1; N2] 0)%Z) ->
    exists s l' dt, simple_hexagonal query inv sqrt3 a at1 1 = Ok s /\
      build query argsort [u; v] (new_lattice s) (ASize [s1; s2]) true None true None (Some (AxList axes)) None = (l', Ok tt) /\
      lt_structure l' = s /\ lt_data l' = Some dt /\ wf dt /\ Z.of_nat (length (d_indices dt)) = (N1 * N2)%Z /\ NoDup (d_indices dt) /\
      (forall t, In t (d_indices dt) <-> exists n, t = n ++ [0%Z] /\ length n = 2 /\ box 2 [0; 0]%Z [N1; N2] n) /\
      forall i N, nth_error (d_indices dt) i = Some (N ++ [0%Z]) ->
        NoDup (map s_nbr (slots dt i)) /\ (forall e, In e (slots dt i) -> s_dist e = Fin k) /\
        (forall j, In j (map s_nbr (slots dt i)) <->
           exists n, In n [[1; 0]; [-1; 0]; [0; 1]; [0; -1]; [1; -1]; [-1; 1]]%Z /\
             nth_error (d_indices dt) j = Some (wrapped_cell 2 axes [0; 0]%Z [N1; N2] (map2 Z.add n N) ++ [0%Z])) /\
        ((forall c, c < 2 -> In c axes) -> length (slots dt i) = 6).
Proof.
  intros query argsort inv q a at1 k u v s1 s2 N1 N2 axes Hq Harg I2 Ha Hq0 Hqq R1 R2 Hu Hv S1 S2 Hbig P1 P2 B1 B2 HN Hax.
  destruct (C113_block inv q a u v s1 s2 N1 N2 [[0; 0]]%Q) as (I & P & EI & Hmem & HNI & Hcount); auto; try lra.
  - discriminate.
  - intros r [<-|[]]. exists 0%Q. split; [reflexivity|]. split; [lra|]. setoid_replace (0 / (3 * a))%Q with 0%Q by (field; lra). lra.
  - destruct (C112_hexagonal query argsort inv q a at1 k Hq Harg I2 ltac:(lra) Hqq R1 R2) as (s & Es & _ & Hper).
    assert (forall t, In t I <-> exists n, t = n ++ [0%Z] /\ length n = 2 /\ box 2 [0; 0]%Z [N1; N2] n) as Hmem1.
    { intro t. rewrite Hmem. split.
      - intros (n & x & -> & Hn & Hbox & Hx). cbn in Hx. assert (x = 0) as -> by lia. exists n. auto.
      - intros (n & -> & Hn & Hbox). exists n, 0. cbn. auto. }
    destruct (Hper [u; v] (new_lattice s) (ASize [s1; s2]) None true None I P [0; 0]%Z [N1; N2] axes) as (l' & dt & T1 & T2 & T3 & T4 & T5 & T6 & T7); auto.
    + split; [discriminate|reflexivity].
    + intros [|[|c]] Hc; cbn in *; lia.
    + intros c Hc. apply Hax; auto.
    + intros c Hc. apply Hax; auto.
    + exists s, l', dt. rewrite T5. do 5 (split; [assumption|]). split; [rewrite Hcount; cbn [length]; change (Z.of_nat 1) with 1%Z; ring|]. do 2 (split; [assumption|]). exact T7.
Qed.

(** The lower bound on the lattice constant is needed: the length 0.142 of the bond of graphene in nanometres, and a strip at [a = 1].
    The size of the searched box is scaled by the lattice vectors twice, so that cells of the block are missed. *)
Theorem C113_small_constant_refuted :
  let sites a u s1 s2 :=
    build_indices (hexagonal inverse_small sqrt3_double a) [u; u] [[0; 0]; [a; 0]]%Q
      (AShape (build_shape (hexagonal inverse_small sqrt3_double a) (ASize [s1; s2]) true None)) true None true None in
  (exists P, sites (142#1000)%Q (246#1000)%Q (5#2)%Q (5#2)%Q = Ok ([[0; 0; 0]; [0; 0; 1]; [0; 1; 0]; [0; 1; 1]]%Z, P)) /\
  (exists I P, sites 1%Q (1732#1000)%Q (1#2)%Q (9#2)%Q = Ok (I, P) /\ length I = 8 /\ ~ In [0; 4; 0]%Z I).
Proof.
  cbv zeta. split.
  - eexists. vm_compute. reflexivity.
  - do 2 eexists. split; [vm_compute; reflexivity|]. split; [reflexivity|]. cbn. intuition discriminate.
Qed.

(** ** Examples *)

(** Graphene, 2 by 3 cells; the sizes are not whole numbers of cells. *)
Example C113_block_example :
  let a := (142#100)%Q in
  inverts inverse_small 2 /\ (7#5 <= a)%Q /\ (0 < sqrt3_double)%Q /\ (299#100 <= sqrt3_double * sqrt3_double <= 301#100)%Q /\ (0 <= 126#100 <= 2 * a)%Q /\
  (a * ((3#2) + (8#3)) < inject_Z (2 ^ 60))%Q /\
  (forall r, In r [[0; 0]; [a; 0]]%Q -> exists x, r = [x; 0%Q] /\ (0 <= x <= a)%Q /\
     (inject_Z 2 - 1 + x / (3 * a) <= (3#2) + (1#1000))%Q /\ (inject_Z 3 - 1 + x / (3 * a) <= (8#3) + (1#1000))%Q) /\
  ((3#2) + (1#1000) < inject_Z 2)%Q /\ ((8#3) + (1#1000) < inject_Z 3)%Q /\
  exists P, build_indices (hexagonal inverse_small sqrt3_double a) [246#100; 246#100]%Q [[0; 0]; [a; 0]]%Q
    (AShape (build_shape (hexagonal inverse_small sqrt3_double a) (ASize [3#2; 8#3]%Q) true None)) true None true None = Ok (block_sites 2 3 2, P) /\
  length (block_sites 2 3 2) = 12.
Proof.
  cbv zeta. split; [exact inverse_small_2|]. split; [apply Qle_bool_imp_le; reflexivity|]. split; [reflexivity|]. split; [split; apply Qle_bool_imp_le; reflexivity|].
  split; [split; apply Qle_bool_imp_le; reflexivity|]. split; [reflexivity|]. split.
  { intros r [<-|[<-|[]]]; eexists; (split; [reflexivity|]); repeat split; apply Qle_bool_imp_le; reflexivity. }
  split; [reflexivity|]. split; [reflexivity|]. eexists. split; vm_compute; reflexivity.
Qed.

(** At the bounds: the smallest lattice constant and the largest norms, one size short of a cell by the tolerance, the other a tenth of a cell. *)
Example C113_bounds_example :
  let a := (7#5)%Q in
  (0 <= 14#5 <= 2 * a)%Q /\ (inject_Z 2 - 1 <= (999#1000) + (1#1000))%Q /\ ((999#1000) + (1#1000) < inject_Z 2)%Q /\ ((1#10) + (1#1000) < inject_Z 1)%Q /\
  exists P, build_indices (hexagonal inverse_small sqrt3_double a) [14#5; 14#5]%Q [[0; 0]]%Q
    (AShape (build_shape (hexagonal inverse_small sqrt3_double a) (ASize [999#1000; 1#10]%Q) true None)) true None true None = Ok (block_sites 2 1 1, P).
Proof.
  cbv zeta. split; [split; apply Qle_bool_imp_le; reflexivity|]. split; [apply Qle_bool_imp_le; reflexivity|]. split; [reflexivity|]. split; [reflexivity|].
  eexists. vm_compute. reflexivity.
Qed.

(** A ring of three cells of graphene. *)
Example C113_honeycomb_example :
  let a := (142#100)%Q in
  correct_tree brute /\ is_argsort dleb dist_argsort /\ inverts inverse_small 2 /\ (a * 1000000 == inject_Z 1420000)%Q /\ (7#5 <= a <= 1000000)%Q /\
  (Qabs (sqrt3_double * sqrt3_double - 3) <= 1 # 1000000000000)%Q /\
  (inject_Z 3 - (2#3) <= (5#2) + (1#1000) < inject_Z 3)%Q /\ (inject_Z 1 - (2#3) <= (1#2) + (1#1000) < inject_Z 1)%Q /\
  (forall c, In c [0] -> c < 2 /\ (3 <= nth c [3; 1] 0)%Z) /\
  exists s l' dt, graphene brute inverse_small sqrt3_double a 7 = Ok s /\
    build brute dist_argsort [246#100; 246#100]%Q (new_lattice s) (ASize [5#2; 1#2]%Q) true None true None (Some (AxList [0])) None = (l', Ok tt) /\ lt_data l' = Some dt /\
    length (d_indices dt) = 6 /\ map (fun i => map s_nbr (slots dt i)) (seq 0 6) = [[1; 5]; [2; 0]; [1; 3]; [4; 2]; [3; 5]; [4; 0]].
Proof.
  cbv zeta. split; [exact brute_nearest|]. split; [exact dist_argsort_ok|]. split; [exact inverse_small_2|]. split; [reflexivity|]. split; [split; apply Qle_bool_imp_le; reflexivity|].
  split; [apply Qle_bool_imp_le; vm_compute; reflexivity|]. split; [split; [apply Qle_bool_imp_le; reflexivity|reflexivity]|]. split; [split; [apply Qle_bool_imp_le; reflexivity|reflexivity]|].
  split; [intros c [<-|[]]; cbn; lia|].
  do 3 eexists. split; [vm_compute; reflexivity|]. split; [vm_compute; reflexivity|]. split; [reflexivity|]. split; vm_compute; reflexivity.
Qed.

(** The hypotheses of the hexagonal case: a ring of three cells. *)
Example C113_hexagonal_example :
  let a := (142#100)%Q in
  rounds_to_micro (a * a * ((9 + sqrt3_double * sqrt3_double) * (1#4)))%Q 2459512 /\ rounds_to_micro (a * a * (sqrt3_double * sqrt3_double))%Q 2459512 /\
  (inject_Z 3 - 1 <= (5#2) + (1#1000) < inject_Z 3)%Q /\ (inject_Z 1 - 1 <= (1#2) + (1#1000) < inject_Z 1)%Q /\
  (forall c, In c [0] -> c < 2 /\ (3 <= nth c [3; 1] 0)%Z) /\
  exists s l' dt, simple_hexagonal brute inverse_small sqrt3_double a (ex_atom "A") 1 = Ok s /\
    build brute dist_argsort [246#100; 246#100]%Q (new_lattice s) (ASize [5#2; 1#2]%Q) true None true None (Some (AxList [0])) None = (l', Ok tt) /\ lt_data l' = Some dt /\
    length (d_indices dt) = 3 /\ map (fun i => map s_nbr (slots dt i)) (seq 0 3) = [[1; 2]; [0; 2]; [1; 0]].
Proof.
  cbv zeta.
  split; [replace 2459512%Z with (sqrt_micro ((142#100) * (142#100) * ((9 + sqrt3_double * sqrt3_double) * (1#4)))) by (vm_compute; reflexivity); apply sqrt_micro_rounds; vm_compute; discriminate|].
  split; [replace 2459512%Z with (sqrt_micro ((142#100) * (142#100) * (sqrt3_double * sqrt3_double))) by (vm_compute; reflexivity); apply sqrt_micro_rounds; vm_compute; discriminate|].
  split; [split; [apply Qle_bool_imp_le; reflexivity|reflexivity]|]. split; [split; [apply Qle_bool_imp_le; reflexivity|reflexivity]|].
  split; [intros c [<-|[]]; cbn; lia|].
  do 3 eexists. split; [vm_compute; reflexivity|]. split; [vm_compute; reflexivity|]. split; [reflexivity|]. split; vm_compute; reflexivity.
Qed.

Print Assumptions C113_block.
Print Assumptions C113_honeycomb.
Print Assumptions C113_hexagonal.
Print Assumptions C113_small_constant_refuted.
