(** * Property C114 (lattpy/lattice.py: build; primitive blocks of face-centred and body-centred cubic lattices) *)
From Coq Require Import String List ZArith QArith Qabs Qround Bool Arith Lia Lqa Permutation Sorting.Sorted.
From Verif Require Import Np NpFacts LinAlg LinFacts SpecUtils UtilsModel UtilsProofs SpecBasis AtomModel BasisModel BasisProofs
  NeighborCellProofs PropBasis SpatialModel SpecSpatial SpatialProofs KDProofs SpecStructure SpecBuild ShapeModel ShapeProofs PropShape PropSpatial StructureModel KDBrute RoundFacts StructureFacts
  DataModel SpecData DataFacts DataProofs PropData AnalyzeProofs StructureProofs PropStructure PropAnalyze FilterProofs SpecNeighbors
  NeighborProofs RadiusProofs RangeProofs PropNeighbors BuiltProofs BuildProofs PropBuild LatticeModel LatticeExamples PropFailed SpecGrid GridProofs SpecJoin SpecBlock
  PropBuilt PropBlock PropReciprocal PresetModel PropPreset PropPrimitive PropGrid SpecShell ShellProofs PropShell PropForm PropFormBuilt HoneycombModel PropHoneycomb PropHoneyBuilt
  PropHoneyTorus PropRing PropHexBlock.
Import ListNotations.
Open Scope nat_scope.
Open Scope list_scope.

(** ** Blocks in any dimension *)

Lemma Forall2_by_nth {A B} (R : A -> B -> Prop) l m x y : length l = length m -> (forall i, i < length l -> R (nth i l x) (nth i m y)) -> Forall2 R l m.
Proof.
  revert m. induction l as [|a l IH]; intros [|c m] E H; try discriminate; constructor; [apply (H 0); cbn; lia|].
  apply IH; auto. intros i Hi. apply (H (S i)). cbn. lia.
Qed.

(** The cells of the block are searched if the bounds are wide enough and the block ends before the integers wrap. *)
Lemma cells_of_range b norms s lo hi N :
  let d := b_dim b in
  let sh := SBoxBasis s (vzero d) (b_mat b) (b_inv b) in
  let lim := shape_limits sh in
  let size := vsub (map2 Qmult (vsub (map snd lim) (map fst lim)) (max_vectors b)) (vscale (1#10) norms) in
  valid_basis b -> 1 <= d -> length lim = d -> length norms = d -> length N = d ->
  nvec_range b (map fst lim) (vadd (map fst lim) size) = (lo, hi) ->
  (forall i, i < d -> (1 <= nth i N 0 /\ nth i lo 0 <= 0 /\ nth i N 0 - 1 <= nth i hi 0 /\ Z.abs (nth i lo 0) < 2 ^ 62 /\ Z.abs (nth i hi 0) < 2 ^ 62)%Z /\
     ((nth i N 0 - nth i lo 0 <= 127)%Z \/ exists j, j < d /\ (nth i N 0 - nth i lo 0 <= nth j hi 0 + 1)%Z)) ->
  exists cells, build_translation_vectors b norms (AShape sh) true None false 0 = Ok cells /\
    (forall n, length n = d -> box d (repeat 0%Z d) N n -> In n cells).
Proof.
  intros d sh lim size Hb Hd Hlim Hno HN E H. set (lower := map fst lim) in *.
  assert (length lower = d) as Hl by (unfold lower; rewrite map_length; auto).
  assert (length (vsub (map snd lim) lower) = d) as Hs0 by (rewrite vsub_length; unfold lower; rewrite !map_length; auto).
  assert (length (map2 Qmult (vsub (map snd lim) lower) (max_vectors b)) = d) as Hm2 by (rewrite map2_length, max_vectors_length by auto; fold d; lia).
  assert (length size = d) as Hsz by (unfold size; rewrite vsub_length; auto; unfold vscale; rewrite map_length; lia).
  pose proof (nvec_limits_length b lower size 0 Hb Hl Hsz) as Hlen. fold d in Hlen.
  assert (forall i, i < d -> nth i (nvec_limits b lower size 0) (0, 0)%Z = (nth i lo 0 - 1, nth i hi 0 + 1)%Z) as Hn by (intros i Hi; apply nth_nvec_limits; auto).
  assert (forall l, In l (nvec_limits b lower size 0) -> exists i, i < d /\ l = (nth i lo 0 - 1, nth i hi 0 + 1)%Z) as Hin.
  { intros l Hin. destruct (In_nth _ _ (0, 0)%Z Hin) as [i [Hi <-]]. exists i. split; [lia|]. apply Hn. lia. }
  destruct (searched (nvec_limits b lower size 0) (2 ^ 62)) as (cells & w & Ec & Hw & Hsnd & _ & Hcells).
  { intro E0. rewrite E0 in Hlen. cbn in Hlen. lia. }
  { intros l Hin'. destruct (Hin l Hin') as [i [Hi ->]]. destruct (H i Hi) as [? _]. cbn [fst snd]. lia. }
  { intros l Hin'. destruct (Hin l Hin') as [i [Hi ->]]. destruct (H i Hi) as [? _]. cbn [fst snd]. lia. }
  { lia. }
  exists cells. split.
  - rewrite build_cells_eq. unfold requested_box. fold lim. fold lower. change (map2 Qminus (map snd lim) lower) with (vsub (map snd lim) lower). cbv beta iota zeta.
    fold d. rewrite (proj2 (Nat.eqb_eq _ _) Hl). unfold vsub at 1. fold (vsub (map snd lim) lower).
    rewrite (proj2 (Nat.eqb_eq _ _) Hs0). cbn [negb]. fold size. rewrite Ec. reflexivity.
  - intros n Hnl Hbox. apply Hcells.
    assert (forall i, (i < d)%nat -> fst (nth i (nvec_limits b lower size 0%Q) (0, 0)) <= nth i n 0 < snd (nth i (nvec_limits b lower size 0%Q) (0, 0)) /\
              nth i n 0 - fst (nth i (nvec_limits b lower size 0%Q) (0, 0)) < 2 ^ (w - 1))%Z as Hi.
    { intros i Hi. rewrite (Hn i Hi). cbn [fst snd]. specialize (Hbox i Hi). rewrite nth_repeat in Hbox. destruct (H i Hi) as [Hbd Hwrap].
      assert (2 ^ 7 <= 2 ^ (w - 1))%Z as Q4 by (apply Z.pow_le_mono_r; lia). change (2 ^ 7)%Z with 128%Z in Q4.
      split; [lia|]. destruct Hwrap as [Hwrap|[j [Hj Hwrap]]]; [lia|].
      assert (nth j hi 0 + 1 < 2 ^ (w - 1))%Z; [|lia]. apply (Hsnd (nth j lo 0 - 1, nth j hi 0 + 1)%Z). rewrite <- Hn by auto. apply nth_In. lia. }
    apply (Forall2_by_nth _ _ _ (0, 0)%Z 0%Z); [lia|]. intros i Hi'. apply Hi. lia.
Qed.

(** Then the selected sites are those of the block. *)
Lemma block_members b norms s N R cells :
  let d := b_dim b in
  let sh := SBoxBasis s (vzero d) (b_mat b) (b_inv b) in
  valid_basis b -> length norms = d -> length s = d -> R <> [] -> (forall r, In r R -> length r = d) ->
  (forall r i, In r R -> i < d -> (0 <= coord b r i <= 1#2)%Q /\ (inject_Z (nth i N 0%Z) - 1 + coord b r i <= nth i s 0 + (1#1000) < inject_Z (nth i N 0%Z))%Q) ->
  build_translation_vectors b norms (AShape sh) true None false 0 = Ok cells ->
  (forall n, length n = d -> box d (repeat 0%Z d) N n -> In n cells) ->
  exists I P, build_indices b norms R (AShape sh) true None true None = Ok (I, P) /\ NoDup I /\
    (forall t, In t I <-> exists n x, t = n ++ [Z.of_nat x] /\ length n = d /\ box d (repeat 0%Z d) N n /\ x < length R).
Proof.
  intros d sh Hb Hno Hs HR HRl Hat Ec Hcells.
  assert (true = true -> length norms = b_dim b) as Hno' by auto.
  destruct (checked_members b norms R (AShape sh) true None (fun p => shape_contains sh p (1#1000) = true) cells Hb) as [I [P [EI HI]]]; auto.
  - intros p p' Hp Hpv. rewrite (contains_veq d sh p p'); [reflexivity| |auto|auto]. left. exists s, (vzero d).
    split; [|split; [auto|apply repeat_length]]. cbn [is_box sh]. split; auto.
  - intros points _. cbn [check_points]. eexists. split; [reflexivity|]. rewrite map_length. split; auto. intros k p Hk.
    rewrite (nth_of_nth_error _ _ _ (shape_contains sh p (1#1000))); [reflexivity|]. unfold vec. rewrite nth_error_map', Hk. reflexivity.
  - exists I, P. split; [exact EI|].
    pose proof (C33_no_site_twice _ _ _ _ _ _ _ _ _ _ Hb Hno' HRl EI) as HN. split; [exact HN|].
    assert (forall n x r, length n = d -> nth_error R x = Some r -> (In (n ++ [Z.of_nat x]) I <-> box d (repeat 0%Z d) N n)) as Hone.
    { intros n x r Hn Hr. rewrite (HI n x r Hr). assert (In r R) as Hin by (eapply nth_error_In; eauto).
      assert (shape_contains sh (lattice_point d (b_mat b) r n) (1#1000) = true <->
        forall i, i < d -> (- (1#1000) <= coord b r i + inject_Z (nth i n 0%Z) <= nth i s 0 + (1#1000))%Q) as Hc.
      { pose proof Hb as [_ [Hsq _]]. fold d in Hsq. cbn [shape_contains sh].
        rewrite (box_contains_spec d) by (auto; try apply repeat_length; apply matvec_len; auto).
        assert (forall i, i < d -> (nth i (matvec (b_inv b) (lattice_point d (b_mat b) r n)) 0 == coord b r i + inject_Z (nth i n 0%Z))%Q) as Ei.
        { intros i Hi. rewrite (nth_matvec_sum d) by (auto; apply lattice_point_length).
          change (sum_upto d (fun k => entry (b_inv b) i k * nth k (lattice_point d (b_mat b) r n) 0)%Q) with (coord b (lattice_point (b_dim b) (b_mat b) r n) i).
          apply coord_point; auto. }
        unfold vzero. split; intros H i Hi; specialize (H i Hi); rewrite (Ei i Hi) in *; rewrite nth_repeat in *; lra. }
      fold d. rewrite Hc. split.
      - intros [_ H] k Hk. pose proof (H k Hk) as Hk'. destruct (Hat r k Hin Hk) as [H0 H1]. rewrite nth_repeat. split.
        + assert (- 1 < nth k n 0)%Z; [|lia]. rewrite Zlt_Qlt. change (inject_Z (-1)) with (-1)%Q. lra.
        + assert (nth k n 0 < nth k N 0)%Z; [|lia]. rewrite Zlt_Qlt. lra.
      - intro Hbox. split; [apply Hcells; auto|]. intros k Hk. specialize (Hbox k Hk). rewrite nth_repeat in Hbox. destruct (Hat r k Hin Hk) as [H0 H1].
        assert (0 <= nth k n 0 <= nth k N 0 - 1)%Z as [Q1 Q2] by lia.
        rewrite Zle_Qle in Q1, Q2. unfold Z.sub in Q2. rewrite inject_Z_plus in Q2. change (inject_Z (- (1))) with (-1)%Q in Q2. change (inject_Z 0) with 0%Q in Q1. lra. }
    intro t. split.
    + intro Ht. destruct (C31_indices_and_positions_aligned _ _ _ _ _ _ _ _ _ _ Hb Hno' HRl EI) as [Hl [Hal _]].
      pose proof Ht as Ht'. apply In_nth_error in Ht'. destruct Ht' as [k Hk]. destruct (nth_error_lt P k) as [p Hp]; [apply nth_error_length_lt in Hk; lia|].
      destruct (Hal k t p Hk Hp) as [n [x [r [-> [Hn [Hr _]]]]]]. exists n, x. split; auto. split; auto. split; [apply (Hone n x r Hn Hr); exact Ht|]. apply nth_error_length_lt in Hr. auto.
    + intros (n & x & -> & Hn & Hbox & Hlt). destruct (nth_error_lt R x Hlt) as [r Hr]. apply (Hone n x r Hn Hr). exact Hbox.
Qed.

(** The number of sites of a block in three dimensions. *)
Lemma block_count N1 N2 N3 x (Is : list (list Z)) : (0 <= N1)%Z -> (0 <= N2)%Z -> (0 <= N3)%Z -> NoDup Is ->
  (forall t, In t Is <-> exists n a, t = n ++ [Z.of_nat a] /\ length n = 3 /\ box 3 [0; 0; 0]%Z [N1; N2; N3] n /\ a < x) ->
  Z.of_nat (length Is) = (Z.of_nat x * N1 * N2 * N3)%Z.
Proof.
  intros P1 P2 P3 HN Hmem. assert (length Is = length (product [zrange 0 N1; zrange 0 N2; zrange 0 N3; map Z.of_nat (seq 0 x)])) as ->.
  { apply Permutation_length. apply NoDup_Permutation; [exact HN| |].
    - apply NoDup_product. constructor; [apply NoDup_zrange|]. constructor; [apply NoDup_zrange|]. constructor; [apply NoDup_zrange|]. constructor; [|constructor].
      apply NoDup_map_in; [|apply seq_NoDup]. intros i j _ _ E. lia.
    - intro t. rewrite Hmem, In_product. split.
      + intros (n & a & -> & Hn & Hb & Ha). destruct n as [|n1 [|n2 [|n3 [|? ?]]]]; try discriminate. pose proof (Hb 0 ltac:(lia)) as B1. pose proof (Hb 1 ltac:(lia)) as B2. pose proof (Hb 2 ltac:(lia)) as B3. cbn in B1, B2, B3.
        cbn [app]. repeat (constructor; [apply In_zrange; lia|]). constructor; [|constructor]. apply in_map. apply in_seq. lia.
      + intro H. inversion H as [|? ? ? t1 H1 Ht1]; subst. inversion Ht1 as [|? ? ? t2 H2 Ht2]; subst. inversion Ht2 as [|? ? ? t3 H3 Ht3]; subst. inversion Ht3 as [|? ? ? t4 H4 Ht4]; subst. inversion Ht4; subst.
        apply In_zrange in H1. apply In_zrange in H2. apply In_zrange in H3. apply in_map_iff in H4. destruct H4 as [a [<- H4]]. apply in_seq in H4.
        eexists [_; _; _], a. split; [reflexivity|]. split; [reflexivity|]. split; [|lia]. intros [|[|[|k]]] Hk; cbn; lia. }
  rewrite PropPrimitive.product_count. cbn [length PropPrimitive.times nth]. rewrite !zrange_length, map_length, seq_length. rewrite !Z2Nat.id by lia. ring.
Qed.

(** ** The bounds as rational numbers *)

Lemma floor_up c z : (Qfloor c <= z)%Z -> (c < inject_Z z + 1)%Q.
Proof. intro Hz. eapply Qlt_le_trans; [apply Qlt_floor|]. rewrite inject_Z_plus. rewrite Zle_Qle in Hz. change (inject_Z 1) with 1%Q. lra. Qed.
Lemma floor_down c z : (z <= Qfloor c)%Z -> (inject_Z z <= c)%Q.
Proof. intro Hz. eapply Qle_trans; [|apply Qfloor_le]. rewrite <- Zle_Qle. exact Hz. Qed.
Lemma below_next m z : (inject_Z m < inject_Z z + 1)%Q -> (m <= z)%Z.
Proof. intro Hz. apply Z.lt_succ_r. rewrite Zlt_Qlt. unfold Z.succ. rewrite inject_Z_plus. exact Hz. Qed.
Lemma small_abs z : (- 4611686018427387000 <= inject_Z z <= 4611686018427387000)%Q -> (Z.abs z < 2 ^ 62)%Z.
Proof.
  intros [C1 C2]. change (- 4611686018427387000)%Q with (inject_Z (- 4611686018427387000)) in C1. change 4611686018427387000%Q with (inject_Z 4611686018427387000) in C2.
  rewrite <- Zle_Qle in C1, C2. change (2 ^ 62)%Z with 4611686018427387904%Z. lia.
Qed.

(** The columns of the corners of the box. *)
Lemma limits_of s V W c lo hi : nth_error (shape_limits (SBoxBasis s (vzero 3) V W)) c = Some (lo, hi) ->
  let col := map (fun p => nth c p 0%Q) (map (matvec V) (box_corners s (vzero 3))) in
  ((exists x, In x col /\ lo == x) /\ (forall x, In x col -> lo <= x) /\ (exists x, In x col /\ hi == x) /\ (forall x, In x col -> x <= hi))%Q.
Proof.
  intro Hn. apply point_limits_spec in Hn. destruct Hn as [[[x [Hx Ex]] Hlo] [[y [Hy Ey]] Hhi]]. cbv zeta.
  split; [exists x; split; auto; lra|]. split; [exact Hlo|]. split; [exists y; split; auto; lra|exact Hhi].
Qed.

Section FCC.
  Variables (inv : mat -> mat) (a : Q).
  Hypothesis I3 : inverts inv 3.
  Hypothesis Ha : (5#2 <= a)%Q.
  Let b := fcc inv a.

  Lemma fb_valid : valid_basis b.
  Proof. apply fcc_valid; auto. intro E. rewrite E in Ha. lra. Qed.

  Lemma fb_rows : exists g, (g * a == 1)%Q /\ (0 < g)%Q /\ forall p, length p = 3 ->
    (coord b p 0 == g * nth 0 p 0 + g * nth 1 p 0 - g * nth 2 p 0 /\ coord b p 1 == g * nth 0 p 0 - g * nth 1 p 0 + g * nth 2 p 0 /\
     coord b p 2 == - (g * nth 0 p 0) + g * nth 1 p 0 + g * nth 2 p 0)%Q.
  Proof.
    destruct fb_valid as [_ [_ [_ HW]]]. change (b_dim b) with 3 in HW. exists (/ a)%Q.
    assert (/ a * a == 1)%Q as G by (field; lra). split; [exact G|]. split; [apply Qinv_lt_0_compat; lra|].
    assert (forall i, i < 3 -> let w j := entry (b_inv b) i j in
      (w 0%nat * (a * (1#2)) + w 1%nat * (a * (1#2)) == delta i 0 /\ w 0%nat * (a * (1#2)) + w 2%nat * (a * (1#2)) == delta i 1 /\ w 1%nat * (a * (1#2)) + w 2%nat * (a * (1#2)) == delta i 2)%Q) as Hrow.
    { intros i Hi w. pose proof (HW i 0 Hi ltac:(lia)) as E0. pose proof (HW i 1 Hi ltac:(lia)) as E1. pose proof (HW i 2 Hi ltac:(lia)) as E2.
      cbn -[Qmult Qplus Qdiv Qopp b_inv delta] in E0, E1, E2. unfold Qdiv in E0, E1, E2. change (/ 2)%Q with (1#2)%Q in E0, E1, E2. unfold w. lra. }
    assert (forall x y, (x * a == y * a -> x == y)%Q) as Hinj by (intros x y E; apply (Qmult_inj_r _ _ a); [lra|exact E]).
    intros p Hp. unfold coord, coordinate. change (b_dim b) with 3. cbn [sum_upto].
    destruct (Hrow 0 ltac:(lia)) as (A0 & A1 & A2). destruct (Hrow 1 ltac:(lia)) as (B0 & B1 & B2). destruct (Hrow 2 ltac:(lia)) as (C0 & C1 & C2). cbv zeta in *. cbn [delta Nat.eqb] in *.
    set (g := (/ a)%Q) in *.
    assert (entry (b_inv b) 0 0 == g /\ entry (b_inv b) 0 1 == g /\ entry (b_inv b) 0 2 == - g)%Q as (-> & -> & ->) by (repeat split; apply Hinj; lra).
    assert (entry (b_inv b) 1 0 == g /\ entry (b_inv b) 1 1 == - g /\ entry (b_inv b) 1 2 == g)%Q as (-> & -> & ->) by (repeat split; apply Hinj; lra).
    assert (entry (b_inv b) 2 0 == - g /\ entry (b_inv b) 2 1 == g /\ entry (b_inv b) 2 2 == g)%Q as (-> & -> & ->) by (repeat split; apply Hinj; lra).
    repeat split; ring.
  Qed.

  Lemma fb_limits s1 s2 s3 : (0 <= s1)%Q -> (0 <= s2)%Q -> (0 <= s3)%Q ->
    exists x0 x1 y0 y1 z0 z1, shape_limits (SBoxBasis [s1; s2; s3] (vzero 3) (b_mat b) (b_inv b)) = [(x0, x1); (y0, y1); (z0, z1)] /\
      (x0 == 0 /\ x1 == (1#2) * (a * s1 + a * s2) /\ y0 == 0 /\ y1 == (1#2) * (a * s1 + a * s3) /\ z0 == 0 /\ z1 == (1#2) * (a * s2 + a * s3))%Q.
  Proof.
    intros S1 S2 S3. pose proof (limits_of [s1; s2; s3] (b_mat b) (b_inv b)) as Hspec. set (lim := shape_limits _) in *.
    assert (length lim = 3) as Hl by reflexivity.
    destruct lim as [|[x0 x1] [|[y0 y1] [|[z0 z1] [|? ?]]]]; try discriminate Hl. exists x0, x1, y0, y1, z0, z1. split; [reflexivity|].
    assert (0 <= a * s1)%Q by nra. assert (0 <= a * s2)%Q by nra. assert (0 <= a * s3)%Q by nra.
    destruct (Hspec 0 x0 x1 eq_refl) as ((u & Hu & Eu) & Hlo & (v & Hv & Ev) & Hhi).
    destruct (Hspec 1 y0 y1 eq_refl) as ((u' & Hu' & Eu') & Hlo' & (v' & Hv' & Ev') & Hhi').
    destruct (Hspec 2 z0 z1 eq_refl) as ((u'' & Hu'' & Eu'') & Hlo'' & (v'' & Hv'' & Ev'') & Hhi'').
    clear Hspec Hl. cbn -[Qmult Qplus Qdiv Qopp] in Hu, Hlo, Hv, Hhi, Hu', Hlo', Hv', Hhi', Hu'', Hlo'', Hv'', Hhi''.
    unfold Qdiv in *. change (/ 2)%Q with (1#2)%Q in *.
    pose proof (Hlo _ (or_introl eq_refl)) as L. pose proof (Hlo' _ (or_introl eq_refl)) as L'. pose proof (Hlo'' _ (or_introl eq_refl)) as L''.
    pose proof (Hhi _ ltac:(do 7 right; left; reflexivity)) as U. pose proof (Hhi' _ ltac:(do 7 right; left; reflexivity)) as U'. pose proof (Hhi'' _ ltac:(do 7 right; left; reflexivity)) as U''.
    clear Hlo Hhi Hlo' Hhi' Hlo'' Hhi''.
    split; [repeat (destruct Hu as [<-|Hu]; [lra|]); destruct Hu|]. split; [repeat (destruct Hv as [<-|Hv]; [lra|]); destruct Hv|].
    split; [repeat (destruct Hu' as [<-|Hu']; [lra|]); destruct Hu'|]. split; [repeat (destruct Hv' as [<-|Hv']; [lra|]); destruct Hv'|].
    split; [repeat (destruct Hu'' as [<-|Hu'']; [lra|]); destruct Hu''|repeat (destruct Hv'' as [<-|Hv'']; [lra|]); destruct Hv''].
  Qed.

  Lemma fb_max : exists m1 m2 m3, max_vectors b = [m1; m2; m3] /\ (m1 == (1#2) * a /\ m2 == (1#2) * a /\ m3 == (1#2) * a)%Q.
  Proof.
    eexists _, _, _. split; [reflexivity|]. unfold qmax_list. cbn -[Qmult Qplus Qdiv Qopp Qminmax.Qmax].
    unfold Qdiv. change (/ 2)%Q with (1#2)%Q.
    assert (forall x y z w : Q, x <= w -> y <= w -> z <= w -> (x == w \/ y == w) -> Qminmax.Qmax (Qminmax.Qmax x y) z == w)%Q as Hm.
    { intros x y z w X Y Z E. apply Qminmax.Q.max_case_strong; [intros ? ? Eq H; rewrite <- Eq; exact H|intro|intro]; revert H; apply Qminmax.Q.max_case_strong; intros; try (rewrite <- H in *; assumption); lra. }
    split; [|split]; apply Hm; lra.
  Qed.

  (** All the cells of the block are searched. *)
  Lemma fb_cells u v w s1 s2 s3 N1 N2 N3 :
    (0 <= u <= a)%Q -> (0 <= v <= a)%Q -> (0 <= w <= a)%Q -> (1#5 <= s1)%Q -> (1#5 <= s2)%Q -> (1#5 <= s3)%Q -> (a * (s1 + s2 + s3) < inject_Z (2 ^ 60))%Q ->
    (1 <= N1)%Z -> (1 <= N2)%Z -> (1 <= N3)%Z ->
    (inject_Z N1 - 1 <= s1 + (1#1000))%Q -> (inject_Z N2 - 1 <= s2 + (1#1000))%Q -> (inject_Z N3 - 1 <= s3 + (1#1000))%Q ->
    exists cells, build_translation_vectors b [u; v; w] (AShape (SBoxBasis [s1; s2; s3] (vzero 3) (b_mat b) (b_inv b))) true None false 0 = Ok cells /\
      (forall n, length n = 3 -> box 3 [0; 0; 0]%Z [N1; N2; N3] n -> In n cells).
  Proof.
    intros Hu Hv Hw S1 S2 S3 Hbig P1 P2 P3 B1 B2 B3. pose proof fb_valid as Hb.
    destruct (fb_limits s1 s2 s3 ltac:(lra) ltac:(lra) ltac:(lra)) as (x0 & x1 & y0 & y1 & z0 & z1 & El & Ex0 & Ex1 & Ey0 & Ey1 & Ez0 & Ez1).
    destruct fb_max as (m1 & m2 & m3 & Em & Em1 & Em2 & Em3).
    destruct fb_rows as (g & G & Gp & Hrow).
    set (lower := [x0; y0; z0]). set (size := [(x1 - x0) * m1 - (1#10) * u; (y1 - y0) * m2 - (1#10) * v; (z1 - z0) * m3 - (1#10) * w]%Q).
    destruct (nvec_range b lower (vadd lower size)) as [lo hi] eqn:E.
    pose proof (fun N => cells_of_range b [u; v; w] [s1; s2; s3] lo hi N Hb) as Hc. cbv zeta in Hc. change (b_dim b) with 3 in Hc. rewrite El in Hc. cbn [map fst snd] in Hc. rewrite Em in Hc.
    cbn [vsub map2 vscale map length] in Hc. specialize (Hc [N1; N2; N3] ltac:(lia) eq_refl eq_refl eq_refl E). cbn [repeat] in Hc.
    set (A1 := (a * s1)%Q) in *. set (A2 := (a * s2)%Q) in *. set (A3 := (a * s3)%Q) in *. set (U := (g * u)%Q). set (V := (g * v)%Q). set (W := (g * w)%Q).
    assert ((5#2) * s1 <= A1)%Q as HA1 by (unfold A1; nra). assert ((5#2) * s2 <= A2)%Q as HA2 by (unfold A2; nra). assert ((5#2) * s3 <= A3)%Q as HA3 by (unfold A3; nra).
    assert (A1 + A2 + A3 < inject_Z (2 ^ 60))%Q as Hbig' by (unfold A1, A2, A3; lra). clear Hbig.
    assert (0 <= U <= 1)%Q as HU by (unfold U; split; nra). assert (0 <= V <= 1)%Q as HV by (unfold V; split; nra). assert (0 <= W <= 1)%Q as HW by (unfold W; split; nra).
    set (ex := (nth 0 lower 0 + nth 0 size 0)%Q). set (ey := (nth 1 lower 0 + nth 1 size 0)%Q). set (ez := (nth 2 lower 0 + nth 2 size 0)%Q).
    set (X := ((1#4) * (A1 + A2) - (1#10) * U)%Q). set (Y := ((1#4) * (A1 + A3) - (1#10) * V)%Q). set (Z := ((1#4) * (A2 + A3) - (1#10) * W)%Q).
    assert (g * ex == X)%Q as EX.
    { unfold ex, X, U, lower, size. cbn [nth]. rewrite Ex0, Ex1, Em1. setoid_replace (g * (0 + (((1#2) * (A1 + A2) - 0) * ((1#2) * a) - (1#10) * u)))%Q with ((1#4) * (A1 + A2) * (g * a) - (1#10) * (g * u))%Q by ring. rewrite G. ring. }
    assert (g * ey == Y)%Q as EY.
    { unfold ey, Y, V, lower, size. cbn [nth]. rewrite Ey0, Ey1, Em2. setoid_replace (g * (0 + (((1#2) * (A1 + A3) - 0) * ((1#2) * a) - (1#10) * v)))%Q with ((1#4) * (A1 + A3) * (g * a) - (1#10) * (g * v))%Q by ring. rewrite G. ring. }
    assert (g * ez == Z)%Q as EZ.
    { unfold ez, Z, W, lower, size. cbn [nth]. rewrite Ez0, Ez1, Em3. setoid_replace (g * (0 + (((1#2) * (A2 + A3) - 0) * ((1#2) * a) - (1#10) * w)))%Q with ((1#4) * (A2 + A3) * (g * a) - (1#10) * (g * w))%Q by ring. rewrite G. ring. }
    assert (g * x0 == 0 /\ g * y0 == 0 /\ g * z0 == 0)%Q as (EX0 & EY0 & EZ0) by (rewrite Ex0, Ey0, Ez0; repeat split; ring).
    pose proof (range_spec b Hb lower (vadd lower size) eq_refl eq_refl) as Hr. rewrite E in Hr. destruct Hr as [_ [_ Hr]]. change (b_dim b) with 3 in Hr.
    destruct (Hr 0 ltac:(lia)) as [La [_ Hpr0]]. destruct (Hr 1 ltac:(lia)) as [Lb [_ Hpr1]]. destruct (Hr 2 ltac:(lia)) as [Lc [_ Hpr2]].
    pose proof (Hpr0 [ex; ey; 0%Q] ltac:(cbn; auto)) as [_ H1]. pose proof (Hpr1 [ex; 0%Q; ez] ltac:(cbn; auto)) as [_ H2]. pose proof (Hpr2 [0%Q; ey; ez] ltac:(cbn; auto)) as [_ H3].
    clear Hpr0 Hpr1 Hpr2 Hr.
    destruct (Hrow lower eq_refl) as (R1 & R2 & R3). destruct (Hrow [ex; ey; 0%Q] eq_refl) as (R4 & _ & _). destruct (Hrow [ex; 0%Q; ez] eq_refl) as (_ & R5 & _). destruct (Hrow [0%Q; ey; ez] eq_refl) as (_ & _ & R6).
    cbn [nth lower] in R1, R2, R3, R4, R5, R6.
    apply floor_down in La. apply floor_down in Lb. apply floor_down in Lc. apply floor_up in H1. apply floor_up in H2. apply floor_up in H3.
    change (coord b [x0; y0; z0] 0) with (coord b lower 0) in R1. change (coord b [x0; y0; z0] 1) with (coord b lower 1) in R2. change (coord b [x0; y0; z0] 2) with (coord b lower 2) in R3.
    rewrite EX, EY in R4. rewrite EX, EZ in R5. rewrite EY, EZ in R6. rewrite R1, EX0, EY0, EZ0 in La. rewrite R2, EX0, EY0, EZ0 in Lb. rewrite R3, EX0, EY0, EZ0 in Lc.
    rewrite R4 in H1. rewrite R5 in H2. rewrite R6 in H3.
    assert (forall z i, i < 3 -> (exists p, length p = b_dim b /\ z = Qfloor (coord b p i) /\
       ((forall j, j < b_dim b -> (nth j p 0 == nth j lower 0)%Q) \/ (forall j, j < b_dim b -> (nth j p 0 == 0 \/ nth j p 0 == nth j lower 0 + nth j size 0)%Q))) ->
       exists c0 c1 c2, ((c0 == 0 \/ c0 == X) /\ (c1 == 0 \/ c1 == Y) /\ (c2 == 0 \/ c2 == Z))%Q /\
         let c := nth i [c0 + c1 - c2; c0 - c1 + c2; - c0 + c1 + c2]%Q 0%Q in (inject_Z z <= c < inject_Z z + 1)%Q) as Hreach.
    { intros z i Hi (p & Hpl & -> & Hpp). change (b_dim b) with 3 in *. exists (g * nth 0 p 0)%Q, (g * nth 1 p 0)%Q, (g * nth 2 p 0)%Q. destruct (Hrow p Hpl) as (C0 & C1 & C2).
      split.
      - split; [|split]; destruct Hpp as [Hpp|Hpp].
        + left. rewrite (Hpp 0 ltac:(lia)). exact EX0.
        + destruct (Hpp 0 ltac:(lia)) as [H|H]; [left; rewrite H; ring|right; rewrite H; exact EX].
        + left. rewrite (Hpp 1 ltac:(lia)). exact EY0.
        + destruct (Hpp 1 ltac:(lia)) as [H|H]; [left; rewrite H; ring|right; rewrite H; exact EY].
        + left. rewrite (Hpp 2 ltac:(lia)). exact EZ0.
        + destruct (Hpp 2 ltac:(lia)) as [H|H]; [left; rewrite H; ring|right; rewrite H; exact EZ].
      - cbv zeta. assert (nth i [g * nth 0 p 0 + g * nth 1 p 0 - g * nth 2 p 0; g * nth 0 p 0 - g * nth 1 p 0 + g * nth 2 p 0; - (g * nth 0 p 0) + g * nth 1 p 0 + g * nth 2 p 0]%Q 0%Q == coord b p i)%Q as ->
          by (destruct i as [|[|[|i]]]; [symmetry; exact C0|symmetry; exact C1|symmetry; exact C2|lia]).
        split; [apply Qfloor_le|]. apply floor_up. lia. }
    destruct (range_attained b lower size lo hi Hb eq_refl eq_refl E 0 ltac:(cbn; lia)) as [T1 T2].
    destruct (range_attained b lower size lo hi Hb eq_refl eq_refl E 1 ltac:(cbn; lia)) as [T3 T4].
    destruct (range_attained b lower size lo hi Hb eq_refl eq_refl E 2 ltac:(cbn; lia)) as [T5 T6].
    apply Hreach in T1; [|lia]. apply Hreach in T2; [|lia]. apply Hreach in T3; [|lia]. apply Hreach in T4; [|lia]. apply Hreach in T5; [|lia]. apply Hreach in T6; [|lia]. clear Hreach.
    set (l1 := nth 0 lo 0%Z) in *. set (l2 := nth 1 lo 0%Z) in *. set (l3 := nth 2 lo 0%Z) in *. set (h1 := nth 0 hi 0%Z) in *. set (h2 := nth 1 hi 0%Z) in *. set (h3 := nth 2 hi 0%Z) in *.
    clear EX EY EZ EX0 EY0 EZ0 R1 R2 R3 R4 R5 R6 Ex0 Ex1 Ey0 Ey1 Ez0 Ez1 Em1 Em2 Em3 Hrow. clearbody A1 A2 A3 U V W. unfold X, Y, Z in *. clear X Y Z ex ey ez.
    assert (- (1#4) * (A2 + A3) - 1 < inject_Z l1)%Q as L1.
    { destruct T1 as (c0 & c1 & c2 & (C0 & C1 & C2) & C). cbn [nth] in C. destruct C0 as [C0|C0], C1 as [C1|C1], C2 as [C2|C2]; lra. }
    assert (- (1#4) * (A1 + A3) - 1 < inject_Z l2)%Q as L2.
    { destruct T3 as (c0 & c1 & c2 & (C0 & C1 & C2) & C). cbn [nth] in C. destruct C0 as [C0|C0], C1 as [C1|C1], C2 as [C2|C2]; lra. }
    assert (- (1#4) * (A1 + A2) - 1 < inject_Z l3)%Q as L3.
    { destruct T5 as (c0 & c1 & c2 & (C0 & C1 & C2) & C). cbn [nth] in C. destruct C0 as [C0|C0], C1 as [C1|C1], C2 as [C2|C2]; lra. }
    assert (inject_Z h1 <= A1 + A2 + A3)%Q as M1.
    { destruct T2 as (c0 & c1 & c2 & (C0 & C1 & C2) & C). cbn [nth] in C. destruct C0 as [C0|C0], C1 as [C1|C1], C2 as [C2|C2]; lra. }
    assert (inject_Z h2 <= A1 + A2 + A3)%Q as M2.
    { destruct T4 as (c0 & c1 & c2 & (C0 & C1 & C2) & C). cbn [nth] in C. destruct C0 as [C0|C0], C1 as [C1|C1], C2 as [C2|C2]; lra. }
    assert (inject_Z h3 <= A1 + A2 + A3)%Q as M3.
    { destruct T6 as (c0 & c1 & c2 & (C0 & C1 & C2) & C). cbn [nth] in C. destruct C0 as [C0|C0], C1 as [C1|C1], C2 as [C2|C2]; lra. }
    clear T1 T2 T3 T4 T5 T6. change (inject_Z (2 ^ 60)) with 1152921504606846976%Q in Hbig'.
    assert (forall m z, (inject_Z m - 1 < inject_Z z + 1)%Q -> (m - 1 <= z)%Z) as Hlast.
    { intros m z H. apply below_next. unfold Z.sub. rewrite inject_Z_plus. change (inject_Z (- (1))) with (- (1))%Q. lra. }
    assert (forall m z t, (inject_Z m - inject_Z z < inject_Z t + 2)%Q -> (m - z <= t + 1)%Z) as Hgap.
    { intros m z t H. apply below_next. unfold Z.sub. rewrite !inject_Z_plus, inject_Z_opp. change (inject_Z 1) with 1%Q. lra. }
    assert (forall m z, (inject_Z m - inject_Z z < 127 + 1)%Q -> (m - z <= 127)%Z) as Hgap'.
    { intros m z H. apply below_next. unfold Z.sub. rewrite !inject_Z_plus, inject_Z_opp. change (inject_Z 127) with 127%Q. lra. }
    assert (forall z, (inject_Z z <= 0)%Q -> (z <= 0)%Z) as Hneg by (intros z H; rewrite Zle_Qle; exact H).
    apply Hc. clear Hc. intros [|[|[|i]]] Hi; [| | |lia].
    - change (nth 0 [N1; N2; N3] 0%Z) with N1. change (nth 0 lo 0%Z) with l1. change (nth 0 hi 0%Z) with h1. split.
      { split; [lia|]. split; [apply Hneg; lra|]. split; [apply Hlast; lra|]. split; apply small_abs; lra. }
      destruct (Qlt_le_dec s1 8) as [D|D]; [|right; exists 0; split; [lia|]; apply (Hgap N1 l1 h1); lra].
      destruct (Qlt_le_dec A2 20) as [D2|D2]; [|right; exists 1; split; [lia|]; apply (Hgap N1 l1 h2); lra].
      destruct (Qlt_le_dec A3 20) as [D3|D3]; [|right; exists 2; split; [lia|]; apply (Hgap N1 l1 h3); lra].
      left. apply Hgap'; lra.
    - change (nth 1 [N1; N2; N3] 0%Z) with N2. change (nth 1 lo 0%Z) with l2. change (nth 1 hi 0%Z) with h2. split.
      { split; [lia|]. split; [apply Hneg; lra|]. split; [apply Hlast; lra|]. split; apply small_abs; lra. }
      destruct (Qlt_le_dec s2 8) as [D|D]; [|right; exists 1; split; [lia|]; apply (Hgap N2 l2 h2); lra].
      destruct (Qlt_le_dec A1 20) as [D2|D2]; [|right; exists 0; split; [lia|]; apply (Hgap N2 l2 h1); lra].
      destruct (Qlt_le_dec A3 20) as [D3|D3]; [|right; exists 2; split; [lia|]; apply (Hgap N2 l2 h3); lra].
      left. apply Hgap'; lra.
    - change (nth 2 [N1; N2; N3] 0%Z) with N3. change (nth 2 lo 0%Z) with l3. change (nth 2 hi 0%Z) with h3. split.
      { split; [lia|]. split; [apply Hneg; lra|]. split; [apply Hlast; lra|]. split; apply small_abs; lra. }
      destruct (Qlt_le_dec s3 8) as [D|D]; [|right; exists 2; split; [lia|]; apply (Hgap N3 l3 h3); lra].
      destruct (Qlt_le_dec A1 20) as [D2|D2]; [|right; exists 0; split; [lia|]; apply (Hgap N3 l3 h1); lra].
      destruct (Qlt_le_dec A2 20) as [D3|D3]; [|right; exists 1; split; [lia|]; apply (Hgap N3 l3 h2); lra].
      left. apply Hgap'; lra.
  Qed.
End FCC.

Section BCC.
  Variables (inv : mat -> mat) (a : Q).
  Hypothesis I3 : inverts inv 3.
  Hypothesis Ha : (5#2 <= a)%Q.
  Let b := bcc inv a.

  Lemma bb_valid : valid_basis b.
  Proof. apply bcc_valid; auto. intro E. rewrite E in Ha. lra. Qed.

  Lemma bb_rows : exists g, (g * a == 1)%Q /\ (0 < g)%Q /\ forall p, length p = 3 ->
    (coord b p 0 == g * nth 0 p 0 + g * nth 1 p 0 /\ coord b p 1 == - (g * nth 1 p 0) + g * nth 2 p 0 /\
     coord b p 2 == - (g * nth 0 p 0) + g * nth 2 p 0)%Q.
  Proof.
    destruct bb_valid as [_ [_ [_ HW]]]. change (b_dim b) with 3 in HW. exists (/ a)%Q.
    assert (/ a * a == 1)%Q as G by (field; lra). split; [exact G|]. split; [apply Qinv_lt_0_compat; lra|].
    assert (forall i, i < 3 -> let w j := entry (b_inv b) i j in
      (w 0%nat * (a * (1#2)) + w 1%nat * (a * (1#2)) + w 2%nat * (a * (1#2)) == delta i 0 /\ w 0%nat * (a * (1#2)) - w 1%nat * (a * (1#2)) + w 2%nat * (a * (1#2)) == delta i 1 /\
       - (w 0%nat * (a * (1#2))) + w 1%nat * (a * (1#2)) + w 2%nat * (a * (1#2)) == delta i 2)%Q) as Hrow.
    { intros i Hi w. pose proof (HW i 0 Hi ltac:(lia)) as E0. pose proof (HW i 1 Hi ltac:(lia)) as E1. pose proof (HW i 2 Hi ltac:(lia)) as E2.
      cbn -[Qmult Qplus Qdiv Qopp b_inv delta] in E0, E1, E2. unfold Qdiv in E0, E1, E2. change (/ 2)%Q with (1#2)%Q in E0, E1, E2. unfold w. lra. }
    assert (forall x y, (x * a == y * a -> x == y)%Q) as Hinj by (intros x y E; apply (Qmult_inj_r _ _ a); [lra|exact E]).
    intros p Hp. unfold coord, coordinate. change (b_dim b) with 3. cbn [sum_upto].
    destruct (Hrow 0 ltac:(lia)) as (A0 & A1 & A2). destruct (Hrow 1 ltac:(lia)) as (B0 & B1 & B2). destruct (Hrow 2 ltac:(lia)) as (C0 & C1 & C2). cbv zeta in *. cbn [delta Nat.eqb] in *.
    set (g := (/ a)%Q) in *.
    assert (entry (b_inv b) 0 0 == g /\ entry (b_inv b) 0 1 == g /\ entry (b_inv b) 0 2 == 0)%Q as (-> & -> & ->) by (repeat split; apply Hinj; lra).
    assert (entry (b_inv b) 1 0 == 0 /\ entry (b_inv b) 1 1 == - g /\ entry (b_inv b) 1 2 == g)%Q as (-> & -> & ->) by (repeat split; apply Hinj; lra).
    assert (entry (b_inv b) 2 0 == - g /\ entry (b_inv b) 2 1 == 0 /\ entry (b_inv b) 2 2 == g)%Q as (-> & -> & ->) by (repeat split; apply Hinj; lra).
    repeat split; ring.
  Qed.

  Lemma bb_limits s1 s2 s3 : (0 <= s1)%Q -> (0 <= s2)%Q -> (0 <= s3)%Q ->
    exists x0 x1 y0 y1 z0 z1, shape_limits (SBoxBasis [s1; s2; s3] (vzero 3) (b_mat b) (b_inv b)) = [(x0, x1); (y0, y1); (z0, z1)] /\
      (x0 == - (1#2) * (a * s3) /\ x1 == (1#2) * (a * s1 + a * s2) /\ y0 == - (1#2) * (a * s2) /\ y1 == (1#2) * (a * s1 + a * s3) /\ z0 == 0 /\ z1 == (1#2) * (a * s1 + a * s2 + a * s3))%Q.
  Proof.
    intros S1 S2 S3. pose proof (limits_of [s1; s2; s3] (b_mat b) (b_inv b)) as Hspec. set (lim := shape_limits _) in *.
    assert (length lim = 3) as Hl by reflexivity.
    destruct lim as [|[x0 x1] [|[y0 y1] [|[z0 z1] [|? ?]]]]; try discriminate Hl. exists x0, x1, y0, y1, z0, z1. split; [reflexivity|].
    assert (0 <= a * s1)%Q by nra. assert (0 <= a * s2)%Q by nra. assert (0 <= a * s3)%Q by nra.
    destruct (Hspec 0 x0 x1 eq_refl) as ((u & Hu & Eu) & Hlo & (v & Hv & Ev) & Hhi).
    destruct (Hspec 1 y0 y1 eq_refl) as ((u' & Hu' & Eu') & Hlo' & (v' & Hv' & Ev') & Hhi').
    destruct (Hspec 2 z0 z1 eq_refl) as ((u'' & Hu'' & Eu'') & Hlo'' & (v'' & Hv'' & Ev'') & Hhi'').
    clear Hspec Hl. cbn -[Qmult Qplus Qdiv Qopp] in Hu, Hlo, Hv, Hhi, Hu', Hlo', Hv', Hhi', Hu'', Hlo'', Hv'', Hhi''.
    unfold Qdiv in *. change (/ 2)%Q with (1#2)%Q in *.
    pose proof (Hlo _ ltac:(do 1 right; left; reflexivity)) as L. pose proof (Hlo' _ ltac:(do 2 right; left; reflexivity)) as L'. pose proof (Hlo'' _ (or_introl eq_refl)) as L''.
    pose proof (Hhi _ ltac:(do 6 right; left; reflexivity)) as U. pose proof (Hhi' _ ltac:(do 5 right; left; reflexivity)) as U'. pose proof (Hhi'' _ ltac:(do 7 right; left; reflexivity)) as U''.
    clear Hlo Hhi Hlo' Hhi' Hlo'' Hhi''.
    split; [repeat (destruct Hu as [<-|Hu]; [lra|]); destruct Hu|]. split; [repeat (destruct Hv as [<-|Hv]; [lra|]); destruct Hv|].
    split; [repeat (destruct Hu' as [<-|Hu']; [lra|]); destruct Hu'|]. split; [repeat (destruct Hv' as [<-|Hv']; [lra|]); destruct Hv'|].
    split; [repeat (destruct Hu'' as [<-|Hu'']; [lra|]); destruct Hu''|repeat (destruct Hv'' as [<-|Hv'']; [lra|]); destruct Hv''].
  Qed.

  Lemma bb_max : exists m1 m2 m3, max_vectors b = [m1; m2; m3] /\ (m1 == (1#2) * a /\ m2 == (1#2) * a /\ m3 == (1#2) * a)%Q.
  Proof.
    eexists _, _, _. split; [reflexivity|]. unfold qmax_list. cbn -[Qmult Qplus Qdiv Qopp Qminmax.Qmax].
    unfold Qdiv. change (/ 2)%Q with (1#2)%Q.
    assert (forall x y z w : Q, x <= w -> y <= w -> z <= w -> (x == w \/ y == w) -> Qminmax.Qmax (Qminmax.Qmax x y) z == w)%Q as Hm.
    { intros x y z w X Y Z E. apply Qminmax.Q.max_case_strong; [intros ? ? Eq H; rewrite <- Eq; exact H|intro|intro]; revert H; apply Qminmax.Q.max_case_strong; intros; try (rewrite <- H in *; assumption); lra. }
    split; [|split]; apply Hm; lra.
  Qed.

  (** All the cells of the block are searched. *)
  Lemma bb_cells u v w s1 s2 s3 N1 N2 N3 :
    (0 <= u <= a)%Q -> (0 <= v <= a)%Q -> (0 <= w <= a)%Q -> (1#5 <= s1)%Q -> (1#5 <= s2)%Q -> (1#5 <= s3)%Q -> (a * (s1 + s2 + s3) < inject_Z (2 ^ 60))%Q ->
    (s2 + (1#5) <= (1#4) * (a * (s1 + s2 + s3)))%Q -> (s3 + (1#5) <= (1#4) * (a * (s1 + s2 + s3)))%Q ->
    (s2 + (1#2) * s3 + (5#4) <= (1#4) * (a * (s1 + s2 + s3)) /\ s3 + (1#2) * s2 + (5#4) <= (1#4) * (a * (s1 + s2 + s3)) \/
     (1#4) * (a * (s1 + s2 + s3)) + (1#2) * s2 <= 125 /\ (1#4) * (a * (s1 + s2 + s3)) + (1#2) * s3 <= 125)%Q ->
    (1 <= N1)%Z -> (1 <= N2)%Z -> (1 <= N3)%Z ->
    (inject_Z N1 - 1 <= s1 + (1#1000))%Q -> (inject_Z N2 - 1 <= s2 + (1#1000))%Q -> (inject_Z N3 - 1 <= s3 + (1#1000))%Q ->
    exists cells, build_translation_vectors b [u; v; w] (AShape (SBoxBasis [s1; s2; s3] (vzero 3) (b_mat b) (b_inv b))) true None false 0 = Ok cells /\
      (forall n, length n = 3 -> box 3 [0; 0; 0]%Z [N1; N2; N3] n -> In n cells).
  Proof.
    intros Hu Hv Hw S1 S2 S3 Hbig HP2 HP3 HPW P1 P2 P3 B1 B2 B3. pose proof bb_valid as Hb.
    destruct (bb_limits s1 s2 s3 ltac:(lra) ltac:(lra) ltac:(lra)) as (x0 & x1 & y0 & y1 & z0 & z1 & El & Ex0 & Ex1 & Ey0 & Ey1 & Ez0 & Ez1).
    destruct bb_max as (m1 & m2 & m3 & Em & Em1 & Em2 & Em3).
    destruct bb_rows as (g & G & Gp & Hrow).
    set (lower := [x0; y0; z0]). set (size := [(x1 - x0) * m1 - (1#10) * u; (y1 - y0) * m2 - (1#10) * v; (z1 - z0) * m3 - (1#10) * w]%Q).
    destruct (nvec_range b lower (vadd lower size)) as [lo hi] eqn:E.
    pose proof (fun N => cells_of_range b [u; v; w] [s1; s2; s3] lo hi N Hb) as Hc. cbv zeta in Hc. change (b_dim b) with 3 in Hc. rewrite El in Hc. cbn [map fst snd] in Hc. rewrite Em in Hc.
    cbn [vsub map2 vscale map length] in Hc. specialize (Hc [N1; N2; N3] ltac:(lia) eq_refl eq_refl eq_refl E). cbn [repeat] in Hc.
    set (A1 := (a * s1)%Q) in *. set (A2 := (a * s2)%Q) in *. set (A3 := (a * s3)%Q) in *. set (U := (g * u)%Q). set (V := (g * v)%Q). set (W := (g * w)%Q).
    assert ((5#2) * s1 <= A1)%Q as HA1 by (unfold A1; nra). assert ((5#2) * s2 <= A2)%Q as HA2 by (unfold A2; nra). assert ((5#2) * s3 <= A3)%Q as HA3 by (unfold A3; nra).
    assert (A1 + A2 + A3 < inject_Z (2 ^ 60))%Q as Hbig' by (unfold A1, A2, A3; lra). clear Hbig.
    set (T := (A1 + A2 + A3)%Q) in *. assert (a * (s1 + s2 + s3) == T)%Q as ET by (unfold T, A1, A2, A3; ring). rewrite ET in HP2, HP3, HPW.
    assert (0 <= U <= 1)%Q as HU by (unfold U; split; nra). assert (0 <= V <= 1)%Q as HV by (unfold V; split; nra). assert (0 <= W <= 1)%Q as HW by (unfold W; split; nra).
    set (ex := (nth 0 lower 0 + nth 0 size 0)%Q). set (ey := (nth 1 lower 0 + nth 1 size 0)%Q). set (ez := (nth 2 lower 0 + nth 2 size 0)%Q).
    set (X := ((1#4) * T - (1#10) * U - (1#2) * s3)%Q). set (Y := ((1#4) * T - (1#10) * V - (1#2) * s2)%Q). set (Z := ((1#4) * T - (1#10) * W)%Q).
    assert (g * ex == X)%Q as EX.
    { unfold ex, X, U, lower, size. cbn [nth]. rewrite Ex0, Ex1, Em1. unfold T.
      setoid_replace (g * (- (1#2) * A3 + (((1#2) * (A1 + A2) - - (1#2) * A3) * ((1#2) * a) - (1#10) * u)))%Q with ((1#4) * (A1 + A2 + A3) * (g * a) - (1#10) * (g * u) - (1#2) * s3 * (g * a))%Q by (unfold A3; ring). rewrite G. ring. }
    assert (g * ey == Y)%Q as EY.
    { unfold ey, Y, V, lower, size. cbn [nth]. rewrite Ey0, Ey1, Em2. unfold T.
      setoid_replace (g * (- (1#2) * A2 + (((1#2) * (A1 + A3) - - (1#2) * A2) * ((1#2) * a) - (1#10) * v)))%Q with ((1#4) * (A1 + A2 + A3) * (g * a) - (1#10) * (g * v) - (1#2) * s2 * (g * a))%Q by (unfold A2; ring). rewrite G. ring. }
    assert (g * ez == Z)%Q as EZ.
    { unfold ez, Z, W, lower, size. cbn [nth]. rewrite Ez0, Ez1, Em3. unfold T.
      setoid_replace (g * (0 + (((1#2) * (A1 + A2 + A3) - 0) * ((1#2) * a) - (1#10) * w)))%Q with ((1#4) * (A1 + A2 + A3) * (g * a) - (1#10) * (g * w))%Q by ring. rewrite G. ring. }
    assert (g * x0 == - (1#2) * s3 /\ g * y0 == - (1#2) * s2 /\ g * z0 == 0)%Q as (EX0 & EY0 & EZ0).
    { rewrite Ex0, Ey0, Ez0. setoid_replace (g * (- (1#2) * A3))%Q with (- (1#2) * s3 * (g * a))%Q by (unfold A3; ring). setoid_replace (g * (- (1#2) * A2))%Q with (- (1#2) * s2 * (g * a))%Q by (unfold A2; ring). rewrite G. repeat split; ring. }
    pose proof (range_spec b Hb lower (vadd lower size) eq_refl eq_refl) as Hr. rewrite E in Hr. destruct Hr as [_ [_ Hr]]. change (b_dim b) with 3 in Hr.
    destruct (Hr 0 ltac:(lia)) as [La [_ Hpr0]]. destruct (Hr 1 ltac:(lia)) as [_ [_ Hpr1]]. destruct (Hr 2 ltac:(lia)) as [_ [_ Hpr2]].
    pose proof (Hpr0 [ex; ey; 0%Q] ltac:(cbn; tauto)) as [_ H1]. pose proof (Hpr1 [0%Q; 0%Q; ez] ltac:(cbn; tauto)) as [_ H2]. pose proof (Hpr2 [0%Q; 0%Q; ez] ltac:(cbn; tauto)) as [_ H3].
    pose proof (Hpr1 [0%Q; ey; 0%Q] ltac:(cbn; tauto)) as [Lb _]. pose proof (Hpr2 [ex; 0%Q; 0%Q] ltac:(cbn; tauto)) as [Lc _].
    clear Hpr0 Hpr1 Hpr2 Hr.
    destruct (Hrow lower eq_refl) as (R1 & _ & _). destruct (Hrow [ex; ey; 0%Q] eq_refl) as (R4 & _ & _). destruct (Hrow [0%Q; 0%Q; ez] eq_refl) as (_ & R5 & R6).
    destruct (Hrow [0%Q; ey; 0%Q] eq_refl) as (_ & R2 & _). destruct (Hrow [ex; 0%Q; 0%Q] eq_refl) as (_ & _ & R3).
    cbn [nth lower] in R1, R2, R3, R4, R5, R6.
    apply floor_down in La. apply floor_down in Lb. apply floor_down in Lc. apply floor_up in H1. apply floor_up in H2. apply floor_up in H3.
    change (coord b [x0; y0; z0] 0) with (coord b lower 0) in R1.
    rewrite EX, EY in R4. rewrite EZ in R5. rewrite EZ in R6. rewrite EY in R2. rewrite EX in R3. rewrite R1, EX0, EY0 in La. rewrite R2 in Lb. rewrite R3 in Lc.
    rewrite R4 in H1. rewrite R5 in H2. rewrite R6 in H3.
    assert (forall z i, i < 3 -> (exists p, length p = b_dim b /\ z = Qfloor (coord b p i) /\
       ((forall j, j < b_dim b -> (nth j p 0 == nth j lower 0)%Q) \/ (forall j, j < b_dim b -> (nth j p 0 == 0 \/ nth j p 0 == nth j lower 0 + nth j size 0)%Q))) ->
       exists c0 c1 c2, ((c0 == 0 \/ c0 == X \/ c0 == - (1#2) * s3) /\ (c1 == 0 \/ c1 == Y \/ c1 == - (1#2) * s2) /\ (c2 == 0 \/ c2 == Z))%Q /\
         let c := nth i [c0 + c1; - c1 + c2; - c0 + c2]%Q 0%Q in (inject_Z z <= c < inject_Z z + 1)%Q) as Hreach.
    { intros z i Hi (p & Hpl & -> & Hpp). change (b_dim b) with 3 in *. exists (g * nth 0 p 0)%Q, (g * nth 1 p 0)%Q, (g * nth 2 p 0)%Q. destruct (Hrow p Hpl) as (C0 & C1 & C2).
      split.
      - split; [|split]; destruct Hpp as [Hpp|Hpp].
        + right; right. rewrite (Hpp 0 ltac:(lia)). exact EX0.
        + destruct (Hpp 0 ltac:(lia)) as [H|H]; [left; rewrite H; ring|right; left; rewrite H; exact EX].
        + right; right. rewrite (Hpp 1 ltac:(lia)). exact EY0.
        + destruct (Hpp 1 ltac:(lia)) as [H|H]; [left; rewrite H; ring|right; left; rewrite H; exact EY].
        + left. rewrite (Hpp 2 ltac:(lia)). exact EZ0.
        + destruct (Hpp 2 ltac:(lia)) as [H|H]; [left; rewrite H; ring|right; rewrite H; exact EZ].
      - cbv zeta. assert (nth i [g * nth 0 p 0 + g * nth 1 p 0; - (g * nth 1 p 0) + g * nth 2 p 0; - (g * nth 0 p 0) + g * nth 2 p 0]%Q 0%Q == coord b p i)%Q as ->
          by (destruct i as [|[|[|i]]]; [symmetry; exact C0|symmetry; exact C1|symmetry; exact C2|lia]).
        split; [apply Qfloor_le|]. apply floor_up. lia. }
    destruct (range_attained b lower size lo hi Hb eq_refl eq_refl E 0 ltac:(cbn; lia)) as [T1 T2].
    destruct (range_attained b lower size lo hi Hb eq_refl eq_refl E 1 ltac:(cbn; lia)) as [T3 T4].
    destruct (range_attained b lower size lo hi Hb eq_refl eq_refl E 2 ltac:(cbn; lia)) as [T5 T6].
    apply Hreach in T1; [|lia]. apply Hreach in T2; [|lia]. apply Hreach in T3; [|lia]. apply Hreach in T4; [|lia]. apply Hreach in T5; [|lia]. apply Hreach in T6; [|lia]. clear Hreach.
    set (l1 := nth 0 lo 0%Z) in *. set (l2 := nth 1 lo 0%Z) in *. set (l3 := nth 2 lo 0%Z) in *. set (h1 := nth 0 hi 0%Z) in *. set (h2 := nth 1 hi 0%Z) in *. set (h3 := nth 2 hi 0%Z) in *.
    clear EX EY EZ EX0 EY0 EZ0 R1 R2 R3 R4 R5 R6 Ex0 Ex1 Ey0 Ey1 Ez0 Ez1 Em1 Em2 Em3 Hrow. assert ((5#2) * (s1 + s2 + s3) <= T)%Q as HT by (unfold T; lra). clear ET. clearbody T A1 A2 A3 U V W. unfold X, Y, Z in *. clear X Y Z ex ey ez.
    assert (- (1#2) * (s2 + s3) - 1 < inject_Z l1)%Q as L1.
    { destruct T1 as (c0 & c1 & c2 & (C0 & C1 & C2) & C). cbn [nth] in C. destruct C0 as [C0|[C0|C0]], C1 as [C1|[C1|C1]], C2 as [C2|C2]; lra. }
    assert (- (1#4) * T + (1#2) * s2 - 1 < inject_Z l2)%Q as L2.
    { destruct T3 as (c0 & c1 & c2 & (C0 & C1 & C2) & C). cbn [nth] in C. destruct C0 as [C0|[C0|C0]], C1 as [C1|[C1|C1]], C2 as [C2|C2]; lra. }
    assert (- (1#4) * T + (1#2) * s3 - 1 < inject_Z l3)%Q as L3.
    { destruct T5 as (c0 & c1 & c2 & (C0 & C1 & C2) & C). cbn [nth] in C. destruct C0 as [C0|[C0|C0]], C1 as [C1|[C1|C1]], C2 as [C2|C2]; lra. }
    assert (inject_Z h1 <= 2 * T)%Q as M1.
    { destruct T2 as (c0 & c1 & c2 & (C0 & C1 & C2) & C). cbn [nth] in C. destruct C0 as [C0|[C0|C0]], C1 as [C1|[C1|C1]], C2 as [C2|C2]; lra. }
    assert (inject_Z h2 <= 2 * T)%Q as M2.
    { destruct T4 as (c0 & c1 & c2 & (C0 & C1 & C2) & C). cbn [nth] in C. destruct C0 as [C0|[C0|C0]], C1 as [C1|[C1|C1]], C2 as [C2|C2]; lra. }
    assert (inject_Z h3 <= 2 * T)%Q as M3.
    { destruct T6 as (c0 & c1 & c2 & (C0 & C1 & C2) & C). cbn [nth] in C. destruct C0 as [C0|[C0|C0]], C1 as [C1|[C1|C1]], C2 as [C2|C2]; lra. }
    clear T1 T2 T3 T4 T5 T6. change (inject_Z (2 ^ 60)) with 1152921504606846976%Q in Hbig'.
    assert (forall m z, (inject_Z m - 1 < inject_Z z + 1)%Q -> (m - 1 <= z)%Z) as Hlast.
    { intros m z H. apply below_next. unfold Z.sub. rewrite inject_Z_plus. change (inject_Z (- (1))) with (- (1))%Q. lra. }
    assert (forall m z t, (inject_Z m - inject_Z z < inject_Z t + 2)%Q -> (m - z <= t + 1)%Z) as Hgap.
    { intros m z t H. apply below_next. unfold Z.sub. rewrite !inject_Z_plus, inject_Z_opp. change (inject_Z 1) with 1%Q. lra. }
    assert (forall m z, (inject_Z m - inject_Z z < 127 + 1)%Q -> (m - z <= 127)%Z) as Hgap'.
    { intros m z H. apply below_next. unfold Z.sub. rewrite !inject_Z_plus, inject_Z_opp. change (inject_Z 127) with 127%Q. lra. }
    assert (forall z, (inject_Z z <= 0)%Q -> (z <= 0)%Z) as Hneg by (intros z H; rewrite Zle_Qle; exact H).
    apply Hc. clear Hc. intros [|[|[|i]]] Hi; [| | |lia].
    - change (nth 0 [N1; N2; N3] 0%Z) with N1. change (nth 0 lo 0%Z) with l1. change (nth 0 hi 0%Z) with h1. split.
      { split; [lia|]. split; [apply Hneg; lra|]. split; [apply Hlast; lra|]. split; apply small_abs; lra. }
      destruct (Qlt_le_dec (s1 + s2 + s3) 20) as [D|D]; [left; apply Hgap'; lra|right; exists 0; split; [lia|]; apply (Hgap N1 l1 h1); lra].
    - change (nth 1 [N1; N2; N3] 0%Z) with N2. change (nth 1 lo 0%Z) with l2. change (nth 1 hi 0%Z) with h2. split.
      { split; [lia|]. split; [apply Hneg; lra|]. split; [apply Hlast; lra|]. split; apply small_abs; lra. }
      destruct HPW as [[W1 W2]|[W1 W2]]; [right; exists 0; split; [lia|]; apply (Hgap N2 l2 h1); lra|left; apply Hgap'; lra].
    - change (nth 2 [N1; N2; N3] 0%Z) with N3. change (nth 2 lo 0%Z) with l3. change (nth 2 hi 0%Z) with h3. split.
      { split; [lia|]. split; [apply Hneg; lra|]. split; [apply Hlast; lra|]. split; apply small_abs; lra. }
      destruct HPW as [[W1 W2]|[W1 W2]]; [right; exists 0; split; [lia|]; apply (Hgap N3 l3 h1); lra|left; apply Hgap'; lra].
  Qed.
End BCC.

(** ** The theorems *)

(** The hypotheses on a request shared by both lattices: norms up to [a], sizes within a cell of [N1], [N2], [N3]. *)
Definition block_request (a u v w s1 s2 s3 : Q) (N1 N2 N3 : Z) : Prop :=
  ((0 <= u <= a)%Q /\ (0 <= v <= a)%Q /\ (0 <= w <= a)%Q) /\ ((1#5 <= s1)%Q /\ (1#5 <= s2)%Q /\ (1#5 <= s3)%Q) /\ (a * (s1 + s2 + s3) < inject_Z (2 ^ 60))%Q /\
  ((1 <= N1)%Z /\ (1 <= N2)%Z /\ (1 <= N3)%Z) /\
  (inject_Z N1 - 1 <= s1 + (1#1000) < inject_Z N1)%Q /\ (inject_Z N2 - 1 <= s2 + (1#1000) < inject_Z N2)%Q /\ (inject_Z N3 - 1 <= s3 + (1#1000) < inject_Z N3)%Q.

(** In the body-centred lattice the second and third size are bounded by the sum of the sizes; both hold for all sizes from [s1 >= 5/4] and [a >= 4] on. *)
Definition bcc_request (a s1 s2 s3 : Q) : Prop :=
  let T := ((1#4) * (a * (s1 + s2 + s3)))%Q in
  (s2 + (1#5) <= T)%Q /\ (s3 + (1#5) <= T)%Q /\
  (s2 + (1#2) * s3 + (5#4) <= T /\ s3 + (1#2) * s2 + (5#4) <= T \/ T + (1#2) * s2 <= 125 /\ T + (1#2) * s3 <= 125)%Q.

Lemma bcc_request_large a s1 s2 s3 : (4 <= a)%Q -> (5#4 <= s1)%Q -> (1#5 <= s2)%Q -> (1#5 <= s3)%Q -> bcc_request a s1 s2 s3.
Proof.
  intros Ha S1 S2 S3. unfold bcc_request. cbv zeta. assert (4 * (s1 + s2 + s3) <= a * (s1 + s2 + s3))%Q as H by nra.
  split; [lra|]. split; [lra|]. left. split; lra.
Qed.

Lemma block_one b norms s1 s2 s3 N1 N2 N3 cells : valid_basis b -> b_dim b = 3 -> length norms = 3 ->
  (1 <= N1)%Z -> (1 <= N2)%Z -> (1 <= N3)%Z ->
  (inject_Z N1 - 1 <= s1 + (1#1000) < inject_Z N1)%Q -> (inject_Z N2 - 1 <= s2 + (1#1000) < inject_Z N2)%Q -> (inject_Z N3 - 1 <= s3 + (1#1000) < inject_Z N3)%Q ->
  build_translation_vectors b norms (AShape (SBoxBasis [s1; s2; s3] (vzero 3) (b_mat b) (b_inv b))) true None false 0 = Ok cells ->
  (forall n, length n = 3 -> box 3 [0; 0; 0]%Z [N1; N2; N3] n -> In n cells) ->
  exists I P, build_indices b norms [repeat 0%Q 3] (AShape (SBoxBasis [s1; s2; s3] (vzero 3) (b_mat b) (b_inv b))) true None true None = Ok (I, P) /\
    NoDup I /\ Z.of_nat (length I) = (N1 * N2 * N3)%Z /\ (forall t, In t I <-> exists n, t = n ++ [0%Z] /\ length n = 3 /\ box 3 [0; 0; 0]%Z [N1; N2; N3] n).
Proof.
  intros Hb Hd Hno P1 P2 P3 B1 B2 B3 Ec Hcells.
  pose proof (block_members b norms [s1; s2; s3] [N1; N2; N3] [repeat 0%Q 3] cells Hb) as H. cbv zeta in H. rewrite Hd in H.
  destruct H as (I & P & EI & HN & Hmem); auto.
  - discriminate.
  - intros r [<-|[]]. reflexivity.
  - intros r i [<-|[]] Hi. assert (coord b (repeat 0%Q 3) i == 0)%Q as ->.
    { unfold coord, coordinate. rewrite Hd. cbn [sum_upto repeat nth]. ring. }
    split; [lra|]. destruct i as [|[|[|i]]]; [| | |lia]; cbn [nth]; lra.
  - exists I, P. split; [exact EI|]. split; [exact HN|]. split.
    + rewrite (block_count N1 N2 N3 1 I); [change (Z.of_nat 1) with 1%Z; ring|lia|lia|lia|exact HN|exact Hmem].
    + intro t. rewrite Hmem. split.
      * intros (n & x & -> & Hn & Hbox & Hx). cbn in Hx. assert (x = 0) as -> by lia. exists n. auto.
      * intros (n & -> & Hn & Hbox). exists n, 0. cbn. auto.
Qed.

(** A primitive box selects the block of the cells. *)
Theorem C114_block :
  forall inv a u v w s1 s2 s3 N1 N2 N3,
    inverts inv 3 -> (5#2 <= a)%Q -> block_request a u v w s1 s2 s3 N1 N2 N3 ->
    forall b, b = fcc inv a \/ b = bcc inv a /\ bcc_request a s1 s2 s3 ->
    exists I P, build_indices b [u; v; w] [repeat 0%Q 3] (AShape (build_shape b (ASize [s1; s2; s3]) true None)) true None true None = Ok (I, P) /\
      NoDup I /\ Z.of_nat (length I) = (N1 * N2 * N3)%Z /\ (forall t, In t I <-> exists n, t = n ++ [0%Z] /\ length n = 3 /\ box 3 [0; 0; 0]%Z [N1; N2; N3] n).
Proof.
  intros inv a u v w s1 s2 s3 N1 N2 N3 I3 Ha ((Hu & Hv & Hw) & (S1 & S2 & S3) & Hbig & (P1 & P2 & P3) & B1 & B2 & B3) b [->|[-> (R1 & R2 & R3)]].
  - destruct (fb_cells inv a I3 Ha u v w s1 s2 s3 N1 N2 N3) as (cells & Ec & Hcells); auto; try (apply B1); try (apply B2); try (apply B3).
    apply (block_one (fcc inv a) [u; v; w] s1 s2 s3 N1 N2 N3 cells); auto. apply fb_valid; auto.
  - destruct (bb_cells inv a I3 Ha u v w s1 s2 s3 N1 N2 N3) as (cells & Ec & Hcells); auto; try (apply B1); try (apply B2); try (apply B3).
    apply (block_one (bcc inv a) [u; v; w] s1 s2 s3 N1 N2 N3 cells); auto. apply bb_valid; auto.
Qed.

(** Face-centred and body-centred cubic films from the preset to the neighbours. *)
Theorem C114_fcc :
  forall query argsort inv a at1 k u v w s1 s2 s3 N1 N2 N3 axes,
    correct_tree query -> is_argsort dleb argsort -> inverts inv 3 -> (5#2 <= a)%Q -> rounds_to_micro (a * a / 2)%Q k ->
    block_request a u v w s1 s2 s3 N1 N2 N3 -> NoDup axes -> (forall c, In c axes -> c < 3) -> film axes [N1; N2; N3] ->
    exists s l' dt, preset query (fcc inv a) [(None, at1)] 1 = Ok s /\
      build query argsort [u; v; w] (new_lattice s) (ASize [s1; s2; s3]) true None true None (Some (AxList axes)) None = (l', Ok tt) /\
      lt_structure l' = s /\ lt_data l' = Some dt /\ wf dt /\ Z.of_nat (length (d_indices dt)) = (N1 * N2 * N3)%Z /\ NoDup (d_indices dt) /\
      (forall t, In t (d_indices dt) <-> exists n, t = n ++ [0%Z] /\ length n = 3 /\ box 3 [0; 0; 0]%Z [N1; N2; N3] n) /\
      forall i N, nth_error (d_indices dt) i = Some (N ++ [0%Z]) ->
        NoDup (map s_nbr (slots dt i)) /\ (forall e, In e (slots dt i) -> s_dist e = Fin k) /\
        (forall j, In j (map s_nbr (slots dt i)) <->
           exists n, In n [[1; 0; 0]; [0; 1; 0]; [0; 0; 1]; [-1; 0; 0]; [0; -1; 0]; [0; 0; -1];
                           [1; -1; 0]; [1; 0; -1]; [0; 1; -1]; [-1; 1; 0]; [-1; 0; 1]; [0; -1; 1]]%Z /\
             nth_error (d_indices dt) j = Some (wrapped_cell 3 axes [0; 0; 0]%Z [N1; N2; N3] (map2 Z.add n N) ++ [0%Z])).
Proof.
  intros query argsort inv a at1 k u v w s1 s2 s3 N1 N2 N3 axes Hq Harg I3 Ha Hk Hreq HN Hax Hf.
  destruct (C114_block inv a u v w s1 s2 s3 N1 N2 N3 I3 Ha Hreq (fcc inv a) (or_introl eq_refl)) as (I & P & EI & HNI & Hcount & Hmem).
  destruct (C112_fcc query argsort inv a at1 k Hq Harg I3 ltac:(nra) Hk) as (s & Es & _ & Hper).
  destruct Hreq as (_ & _ & _ & (P1 & P2 & P3) & _).
  destruct (Hper [u; v; w] (new_lattice s) (ASize [s1; s2; s3]) None true None I P [0; 0; 0]%Z [N1; N2; N3] axes) as (l' & dt & T1 & T2 & T3 & T4 & T5 & T6 & T7); auto.
  - split; [discriminate|reflexivity].
  - intros [|[|[|c]]] Hc; cbn in *; lia.
  - exists s, l', dt. rewrite T5. do 8 (split; [assumption|]). intros i N Hi. destruct (T7 i N Hi) as (U1 & U2 & U3 & _). split; [exact U1|]. split; [exact U2|]. exact U3.
Qed.

Theorem C114_bcc :
  forall query argsort inv a at1 k u v w s1 s2 s3 N1 N2 N3 axes,
    correct_tree query -> is_argsort dleb argsort -> inverts inv 3 -> (5#2 <= a)%Q -> rounds_to_micro (a * a * (3#4))%Q k ->
    block_request a u v w s1 s2 s3 N1 N2 N3 -> bcc_request a s1 s2 s3 -> NoDup axes -> (forall c, In c axes -> c < 3) -> film axes [N1; N2; N3] ->
    exists s l' dt, preset query (bcc inv a) [(None, at1)] 1 = Ok s /\
      build query argsort [u; v; w] (new_lattice s) (ASize [s1; s2; s3]) true None true None (Some (AxList axes)) None = (l', Ok tt) /\
      lt_structure l' = s /\ lt_data l' = Some dt /\ wf dt /\ Z.of_nat (length (d_indices dt)) = (N1 * N2 * N3)%Z /\ NoDup (d_indices dt) /\
      (forall t, In t (d_indices dt) <-> exists n, t = n ++ [0%Z] /\ length n = 3 /\ box 3 [0; 0; 0]%Z [N1; N2; N3] n) /\
      forall i N, nth_error (d_indices dt) i = Some (N ++ [0%Z]) ->
        NoDup (map s_nbr (slots dt i)) /\ (forall e, In e (slots dt i) -> s_dist e = Fin k) /\
        (forall j, In j (map s_nbr (slots dt i)) <->
           exists n, In n [[1; 0; 0]; [0; 1; 0]; [0; 0; 1]; [-1; 0; 0]; [0; -1; 0]; [0; 0; -1]; [1; -1; -1]; [-1; 1; 1]]%Z /\
             nth_error (d_indices dt) j = Some (wrapped_cell 3 axes [0; 0; 0]%Z [N1; N2; N3] (map2 Z.add n N) ++ [0%Z])).
Proof.
  intros query argsort inv a at1 k u v w s1 s2 s3 N1 N2 N3 axes Hq Harg I3 Ha Hk Hreq Hreq' HN Hax Hf.
  destruct (C114_block inv a u v w s1 s2 s3 N1 N2 N3 I3 Ha Hreq (bcc inv a) (or_intror (conj eq_refl Hreq'))) as (I & P & EI & HNI & Hcount & Hmem).
  destruct (C112_bcc query argsort inv a at1 k Hq Harg I3 ltac:(nra) Hk) as (s & Es & _ & Hper).
  destruct Hreq as (_ & _ & _ & (P1 & P2 & P3) & _).
  destruct (Hper [u; v; w] (new_lattice s) (ASize [s1; s2; s3]) None true None I P [0; 0; 0]%Z [N1; N2; N3] axes) as (l' & dt & T1 & T2 & T3 & T4 & T5 & T6 & T7); auto.
  - split; [discriminate|reflexivity].
  - intros [|[|[|c]]] Hc; cbn in *; lia.
  - exists s, l', dt. rewrite T5. do 8 (split; [assumption|]). intros i N Hi. destruct (T7 i N Hi) as (U1 & U2 & U3 & _). split; [exact U1|]. split; [exact U2|]. exact U3.
Qed.

(** The bounds are needed: aluminium and iron in nanometres, and a rod of five cells at the smallest lattice constant. *)
Theorem C114_small_constant_refuted :
  let sites b u s := build_indices b [u; u; u] [repeat 0%Q 3] (AShape (build_shape b (ASize s) true None)) true None true None in
  (exists P, sites (fcc inverse_small (405#1000)) (286#1000)%Q [5#2; 5#2; 5#2]%Q = Ok ([[0; 0; 0; 0]]%Z, P)) /\
  (exists Is P, sites (bcc inverse_small (287#1000)) (249#1000)%Q [5#2; 5#2; 5#2]%Q = Ok (Is, P) /\ length Is = 4) /\
  (exists Is P, sites (bcc inverse_small (5#2)) (217#100)%Q [1#5; 9#2; 1#5]%Q = Ok (Is, P) /\ length Is = 3 /\ ~ In [0; 3; 0; 0]%Z Is).
Proof.
  cbv zeta. split; [eexists; vm_compute; reflexivity|]. split.
  - do 2 eexists. split; [vm_compute; reflexivity|reflexivity].
  - do 2 eexists. split; [vm_compute; reflexivity|]. split; [reflexivity|]. cbn. intuition discriminate.
Qed.

(** ** Examples *)

Ltac leq := apply Qle_bool_imp_le; vm_compute; reflexivity.

(** At the bounds: the smallest lattice constant and sizes, the largest norms; the other sizes are short of a cell by the tolerance. *)
Example C114_block_example :
  block_request (5#2) (5#2) (5#2) (5#2) (999#1000) (1#5) (1#5) 2 1 1 /\ bcc_request (5#2) (999#1000) (1#5) (1#5) /\ block_request (5#2) (5#2) (5#2) (5#2) (1#5) (999#1000) (999#1000) 1 2 2 /\ bcc_request (5#2) (1#5) (999#1000) (999#1000) /\
  (forall b, b = fcc inverse_small (5#2) \/ b = bcc inverse_small (5#2) ->
   (exists P, build_indices b [5#2; 5#2; 5#2]%Q [repeat 0%Q 3] (AShape (build_shape b (ASize [999#1000; 1#5; 1#5]%Q) true None)) true None true None = Ok ([[0; 0; 0; 0]; [1; 0; 0; 0]]%Z, P)) /\
   (exists P, build_indices b [5#2; 5#2; 5#2]%Q [repeat 0%Q 3] (AShape (build_shape b (ASize [1#5; 999#1000; 999#1000]%Q) true None)) true None true None
      = Ok ([[0; 0; 0; 0]; [0; 0; 1; 0]; [0; 1; 0; 0]; [0; 1; 1; 0]]%Z, P))).
Proof.
  split; [unfold block_request; repeat split; try leq; try lia; reflexivity|].
  split; [unfold bcc_request; cbv zeta; split; [leq|]; split; [leq|]; right; split; leq|].
  split; [unfold block_request; repeat split; try leq; try lia; reflexivity|].
  split; [unfold bcc_request; cbv zeta; split; [leq|]; split; [leq|]; right; split; leq|].
  intros b [->| ->]; split; eexists; vm_compute; reflexivity.
Qed.

(** A ring of aluminium, 3 by 1 by 2 cells. *)
Example C114_fcc_example :
  correct_tree brute /\ is_argsort dleb dist_argsort /\ inverts inverse_small 3 /\ (5#2 <= 405#100)%Q /\ rounds_to_micro ((405#100) * (405#100) / 2)%Q 2863782 /\
  block_request (405#100) (286#100) (286#100) (286#100) (5#2) (1#4) (3#2) 3 1 2 /\ film [0] [3; 1; 2]%Z /\
  exists s l' dt, preset brute (fcc inverse_small (405#100)) [(None, ex_atom "Al")] 1 = Ok s /\
    build brute dist_argsort [286#100; 286#100; 286#100]%Q (new_lattice s) (ASize [5#2; 1#4; 3#2]%Q) true None true None (Some (AxList [0])) None = (l', Ok tt) /\ lt_data l' = Some dt /\
    length (d_indices dt) = 6 /\ exists i, nth_error (d_indices dt) i = Some [2; 0; 1; 0]%Z.
Proof.
  split; [exact brute_nearest|]. split; [exact dist_argsort_ok|]. split; [exact inverse_small_3|]. split; [leq|].
  split; [replace 2863782%Z with (sqrt_micro ((405#100) * (405#100) / 2)) by (vm_compute; reflexivity); apply sqrt_micro_rounds; vm_compute; discriminate|].
  split; [unfold block_request; repeat split; try leq; try lia; reflexivity|].
  split; [split; [intros c [<-|[]]; cbn; lia|intros [[H|[]] _]; discriminate H]|].
  destruct (C114_fcc brute dist_argsort inverse_small (405#100) (ex_atom "Al") 2863782 (286#100) (286#100) (286#100) (5#2) (1#4) (3#2) 3 1 2 [0] brute_nearest dist_argsort_ok inverse_small_3) as (s & l' & dt & E1 & E2 & _ & E3 & _ & E4 & _ & E5 & _).
  { leq. }
  { replace 2863782%Z with (sqrt_micro ((405#100) * (405#100) / 2)) by (vm_compute; reflexivity); apply sqrt_micro_rounds; vm_compute; discriminate. }
  { unfold block_request; repeat split; try leq; try lia; reflexivity. }
  { repeat constructor; cbn; tauto. }
  { intros c [<-|[]]; lia. }
  { split; [intros c [<-|[]]; cbn; lia|intros [[H|[]] _]; discriminate H]. }
  exists s, l', dt. split; [exact E1|]. split; [exact E2|]. split; [exact E3|]. split; [lia|]. apply In_nth_error, E5. exists [2; 0; 1]%Z. split; [reflexivity|]. split; [reflexivity|].
  intros [|[|[|c]]] Hc; cbn; lia.
Qed.

(** A ring of iron, 3 by 1 by 2 cells. *)
Example C114_bcc_example :
  (5#2 <= 287#100)%Q /\ rounds_to_micro ((287#100) * (287#100) * (3#4))%Q 2485493 /\
  block_request (287#100) (249#100) (249#100) (249#100) (5#2) (1#2) (3#2) 3 1 2 /\ bcc_request (287#100) (5#2) (1#2) (3#2) /\ film [0] [3; 1; 2]%Z /\
  exists s l' dt, preset brute (bcc inverse_small (287#100)) [(None, ex_atom "Fe")] 1 = Ok s /\
    build brute dist_argsort [249#100; 249#100; 249#100]%Q (new_lattice s) (ASize [5#2; 1#2; 3#2]%Q) true None true None (Some (AxList [0])) None = (l', Ok tt) /\ lt_data l' = Some dt /\
    length (d_indices dt) = 6 /\ exists i, nth_error (d_indices dt) i = Some [2; 0; 1; 0]%Z.
Proof.
  split; [leq|].
  split; [replace 2485493%Z with (sqrt_micro ((287#100) * (287#100) * (3#4))) by (vm_compute; reflexivity); apply sqrt_micro_rounds; vm_compute; discriminate|].
  split; [unfold block_request; repeat split; try leq; try lia; reflexivity|].
  split; [unfold bcc_request; cbv zeta; split; [leq|]; split; [leq|]; right; split; leq|].
  split; [split; [intros c [<-|[]]; cbn; lia|intros [[H|[]] _]; discriminate H]|].
  destruct (C114_bcc brute dist_argsort inverse_small (287#100) (ex_atom "Fe") 2485493 (249#100) (249#100) (249#100) (5#2) (1#2) (3#2) 3 1 2 [0] brute_nearest dist_argsort_ok inverse_small_3) as (s & l' & dt & E1 & E2 & _ & E3 & _ & E4 & _ & E5 & _).
  { leq. }
  { replace 2485493%Z with (sqrt_micro ((287#100) * (287#100) * (3#4))) by (vm_compute; reflexivity); apply sqrt_micro_rounds; vm_compute; discriminate. }
  { unfold block_request; repeat split; try leq; try lia; reflexivity. }
  { unfold bcc_request; cbv zeta; split; [leq|]; split; [leq|]; right; split; leq. }
  { repeat constructor; cbn; tauto. }
  { intros c [<-|[]]; lia. }
  { split; [intros c [<-|[]]; cbn; lia|intros [[H|[]] _]; discriminate H]. }
  exists s, l', dt. split; [exact E1|]. split; [exact E2|]. split; [exact E3|]. split; [lia|]. apply In_nth_error, E5. exists [2; 0; 1]%Z. split; [reflexivity|]. split; [reflexivity|].
  intros [|[|[|c]]] Hc; cbn; lia.
Qed.

Print Assumptions C114_block.
Print Assumptions C114_fcc.
Print Assumptions C114_bcc.
Print Assumptions C114_small_constant_refuted.
