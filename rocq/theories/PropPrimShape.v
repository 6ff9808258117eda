(** * Property C62 for shape objects (lattpy/structure.py:1035-1078: primitive builds) *)
From Coq Require Import String List ZArith QArith Qround Qabs Qminmax Bool Arith Lia Lqa.
From Verif Require Import Np NpFacts LinAlg LinFacts AtomModel SpecUtils SpecBasis SpecSpatial BasisModel BasisProofs PropBasis
  SpatialModel SpatialProofs PropSpatial ShapeModel ShapeProofs PropShape SpecStructure SpecBuild StructureModel StructureFacts
  StructureProofs AnalyzeProofs BuildProofs PropBuild KDBrute LatticeModel PropData PropStructure LatticeExamples PresetModel PropOrder PropPrimitive.
Import ListNotations.
Open Scope nat_scope.
Open Scope list_scope.

(** The first and the last cell searched along an axis with the lattice constant [c], for a shape reaching from [lo] to
    [hi]; in more than one dimension the cell at the origin is always included. *)
Definition first_cell (d : nat) (c lo : Q) : Z :=
  let f := Qfloor (lo / c)%Q in ((if (d =? 1)%nat then f else Z.min f 0) - 1)%Z.
Definition last_cell (d : nat) (c lo hi : Q) : Z :=
  let f := Qfloor (lo / c + (hi - lo) - (1#10))%Q in if (d =? 1)%nat then f else Z.max f 0.

(** The limits of a shape along an axis. *)
Definition lower_end (s : shape) (i : nat) : Q := nth i (map fst (shape_limits s)) 0%Q.
Definition upper_end (s : shape) (i : nat) : Q := nth i (map snd (shape_limits s)) 0%Q.

Lemma probe_zero d e i : 2 <= d -> length e = d -> i < d -> exists p, In p (probes d e) /\ nth i p 0%Q = 0%Q.
Proof.
  intros Hd He Hi. exists (zero_at [i] e). split.
  - unfold probes. apply in_flat_map. exists 1. split; [apply in_seq; lia|]. apply (in_map (fun idx => zero_at idx e)).
    assert (forall l : list nat, In i l -> In [i] (combinations l 1)) as H.
    { induction l as [|x l IH]; [intros []|]. cbn [combinations]. intro Hin. apply in_or_app. destruct Hin as [->|Hin]; [left|right; auto].
      apply (in_map (cons i)). destruct l; left; reflexivity. }
    apply H, in_seq. lia.
  - unfold vec in *. rewrite nth_zero_at by lia. cbn [existsb]. rewrite Nat.eqb_refl. reflexivity.
Qed.

(** The searched range of cells for axis-parallel bases. *)
Lemma axis_range b cs lower size i :
  axis_lattice b cs -> length lower = b_dim b -> length size = b_dim b -> (forall i, i < b_dim b -> (0 <= nth i size 0)%Q) -> i < b_dim b ->
  let f := Qfloor (nth i lower 0 / nth i cs 0)%Q in let e := Qfloor ((nth i lower 0 + nth i size 0) / nth i cs 0)%Q in
  nth i (nvec_limits b lower size 0) (0, 0)%Z =
    ((if (b_dim b =? 1)%nat then f else Z.min f 0) - 1, (if (b_dim b =? 1)%nat then e else Z.max e 0) + 1)%Z.
Proof.
  intros Hax Hl Hs H0 Hi f e. pose proof Hax as [Hb _]. destruct (nvec_range b lower (vadd lower size)) as [lo hi] eqn:E.
  rewrite (nth_nvec_limits b lower size i lo hi) by auto.
  assert (length (vadd lower size) = b_dim b) as He by (rewrite vadd_length; lia).
  pose proof (axis_pos b cs Hax i Hi) as Hc.
  assert (forall p, (nth i p 0 == nth i lower 0)%Q -> Qfloor (coord b p i) = f) as Hf.
  { intros p Ep. unfold f. apply Qfloor_comp. rewrite (axis_coord b cs Hax p i Hi), Ep. reflexivity. }
  assert (forall p, (nth i p 0 == nth i lower 0 + nth i size 0)%Q -> Qfloor (coord b p i) = e) as Hee.
  { intros p Ep. unfold e. apply Qfloor_comp. rewrite (axis_coord b cs Hax p i Hi), Ep. reflexivity. }
  assert (forall p, (nth i p 0 == 0)%Q -> Qfloor (coord b p i) = 0%Z) as Hz.
  { intros p Ep. apply (Qfloor_comp _ 0). rewrite (axis_coord b cs Hax p i Hi), Ep. field. lra. }
  assert (f <= e)%Z as Hfe.
  { unfold f, e. apply Qfloor_resp_le. specialize (H0 i Hi). apply Qmult_le_compat_r; [lra|]. apply Qlt_le_weak, Qinv_lt_0_compat. exact Hc. }
  pose proof (range_spec b Hb lower (vadd lower size) Hl He) as Hr. rewrite E in Hr. destruct Hr as [_ [_ Hr]]. destruct (Hr i Hi) as [Hlo [Hhi Hp]].
  rewrite (Hf lower) in Hlo by reflexivity. rewrite Hee in Hhi by (apply nth_vadd; lia).
  destruct (b_dim b =? 1) eqn:E1.
  - apply Nat.eqb_eq in E1. unfold nvec_range, probes in E. rewrite E1 in E. cbn [Nat.sub seq flat_map fold_left] in E. apply pair_equal_spec in E. destruct E as [<- <-].
    rewrite !(nth_index b) by auto. rewrite (Hf lower) by reflexivity. rewrite Hee by (apply nth_vadd; lia). reflexivity.
  - apply Nat.eqb_neq in E1. destruct (probe_zero (b_dim b) (vadd lower size) i) as [p [Hin Ep]]; [lia|exact He|exact Hi|].
    specialize (Hp p Hin). rewrite Hz in Hp by (rewrite Ep; reflexivity).
    destruct (range_attained b lower size lo hi Hb Hl Hs E i Hi) as [[q [_ [Eq Hq]]] [q' [_ [Eq' Hq']]]].
    assert (nth i lo 0 = f \/ nth i lo 0 = e \/ nth i lo 0 = 0)%Z as C1.
    { rewrite Eq. destruct Hq as [Hq|Hq]; specialize (Hq i Hi); [left; auto|]. destruct Hq; [right; right; auto|right; left; auto]. }
    assert (nth i hi 0 = f \/ nth i hi 0 = e \/ nth i hi 0 = 0)%Z as C2.
    { rewrite Eq'. destruct Hq' as [Hq'|Hq']; specialize (Hq' i Hi); [left; auto|]. destruct Hq'; [right; right; auto|right; left; auto]. }
    f_equal; lia.
Qed.

(** ** C62 *)

(** A primitive build of a shape object on an axis-parallel lattice: the sites in the shape, cut off at its lower end
    plus its extent times the lattice constant (the extent is multiplied although it is a length), minus a tenth. *)
Theorem C62_primitive_shape :
  forall b cs R s pos,
    let d := b_dim b in
    axis_lattice b cs -> 1 <= d -> well_formed d s -> length (shape_limits s) = d -> R <> [] -> (forall r, In r R -> length r = d) ->
    (forall i, i < d -> (lower_end s i + (1#10) <= upper_end s i)%Q) ->
    let first i := first_cell d (nth i cs 0%Q) (lower_end s i) in
    let last i := last_cell d (nth i cs 0%Q) (lower_end s i) (upper_end s i) in
    no_wrap (map (fun i => (first i, last i + 1)%Z) (seq 0 d)) ->
    exists I P, build_indices b cs R (AShape s) true pos true None = Ok (I, P) /\ NoDup I /\
      forall n a r, nth_error R a = Some r ->
        (In (n ++ [Z.of_nat a]) I <->
         length n = d /\ (forall i, i < d -> (first i <= nth i n 0 <= last i)%Z) /\
         shape_contains s (lattice_point d (b_mat b) r n) (1#1000) = true).
Proof.
  intros b cs R s pos d Hax Hd Hw Hll Hne HR Hext first last Hwrap. pose proof Hax as [Hb [Hcs _]]. fold d in Hcs.
  set (lim := shape_limits s) in *.
  set (lower := map fst lim). set (size0 := vsub (map snd lim) (map fst lim)).
  set (size := vsub (map2 Qmult size0 (max_vectors b)) (vscale (1#10) cs)).
  assert (length lower = d) as Hl by (unfold lower; rewrite map_length; auto).
  assert (length size0 = d) as Hs0 by (unfold size0; rewrite vsub_length; rewrite !map_length; auto).
  assert (length (map2 Qmult size0 (max_vectors b)) = d) as Hm2 by (rewrite map2_length, max_vectors_length by auto; fold d; lia).
  assert (length size = d) as Hsz.
  { unfold size. rewrite vsub_length; auto. unfold vscale. rewrite map_length. lia. }
  assert (forall i, i < d -> (nth i size 0 == (upper_end s i - lower_end s i - (1#10)) * nth i cs 0)%Q) as Esize.
  { intros i Hi. unfold size. rewrite nth_vsub by (unfold vscale; rewrite map_length; lia).
    rewrite (nth_map2 _ _ _ _ 0%Q 0%Q) by (rewrite ?max_vectors_length by auto; fold d; lia).
    unfold vscale. rewrite (nth_map_in _ _ _ 0%Q) by lia. rewrite (axis_max_vectors b cs Hax i Hi).
    unfold size0. rewrite nth_vsub by (rewrite !map_length; auto). unfold upper_end, lower_end. fold lim. ring. }
  assert (forall i, i < d -> (0 <= nth i size 0)%Q) as H0.
  { intros i Hi. rewrite Esize by auto. pose proof (axis_pos b cs Hax i Hi). specialize (Hext i Hi). apply Qmult_le_0_compat; lra. }
  assert (forall i, i < d -> nth i (nvec_limits b lower size 0) (0, 0)%Z = (first i, last i + 1)%Z) as Hlim.
  { intros i Hi. rewrite (axis_range b cs) by auto. fold d. unfold first, last, first_cell, last_cell. cbv zeta.
    rewrite (Qfloor_comp ((nth i lower 0 + nth i size 0) / nth i cs 0)%Q (lower_end s i / nth i cs 0 + (upper_end s i - lower_end s i) - (1#10))%Q); [reflexivity|].
    rewrite Esize by auto. pose proof (axis_pos b cs Hax i Hi). unfold lower_end at 2. fold lim lower. field. lra. }
  assert (forall i, i < d -> (first i <= last i + 1)%Z) as Hle.
  { intros i Hi. unfold first, last, first_cell, last_cell. cbv zeta. specialize (Hext i Hi).
    assert (Qfloor (lower_end s i / nth i cs 0)%Q <= Qfloor (lower_end s i / nth i cs 0 + (upper_end s i - lower_end s i) - (1#10))%Q)%Z by (apply Qfloor_resp_le; lra).
    destruct (d =? 1); lia. }
  pose proof (nvec_limits_length b lower size 0 Hb Hl Hsz) as Hlen. fold d in Hlen.
  assert (nvec_limits b lower size 0 = map (fun i => (first i, last i + 1)%Z) (seq 0 d)) as Elim.
  { apply (list_eq_nth _ _ (0, 0)%Z); [rewrite map_length, seq_length; auto|]. rewrite Hlen. intros i Hi. rewrite Hlim by auto.
    rewrite (nth_map_in _ _ _ 0) by (rewrite seq_length; auto). rewrite seq_nth by auto. reflexivity. }
  assert (nvec_limits b lower size 0 <> []) as Hnl by (intro E; rewrite E in Hlen; cbn in Hlen; lia).
  destruct Hwrap as [w [Hw1 Hw2]]. rewrite <- Elim in Hw1, Hw2.
  destruct (C16_vindices_enumerates_the_grid (nvec_limits b lower size 0) (Some 0) w Hnl) as [cells [Ec [Hnd [Hcells _]]]]; auto.
  { intros l Hin. destruct (In_nth _ _ (0, 0)%Z Hin) as [i [Hi <-]]. rewrite Hlim by lia. cbn [fst snd]. apply Hle. lia. }
  { intros a Ea. injection Ea as <-. lia. }
  assert (build_translation_vectors b cs (AShape s) true pos false 0 = Ok cells) as Ebt.
  { rewrite build_cells_eq. unfold requested_box. fold lim. fold lower. change (vsub (map snd lim) lower) with size0. cbv beta iota zeta.
    fold d. rewrite (proj2 (Nat.eqb_eq _ _) Hl), (proj2 (Nat.eqb_eq _ _) Hs0). cbn [negb].
    change (vsub (map2 Qmult size0 (max_vectors b)) (vscale (1 # 10) cs)) with size. rewrite Ec. reflexivity. }
  destruct (checked_members b cs R (AShape s) true pos (fun p => shape_contains s p (1#1000) = true) cells Hb) as [I [P [EI HI]]]; auto.
  - intros p q Hp Hv. rewrite (contains_veq d s p q) by auto. reflexivity.
  - intros points _. cbn [check_points]. eexists. split; [reflexivity|]. rewrite map_length. split; auto. intros k p Hk.
    rewrite (nth_of_nth_error _ _ _ (shape_contains s p (1#1000))); [reflexivity|]. unfold vec. rewrite nth_error_map', Hk. reflexivity.
  - exists I, P. split; auto. split; [eapply C33_no_site_twice; [exact Hb| |exact HR|exact EI]; auto|].
    intros n a r Hr. rewrite (HI n a r Hr), Hcells, in_limits_nth, Hlen. fold d.
    split.
    + intros [[Hn Hc] Hp]. split; auto. split; auto. intros i Hi. specialize (Hc i Hi). rewrite Hlim in Hc by auto. cbn [fst snd] in Hc. lia.
    + intros [Hn [Hc Hp]]. split; auto. split; auto. intros i Hi. specialize (Hc i Hi). rewrite Hlim by auto. cbn [fst snd]. lia.
Qed.

(** No site in the shape is lost if the extents are long and the lattice constants sufficiently larger than 1. *)
Corollary C62_shape_complete :
  forall b cs s pos,
    let d := b_dim b in
    axis_lattice b cs -> 1 <= d -> well_formed d s -> length (shape_limits s) = d ->
    (forall i, i < d -> let e := (upper_end s i - lower_end s i)%Q in (1#10 <= e /\ nth i cs 0 * (1#10) <= e * (nth i cs 0 - 1))%Q) ->
    no_wrap (map (fun i => (first_cell d (nth i cs 0%Q) (lower_end s i), last_cell d (nth i cs 0%Q) (lower_end s i) (upper_end s i) + 1)%Z) (seq 0 d)) ->
    exists I P, build_indices b cs [repeat 0%Q d] (AShape s) true pos true None = Ok (I, P) /\ NoDup I /\
      forall n, length n = d -> shape_contains s (lattice_point d (b_mat b) (repeat 0%Q d) n) 0 = true -> In (n ++ [0%Z]) I.
Proof.
  intros b cs s pos d Hax Hd Hw Hll Hext Hwrap. cbv zeta in Hext.
  destruct (C62_primitive_shape b cs [repeat 0%Q d] s pos Hax Hd Hw Hll) as [I [P [E [Hnd HI]]]]; auto; [discriminate| | |].
  { intros r [<-|[]]. apply repeat_length. }
  { intros i Hi. destruct (Hext i Hi). lra. }
  exists I, P. split; auto. split; auto. intros n Hn Hc. apply (HI n 0 (repeat 0%Q d) eq_refl). split; auto. fold d.
  pose proof (lattice_point_length d (b_mat b) (repeat 0%Q d) n) as Hpl. split.
  - destruct (contains_limits d s _ Hw Hpl Hc) as [_ Hin]. intros i Hi. specialize (Hin i Hi). destruct (Hext i Hi) as [H1 H2].
    pose proof (axis_pos b cs Hax i Hi) as Hp.
    rewrite nth_vsub in Hin by (rewrite !map_length; auto). fold (lower_end s i) (upper_end s i) in Hin.
    assert (nth i (lattice_point d (b_mat b) (repeat 0 d) n) 0 == nth i cs 0 * inject_Z (nth i n 0%Z))%Q as Ei.
    { rewrite nth_lattice_point by auto. rewrite nth_repeat. rewrite (sum_ext d _ (fun k => nth i cs 0 * (delta i k * inject_Z (nth k n 0%Z)))%Q).
      - rewrite sum_scale, sum_delta by auto. ring.
      - intros k Hk. rewrite (axis_entry b cs Hax) by auto. ring. }
    rewrite Ei in Hin. set (c := nth i cs 0%Q) in *. set (lo := lower_end s i) in *. set (hi := upper_end s i) in *.
    set (z := nth i n 0%Z) in *.
    assert (lo / c <= inject_Z z)%Q as K1 by (apply Qle_shift_div_r; [exact Hp|lra]).
    assert (inject_Z z <= lo / c + (hi - lo) - (1#10))%Q as K2.
    { apply (Qle_trans _ (hi / c)); [apply Qle_shift_div_l; [exact Hp|lra]|].
      assert ((hi - lo) / c <= (hi - lo) - (1#10))%Q as K by (apply Qle_shift_div_r; [exact Hp|lra]).
      assert (hi / c == lo / c + (hi - lo) / c)%Q as -> by (field; lra). lra. }
    apply floor_ge in K2. assert (Qfloor (lo / c)%Q <= z)%Z as K3 by (rewrite <- (Qfloor_Z z); apply Qfloor_resp_le; exact K1).
    unfold first_cell, last_cell. cbv zeta. destruct (d =? 1); lia.
  - apply (contains_more d); auto.
Qed.

(** Discs on square lattices: for the constant 2 all 9 sites with the radius 3 are built, for the constant 1/2 the cells
    from -5 to 0 of the disc with the radius 2 are searched. *)
Example C62_primitive_shape_example :
  let limits c r := map (fun i => (first_cell 2 c (lower_end (SCircle [0; 0]%Q r) i),
                                   last_cell 2 c (lower_end (SCircle [0; 0]%Q r) i) (upper_end (SCircle [0; 0]%Q r) i) + 1)%Z) (seq 0 2) in
  let b a := hypercubic diagonal_inverse 2 a in
  axis_lattice (b 2%Q) [2; 2]%Q /\ axis_lattice (b (1#2)%Q) [1#2; 1#2]%Q /\
  (forall r, well_formed 2 (SCircle [0; 0]%Q r) /\ length (shape_limits (SCircle [0; 0]%Q r)) = 2) /\
  (forall i, i < 2 -> let e := (upper_end (SCircle [0; 0] 3) i - lower_end (SCircle [0; 0] 3) i)%Q in (1#10 <= e /\ 2 * (1#10) <= e * (2 - 1))%Q) /\
  (forall i, i < 2 -> (lower_end (SCircle [0; 0] 2) i + (1#10) <= upper_end (SCircle [0; 0] 2) i)%Q) /\
  limits 2%Q 3%Q = [(-3, 5); (-3, 5)]%Z /\ limits (1#2)%Q 2%Q = [(-5, 1); (-5, 1)]%Z /\ no_wrap (limits 2%Q 3%Q) /\ no_wrap (limits (1#2)%Q 2%Q) /\
  (exists I P, build_indices (b 2%Q) [2; 2]%Q [[0; 0]]%Q (AShape (SCircle [0; 0]%Q 3)) true None true None = Ok (I, P) /\ length I = 9) /\
  (exists I P, build_indices (b (1#2)%Q) [1#2; 1#2]%Q [[0; 0]]%Q (AShape (SCircle [0; 0]%Q 2)) true None true None = Ok (I, P) /\ length I = 17).
Proof.
  cbv zeta.
  assert (forall a, a = 2%Q \/ a = (1#2)%Q -> axis_lattice (hypercubic diagonal_inverse 2 a) [a; a]) as Hax.
  { intros a Ha. split; [|split; [reflexivity|]].
    - destruct Ha as [->| ->]; apply inverse2_check; reflexivity.
    - destruct Ha as [->| ->]; intros [|[|i]] [|[|j]] Hi Hj; cbn in Hi, Hj; try lia; split; vm_compute; reflexivity. }
  split; [apply Hax; auto|]. split; [apply Hax; auto|]. split; [|split; [|split]].
  - intro r. split; [|reflexivity]. right. left. exists [0; 0]%Q. split; [reflexivity|]. left. eexists. reflexivity.
  - intros [|[|i]] Hi; try lia; vm_compute; split; discriminate.
  - intros [|[|i]] Hi; try lia; vm_compute; discriminate.
  - split; [vm_compute; reflexivity|]. split; [vm_compute; reflexivity|]. split; [apply small_ranges; vm_compute; reflexivity|].
    split; [apply small_ranges; vm_compute; reflexivity|].
    split; eexists; eexists; (split; [vm_compute; reflexivity|reflexivity]).
Qed.

(** The expected claim, that the sites in the shape are built, is false: [finite_hypercubic] is primitive by default. The
    interval from -1 to 1 lacks its last site; a disc with the radius 2 has 49 sites for the constant 1/2, of which 17
    are built. *)
Theorem C62_shape_refuted :
  let built s a primitive := sites_of (finite_hypercubic brute dist_argsort diagonal_inverse (AShape s) a (ex_atom "A") 1 primitive None) in
  let interval := SCircle [0]%Q 1 in let disc := SCircle [0; 0]%Q 2 in
  built interval 1%Q false = [[-1; 0]; [0; 0]; [1; 0]]%Z /\ built interval 1%Q true = [[-1; 0]; [0; 0]]%Z /\
  length (built disc (1#2)%Q false) = 49 /\ length (built disc (1#2)%Q true) = 17.
Proof. vm_compute. auto. Qed.

Print Assumptions C62_primitive_shape.
Print Assumptions C62_shape_complete.
Print Assumptions C62_shape_refuted.
