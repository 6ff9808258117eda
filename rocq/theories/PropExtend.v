(** * Property C79 (lattpy/lattice.py: extend) *)
From Coq Require Import String List ZArith QArith Qabs Qround Bool Arith Lia Lqa Permutation Sorting.Sorted.
From Verif Require Import Np NpFacts LinAlg LinFacts SpecUtils UtilsModel SpecBasis AtomModel BasisModel BasisProofs PropBasis SpatialModel SpecSpatial SpatialProofs SpecStructure ShapeModel StructureModel KDBrute RoundFacts StructureFacts
  AnalyzeProofs PropAnalyze SpecNeighbors SpecLattice DataModel SpecData DataFacts DataProofs DataAppend LatticeModel LatticeExamples SpecGrid GridProofs PropMinDist RepeatProofs PropRepeat SpecSeam PropSeam SpecJoin JoinProofs BoxProofs
  StructureProofs PropStructure PropData SpecBuild ShapeProofs BuildProofs PropBuild NeighborProofs RangeProofs PropFailed PropBuilt PresetModel PropPrimitive PropGrid PropCells PropJoin PropNeighbors.
Import ListNotations.
Open Scope nat_scope.
Open Scope list_scope.

Lemma stored_section dim T dt : stored dim T dt -> data_section dt = mkSection (d_indices dt) (d_positions dt) (map (map fst) T) (map (map snd) T).
Proof. intro St. unfold data_section. rewrite (st_neighbors _ _ _ St), (st_distances _ _ _ St). reflexivity. Qed.

(** ** C79: extending is appending *)

(** The new section consists of the sites that [build_indices] selects for the extents of the lattice with [size] along
    the axis [ax] (from the origin); it is appended like a lattice with these sites. *)
Theorem C79_extend_appends :
  forall query ball argsort norms w l s conns an shape size ax I P r,
    correct_tree query -> is_argsort dleb argsort ->
    valid_basis (st_basis s) -> 1 <= b_dim (st_basis s) -> in_step s ->
    st_connections s = Some conns -> analyze query s = (lt_structure l, Ok tt) -> st_analysis (lt_structure l) = Some an ->
    let d := b_dim (st_basis s) in
    let V := b_mat (st_basis s) in
    let R := st_positions s in
    lt_shape l = Some shape ->
    (* the sites *)
    (is_primitive l = true -> length norms = d) -> incongruent d V R ->
    build_indices (st_basis s) norms R (ASize (set_nth ax size shape)) (is_primitive l) None true None = Ok (I, P) ->
    I <> [] ->
    (* not more sites in range than asked for *)
    query_radius an = Some r -> (forall p, In p P -> at_most (query_count an) (within P p (r * r)%Q)) ->
    exists m cells,
      (forall a c, nth c (nth a conns []) 0 <= m) /\ (exists a c, nth c (nth a conns []) 0 = m) /\
      get_neighbor_cells (st_basis s) (2 * m) true Qle_bool = Some cells /\
      let allowed a c := among_first (nth c (nth a conns []) 0) (occurs d V R cells a c) in
      let connected := connected_sites allowed I P in
      (* sites are not nearer than 6e-6 *)
      (forall a c x, a < length R -> c < length R -> occurs d V R cells a c x -> dleb (Fin 6) x = true) ->
      (* few distances *)
      (exists values, length values <= 255 /\ forall a c x, a < length R -> c < length R -> allowed a c x -> In x values) ->
      (* two sites have different numbers of neighbours, or all sites in range are connected *)
      ((exists i i', i < length P /\ i' < length P /\ fewer connected i i') \/
       (forall i j p, i <> j -> nth_error P i = Some p -> within P p (r * r)%Q j -> exists x, connected i j x)) ->
      exists dt, wf dt /\ d_indices dt = I /\ d_positions dt = P /\
        (forall i, i < length P -> NoDup (map fst (links dt i)) /\ forall j x, In (j, x) (links dt i) <-> connected i j x) /\
        forall other side sort_axis rv, lt_data other = Some dt ->
          extend query ball argsort norms w l size ax side sort_axis rv =
            if ax <? length shape then append_lattice ball argsort w l other ax side sort_axis rv else None.
Proof.
  intros query ball argsort norms w l s conns an shape size ax I P r Hq Harg Hb Hd Hs Ec Ha Ean d V R Esh Hnorms Hinc EI HI Hr Hroom.
  destruct (connect_sites query argsort norms s (lt_structure l) conns an (ASize (set_nth ax size shape)) (is_primitive l) None true None I P r)
    as (m & cells & H1 & H2 & H3 & H4); auto.
  exists m, cells. split; auto. split; auto. split; auto. intros allowed connected Hnear Hfew Hcols.
  destruct (H4 Hnear Hfew Hcols) as (_ & _ & Eb & ER & T & dt & ET & Edt & St & W & Edi & Edp & HL).
  exists dt. do 3 (split; auto). split; auto. intros other side sort_axis rv Eo.
  unfold extend. rewrite Esh, Ean. destruct (ax <? length shape) eqn:Eax; cbn [negb]; auto.
  rewrite Eb, ER. fold R. rewrite EI, ET. unfold append_lattice. rewrite Eo. rewrite (stored_section _ _ _ St), Edi, Edp. reflexivity.
Qed.

(** The chain A-B-A (see [C71_example]), extended by the same extent: the section has the same sites and connections. *)
Example C79_section_example :
  exists l s' dt l', build brute dist_argsort [] (mkLattice s' None None None [] None) (ASize [1]%Q) false None true None None None = (l, Ok tt) /\
    analyze brute ab_chain = (s', Ok tt) /\ lt_structure l = s' /\ lt_shape l = Some [1]%Q /\ is_primitive l = false /\
    build_indices (st_basis ab_chain) [] (st_positions ab_chain) (ASize (set_nth 0 1%Q [1]%Q)) false None true None = Ok (ab_indices, ab_points) /\
    extend brute brute_ball dist_argsort [] keep l 1 0 1 None false = Some l' /\ lt_data l' = Some dt /\
    map (links dt) (seq 0 6) = [[(1, Fin 500000)]; [(0, Fin 500000); (2, Fin 500000)]; [(1, Fin 500000)]; [(4, Fin 500000)]; [(3, Fin 500000); (5, Fin 500000)]; [(4, Fin 500000)]].
Proof.
  eexists _, _, _, _. split; [|split; [vm_compute; reflexivity|]]; [vm_compute; reflexivity|]. repeat (split; [vm_compute; reflexivity|]). vm_compute. reflexivity.
Qed.

(** What is needed: [extend] raises without data, without the extents, without the analysis and for an axis that the
    lattice does not have. *)
Theorem C79_extend_needs :
  forall query ball argsort norms w l size ax side sort_axis rv l',
    extend query ball argsort norms w l size ax side sort_axis rv = Some l' ->
    lt_data l <> None /\ st_analysis (lt_structure l) <> None /\ exists shape, lt_shape l = Some shape /\ ax < length shape.
Proof.
  intros query ball argsort norms w l size ax side sort_axis rv l' H. unfold extend in H.
  destruct (lt_shape l) as [shape|] eqn:Es; [|discriminate]. destruct (st_analysis (lt_structure l)) as [an|] eqn:Ean; [|discriminate].
  destruct (ax <? length shape) eqn:Eax; cbn [negb] in H; [|discriminate]. apply Nat.ltb_lt in Eax.
  destruct (build_indices _ _ _ _ _ _ _ _) as [[ind pos]|e]; [|discriminate]. destruct (compute_neighbors _ _ _ _ _) as [rows|]; [|discriminate].
  unfold append_section in H. destruct (lt_data l) as [dt|]; [|discriminate].
  split; [discriminate|]. split; [discriminate|]. exists shape. auto.
Qed.

(** ** C79: extending a box *)

(** The extents of a box of cells. *)
Lemma box_shape d a za r0 o L m l : grid_lattice d a za r0 (box d o L) m l -> (forall k, k < d -> (1 <= nth k L 0)%Z) -> shape_current d l ->
  exists s, lt_shape l = Some s /\ length s = d /\ forall k, k < d -> (nth k s 0 == a * inject_Z (nth k L 0%Z - 1))%Q.
Proof.
  intros [B [Ha _] _ [dt [Ed G]]] HL [c [s [_ [Es [_ [Ls Hbb]]]]]]. exists s. split; auto. split; auto. intros k Hk.
  assert (lt_positions l = d_positions dt) as EP by (unfold lt_positions; rewrite Ed; auto). rewrite EP in Hbb.
  pose proof (npos _ (gd_wf _ _ _ _ _ _ _ G)) as Lp.
  assert (forall x, In x (map (fun p => nth k p 0%Q) (d_positions dt)) ->
    (nth k r0 0 + a * inject_Z (nth k o 0%Z) <= x <= nth k r0 0 + a * inject_Z (nth k o 0%Z + nth k L 0%Z - 1))%Q) as Hall.
  { intros x Hx. apply in_map_iff in Hx. destruct Hx as [p [<- Hp]]. destruct (In_nth _ _ [] Hp) as [i [Hi <-]].
    assert (i < nsites dt) as Hi' by (unfold vec, nsites in *; lia).
    destruct (gd_positions _ _ _ _ _ _ _ G i Hi') as [_ E]. rewrite (E k Hk).
    assert (In (nth i (d_indices dt) []) (d_indices dt)) as Hin by (apply nth_In; exact Hi').
    apply (gd_cells _ _ _ _ _ _ _ G) in Hin. destruct Hin as [n [-> [Ln Hn]]]. rewrite app_nth1 by lia. specialize (Hn k Hk).
    assert (inject_Z (nth k o 0%Z) <= inject_Z (nth k n 0%Z))%Q by (rewrite <- Zle_Qle; lia).
    assert (inject_Z (nth k n 0%Z) <= inject_Z (nth k o 0%Z + nth k L 0%Z - 1))%Q by (rewrite <- Zle_Qle; lia). nra. }
  assert (forall n, length n = d -> box d o L n -> exists x, In x (map (fun p => nth k p 0%Q) (d_positions dt)) /\ (x == nth k r0 0 + a * inject_Z (nth k n 0%Z))%Q) as Hat.
  { intros n Ln Hn. assert (In (n ++ [0%Z]) (d_indices dt)) as Hin by (apply (gd_cells _ _ _ _ _ _ _ G); exists n; auto).
    destruct (In_nth _ _ [] Hin) as [i [Hi Ei]]. destruct (gd_positions _ _ _ _ _ _ _ G i Hi) as [_ E].
    exists (nth k (nth i (d_positions dt) []) 0%Q). split.
    - apply in_map_iff. exists (nth i (d_positions dt) []). split; auto. apply nth_In. unfold vec, nsites in *. lia.
    - rewrite (E k Hk), Ei, app_nth1 by lia. reflexivity. }
  set (n0 := map (fun i => nth i o 0%Z) (seq 0 d)). set (n1 := map (fun i => (nth i o 0 + nth i L 0 - 1)%Z) (seq 0 d)).
  assert (forall i, i < d -> nth i n0 0%Z = nth i o 0%Z) as E0.
  { intros i Hi. unfold n0. rewrite (nth_map_in _ _ _ 0) by (rewrite seq_length; auto). rewrite seq_nth by auto. reflexivity. }
  assert (forall i, i < d -> nth i n1 0%Z = (nth i o 0 + nth i L 0 - 1)%Z) as E1.
  { intros i Hi. unfold n1. rewrite (nth_map_in _ _ _ 0) by (rewrite seq_length; auto). rewrite seq_nth by auto. reflexivity. }
  destruct (Hat n0) as [x0 [Hx0 Ex0]].
  { unfold n0. rewrite map_length, seq_length. auto. } { intros i Hi. rewrite E0 by auto. specialize (HL i Hi). lia. }
  destruct (Hat n1) as [x1 [Hx1 Ex1]].
  { unfold n1. rewrite map_length, seq_length. auto. } { intros i Hi. rewrite E1 by auto. specialize (HL i Hi). lia. }
  rewrite E0 in Ex0 by auto. rewrite E1 in Ex1 by auto.
  destruct (Hbb k Hk) as [[[y0 [Hy0 Ey0]] Hmin] [[y1 [Hy1 Ey1]] Hmax]].
  pose proof (Hmin x0 Hx0) as M0. pose proof (Hmax x1 Hx1) as M1. pose proof (Hall y0 Hy0) as A0. pose proof (Hall y1 Hy1) as A1.
  assert (inject_Z (nth k o 0%Z + nth k L 0%Z - 1) == inject_Z (nth k o 0%Z) + inject_Z (nth k L 0%Z - 1))%Q as Es1.
  { rewrite <- inject_Z_plus. replace (nth k o 0 + (nth k L 0 - 1))%Z with (nth k o 0 + nth k L 0 - 1)%Z by ring. reflexivity. }
  rewrite Es1 in *. lra.
Qed.

Lemma cubic_axis b a : valid_basis b -> cubic_lattice (b_dim b) (b_mat b) a -> axis_lattice b (repeat a (b_dim b)).
Proof.
  intros Hb [Ha H]. split; auto. split; [apply repeat_length|]. intros i j Hi Hj.
  assert (nth i (repeat a (b_dim b)) 0%Q = a) as -> by (apply nth_error_nth; apply nth_error_repeat; auto). split; auto.
Qed.

(** The sites of a size (not a shape) on a hypercubic lattice with the atom at the origin. *)
Lemma sized_sites b norms a size :
  let d := b_dim b in
  valid_basis b -> 1 <= d -> cubic_lattice d (b_mat b) a -> (1#1000 < a)%Q -> length size = d ->
  (forall i, i < d -> (0 <= nth i size 0 /\ nth i size 0 / a < inject_Z (2 ^ 62))%Q) ->
  exists I P, build_indices b norms [repeat 0%Q d] (ASize size) false None true None = Ok (I, P) /\
    forall n, length n = d -> In (n ++ [0%Z]) I <-> box d (repeat 0%Z d) (map (fun x => (Qfloor (x / a)%Q + 1)%Z) size) n.
Proof.
  intros d Hb Hd HV Ha Ls Hsize. pose proof (cubic_axis b a Hb HV) as Hax. fold d in Hax.
  assert (forall i, i < d -> nth i (repeat a d) 0%Q = a) as Hcs by (intros i Hi; apply nth_error_nth; apply nth_error_repeat; auto).
  destruct (axis_box_limits b (repeat a d) size (repeat 0%Q d) size Hax Hd) as [_ [_ Hwrap]]; auto.
  { apply repeat_length. } { intros i Hi. rewrite nth_repeat. reflexivity. } { intros i Hi. reflexivity. }
  { fold d. intros i Hi. rewrite Hcs by auto. apply Hsize. auto. }
  destruct (C33_built_sites_of_a_box b norms [repeat 0%Q d] size None (repeat 0%Q d)) as (I & P & EI & _ & HI); auto.
  - apply repeat_length.
  - intros i Hi. apply Hsize. auto.
  - intros i Hi. right. split; [intros j Hj; rewrite nth_repeat; reflexivity|]. exists i. split; auto.
    pose proof (axis_inverse b (repeat a d) Hax i i Hi Hi) as E. rewrite Hcs in E by auto. unfold delta in E. rewrite Nat.eqb_refl in E. fold d in E. nra.
  - discriminate.
  - intros r [<-|[]]. split; [apply repeat_length|]. intros i Hi. unfold coordinate.
    rewrite (sum_ext _ _ (fun _ => 0%Q)); [|intros j Hj; rewrite nth_repeat; ring].
    assert (forall k, (sum_upto k (fun _ => 0%Q) == 0)%Q) as Hz by (induction k; cbn; [reflexivity|rewrite IHk; reflexivity]). rewrite Hz. lra.
  - exists I, P. split; auto. intros n Ln. destruct (HI n 0 (repeat 0%Q d) Ln eq_refl) as [H1 H2].
    fold d in H1, H2. cbn [Z.of_nat] in H1, H2.
    assert (forall k, k < d -> (nth k (lattice_point d (b_mat b) (repeat 0%Q d) n) 0 == a * inject_Z (nth k n 0%Z))%Q) as Hp.
    { intros k Hk. rewrite nth_lattice_point by auto. rewrite (row_sum d _ a HV) by auto. rewrite nth_repeat. ring. }
    assert (forall k, k < d -> nth k (map (fun x => (Qfloor (x / a)%Q + 1)%Z) size) 0%Z = (Qfloor (nth k size 0 / a)%Q + 1)%Z) as EL.
    { intros k Hk. rewrite (nth_map_in _ _ _ 0%Q) by lia. reflexivity. }
    assert (forall k, k < d -> (nth k n 0 < Qfloor (nth k size 0 / a)%Q + 1)%Z <-> (a * inject_Z (nth k n 0%Z) <= nth k size 0)%Q) as Hf.
    { intros k Hk. fold (Z.succ (Qfloor (nth k size 0 / a)%Q)). rewrite Z.lt_succ_r, floor_ge. split; intro H.
      - apply (Qmult_le_compat_r _ _ a) in H; [|lra]. assert (nth k size 0 / a * a == nth k size 0)%Q as E' by (field; lra). lra.
      - apply Qle_shift_div_l; lra. }
    split.
    + intros Hin k Hk. specialize (H2 Hin k Hk). rewrite nth_repeat, (Hp k Hk) in H2. rewrite nth_repeat, EL by auto. destruct H2 as [L1 L2]. rewrite Z.add_0_l. split.
      * apply Znot_gt_le. intro G. assert (inject_Z (nth k n 0%Z) <= -1)%Q as G' by (change (-1)%Q with (inject_Z (-1)); rewrite <- Zle_Qle; lia). nra.
      * apply Hf; auto. lra.
    + intro Hn. apply H1. intros k Hk. specialize (Hn k Hk). rewrite nth_repeat, EL in Hn by auto. rewrite nth_repeat, (Hp k Hk). destruct Hn as [N1 N2]. rewrite Z.add_0_l in N2. apply Hf in N2; auto.
      rewrite Zle_Qle in N1. change (inject_Z 0) with 0%Q in N1. split; nra.
Qed.

(** The lattice is that of an analysed structure with one atom at the origin and nearest neighbours, and its extents are
    up to date. *)
Definition at_origin (query : kd_tree) (d : nat) (l : lattice) : Prop :=
  (exists s, in_step s /\ st_positions s = [repeat 0%Q d] /\ st_connections s = Some [[1]] /\ analyze query s = (lt_structure l, Ok tt)) /\
  shape_current d l /\ is_primitive l = false.

Theorem C79_extend_box :
  forall query ball argsort norms w l d ax side a za o' L L'' size m,
    correct_tree query -> correct_ball ball -> is_argsort dleb argsort ->
    grid_lattice d a za (repeat 0%Q d) (box d (repeat 0%Z d) L) m l -> at_origin query d l ->
    ax < d -> (1#1000 < a)%Q -> rounds_to_micro (a * a)%Q za -> (a * 1000000 <= inject_Z za)%Q ->
    (forall k, k < d -> (1 <= nth k L 0 <= 2 ^ 62)%Z) -> (0 <= size /\ size / a < inject_Z (2 ^ 62))%Q ->
    let B := (Qfloor (size / a)%Q + 1)%Z in
    (3 <= nth ax L 0 \/ 3 <= B)%Z -> resized d ax (nth ax L 0 + B)%Z L L'' -> side_origin d ax side B (repeat 0%Z d) o' ->
    exists l' m', extend query ball argsort norms w l size ax side None false = Some l' /\ lt_structure l' = lt_structure l /\
      grid_lattice d a za (repeat 0%Q d) (box d o' L'') m' l' /\ at_origin query d l'.
Proof.
  intros query ball argsort norms w l d ax side a za o' L L'' size m Hq Hball Harg Gl [[s [Hs [HR [Ec Ha]]]] [Hsc Hprim]] Hax Ha3 Hza Hle HL Hsize B H3 HL'' Ho.
  pose proof Gl as [Bt HV _ [dt0 [Ed0 G0]]].
  destruct (analyze_keeps query s) as [Kb [_ [Kp _]]]. rewrite Ha in Kb, Kp. cbn [fst] in Kb, Kp.
  pose proof (bt_dim _ _ Bt) as Dd. unfold lt_basis in *. rewrite Kb in *.
  pose proof (bt_basis _ _ Bt) as Hb. unfold lt_basis in Hb. rewrite Kb in Hb.
  destruct (box_shape _ _ _ _ _ _ _ _ Gl ltac:(intros; apply HL; auto) Hsc) as [shape [Esh [Lsh Hshape]]].
  set (size' := set_nth ax size shape).
  assert (length size' = d) as Ls by (unfold size'; rewrite set_nth_length; auto).
  assert (forall k, k < d -> (nth k size' 0 == if k =? ax then size else a * inject_Z (nth k L 0%Z - 1))%Q) as Hs'.
  { intros k Hk. unfold size'. rewrite nth_set_nth, Lsh, (proj2 (Nat.ltb_lt k d) Hk), andb_true_r. destruct (k =? ax); [reflexivity|apply Hshape; auto]. }
  assert (0 < a)%Q as Ha0 by lra.
  assert (forall x z, (x == a * inject_Z z)%Q -> (x / a == inject_Z z)%Q) as Hdiv by (intros x z ->; field; lra).
  destruct (sized_sites (st_basis s) norms a size') as (I & P & EI & HI); auto; try (rewrite Dd; auto).
  { lia. }
  { intros i Hi. pose proof (Hs' i Hi) as E. destruct (i =? ax) eqn:Ei.
    - rewrite E. exact Hsize.
    - pose proof (Hdiv _ _ E) as E'. rewrite E', E. destruct (HL i Hi) as [K1 K2].
      assert (inject_Z 0 <= inject_Z (nth i L 0%Z - 1))%Q as K3 by (rewrite <- Zle_Qle; lia). change (inject_Z 0) with 0%Q in K3.
      split; [nra|]. rewrite <- Zlt_Qlt. lia. }
  rewrite Dd in EI, HI.
  set (L' := map (fun x => (Qfloor (x / a)%Q + 1)%Z) size') in *.
  assert (resized d ax B L L') as HL'.
  { intros k Hk. unfold L'. rewrite (nth_map_in _ _ _ 0%Q) by lia. pose proof (Hs' k Hk) as E. destruct (k =? ax) eqn:Ek.
    - unfold B. rewrite (Qfloor_comp _ (size / a)%Q); auto. rewrite E. reflexivity.
    - rewrite (Qfloor_comp _ _ (Hdiv _ _ E)), Qfloor_Z. ring. }
  assert (1 <= B)%Z as HB.
  { assert (0 <= Qfloor (size / a)%Q)%Z; [|unfold B; lia]. apply floor_ge. change (inject_Z 0) with 0%Q. apply Qle_shift_div_l; lra. }
  assert (I <> []) as HI0.
  { intro E. assert (In (repeat 0%Z d ++ [0%Z]) I) as Hin; [|rewrite E in Hin; destruct Hin]. apply HI; [apply repeat_length|].
    intros k Hk. rewrite nth_repeat, HL' by auto. specialize (HL k Hk). destruct (k =? ax); lia. }
  assert (6 <= za)%Z as H6.
  { apply Znot_gt_le. intro G. assert (inject_Z za <= 5)%Q as G' by (change 5%Q with (inject_Z 5); rewrite <- Zle_Qle; lia). lra. }
  destruct (piece_sites query argsort norms s (lt_structure l) (ASize size') false None true None I P a za (repeat 0%Q d))
    as (_ & _ & _ & _ & an & r & T & dt & Ean & _ & _ & ET & _ & St & Edi & Edp & m' & G); auto.
  { lia. } { rewrite Dd. exact HV. } { discriminate. } { rewrite HR. exact EI. }
  rewrite Dd in *.
  assert (grid_data d a za (repeat 0%Q d) (box d (repeat 0%Z d) L') m' dt) as Ge.
  { eapply grid_data_ext; [|exact G]. exact HI. }
  destruct (join_boxes ball argsort w l d ax side a za (repeat 0%Q d) (repeat 0%Z d) o' L L' L'' B m m' dt0 dt) as (l' & A1 & A2 & A3 & A4); auto.
  { intros k Hk. apply HL. auto. }
  exists l', (Nat.max m m'). split; [|split; auto; split; auto].
  - unfold extend. rewrite Esh, Ean, Lsh, (proj2 (Nat.ltb_lt ax d) Hax). cbn [negb]. rewrite Kb, Kp, HR, Hprim. fold size'. rewrite EI, ET.
    rewrite (stored_section _ _ _ St), Edi, Edp, Hprim in A1. exact A1.
  - split; [exists s; rewrite A2; auto|]. split.
    + eapply append_section_current; [exact A1| |].
      * pose proof A4 as [_ _ _ [dt' [Ed' G']]]. unfold lt_positions. rewrite Ed'. pose proof (grid_nonempty _ _ _ _ _ _ _ G') as Hne.
        pose proof (npos _ (gd_wf _ _ _ _ _ _ _ G')) as Lp. intro E. rewrite E in Lp. cbn in Lp. lia.
      * apply (bt_positions _ _ (gl_built _ _ _ _ _ _ _ A4)).
    + unfold is_primitive in *. rewrite A3. exact Hprim.
Qed.

(** ** C79: extending repeatedly to the right *)

(** One call of [extend] after the other, each with a size and an axis. *)
Fixpoint extend_all (query : kd_tree) (ball : list vec -> list vec -> Q -> list (list nat)) (argsort : list dist -> list nat) (norms : vec)
  (steps : list (conversions * Q * nat)) (l : lattice) : option lattice :=
  match steps with
  | [] => Some l
  | (w, size, ax) :: rest =>
    match extend query ball argsort norms w l size ax 1 None false with
    | Some l' => extend_all query ball argsort norms rest l'
    | None => None
    end
  end.

(** The number of layers of cells that the steps add along axis [k]. *)
Definition added (a : Q) (steps : list (conversions * Q * nat)) (k : nat) : Z :=
  fold_right Z.add 0%Z (map (fun st => (Qfloor (snd (fst st) / a)%Q + 1)%Z) (filter (fun st => snd st =? k) steps)).

Lemma added_nonneg a steps k : (0 < a)%Q -> (forall w size ax, In (w, size, ax) steps -> (0 <= size)%Q) -> (0 <= added a steps k)%Z.
Proof.
  intros Ha H. unfold added. induction steps as [|[[w size] ax] steps IH]; cbn [filter map fold_right snd]; [lia|].
  specialize (IH ltac:(intros w' s' ax' Hin; apply (H w' s' ax'); right; auto)).
  destruct (ax =? k); auto. cbn [map fold_right fst snd].
  assert (0 <= Qfloor (size / a)%Q)%Z; [|lia]. apply floor_ge. change (inject_Z 0) with 0%Q. apply Qle_shift_div_l; auto. specialize (H w size ax (or_introl eq_refl)). lra.
Qed.

Theorem C79_extend_repeatedly :
  forall query ball argsort norms d a za, correct_tree query -> correct_ball ball -> is_argsort dleb argsort ->
    (1#1000 < a)%Q -> rounds_to_micro (a * a)%Q za -> (a * 1000000 <= inject_Z za)%Q ->
    forall steps l L L' m,
    grid_lattice d a za (repeat 0%Q d) (box d (repeat 0%Z d) L) m l -> at_origin query d l ->
    (forall w size ax, In (w, size, ax) steps -> ax < d /\ (0 <= size)%Q) ->
    (forall k, k < d -> (3 <= nth k L 0)%Z /\ nth k L' 0%Z = (nth k L 0 + added a steps k)%Z /\ (nth k L' 0 <= 2 ^ 62)%Z) ->
    exists l' m', extend_all query ball argsort norms steps l = Some l' /\ lt_structure l' = lt_structure l /\
      grid_lattice d a za (repeat 0%Q d) (box d (repeat 0%Z d) L') m' l' /\ at_origin query d l'.
Proof.
  intros query ball argsort norms d a za Hq Hball Harg Ha Hza Hle. assert (0 < a)%Q as Ha0 by lra.
  induction steps as [|[[w size] ax] steps IH]; intros l L L' m Gl At Hst HL; cbn [extend_all].
  - exists l, m. split; auto. split; auto. split; auto. eapply grid_lattice_ext; [|exact Gl]. intros n _. apply box_ext; auto.
    intros k Hk. destruct (HL k Hk) as [_ [E _]]. rewrite E. unfold added. cbn. ring.
  - destruct (Hst w size ax (or_introl eq_refl)) as [Hax Hsz].
    assert (forall w size ax, In (w, size, ax) steps -> ax < d /\ (0 <= size)%Q) as Hst' by (intros; apply (Hst w0); right; auto).
    assert (forall k, 0 <= added a steps k)%Z as Hadd by (intro k; apply added_nonneg; auto; intros w0 s0 ax0 Hin; apply (Hst' w0 s0 ax0 Hin)).
    set (B := (Qfloor (size / a)%Q + 1)%Z).
    assert (0 <= Qfloor (size / a)%Q)%Z as HB by (apply floor_ge; change (inject_Z 0) with 0%Q; apply Qle_shift_div_l; lra).
    assert (forall k, added a ((w, size, ax) :: steps) k = ((if (ax =? k)%nat then B else 0) + added a steps k)%Z) as Eadd.
    { intro k. unfold added. cbn [filter snd]. destruct (ax =? k); cbn [map fold_right fst snd]; [reflexivity|]. rewrite Z.add_0_l. reflexivity. }
    set (L1 := map (fun k => if k =? ax then (nth ax L 0 + B)%Z else nth k L 0%Z) (seq 0 d)).
    assert (forall k, k < d -> nth k L1 0%Z = if k =? ax then (nth ax L 0 + B)%Z else nth k L 0%Z) as H1.
    { intros k Hk. unfold L1. rewrite (nth_map_in _ _ _ 0) by (rewrite seq_length; auto). rewrite seq_nth by auto. reflexivity. }
    destruct (C79_extend_box query ball argsort norms w l d ax 1 a za (repeat 0%Z d) L L1 size m) as (l1 & m1 & A1 & A2 & A3 & A4); auto.
    + intros k Hk. destruct (HL k Hk) as [K1 [K2 K3]]. rewrite Eadd in K2. specialize (Hadd k). split; [lia|]. destruct (ax =? k); unfold B in *; lia.
    + split; auto. destruct (HL ax Hax) as [K1 [K2 K3]]. rewrite Eadd, Nat.eqb_refl in K2. specialize (Hadd ax).
      assert (Qfloor (size / a)%Q < 2 ^ 62)%Z as K4 by (unfold B in *; lia).
      apply Qnot_le_lt. intro G. apply floor_ge in G. lia.
    + destruct (HL ax Hax) as [K1 _]. left. exact K1.
    + intros k Hk. cbn. rewrite andb_false_r. auto.
    + destruct (IH l1 L1 L' m1 A3 A4 Hst') as (l' & m' & B1 & B2 & B3 & B4).
      * intros k Hk. destruct (HL k Hk) as [K1 [K2 K3]]. rewrite Eadd in K2. rewrite H1 by auto. destruct (Nat.eqb_spec k ax) as [->|N].
        -- rewrite Nat.eqb_refl in K2. unfold B in *. split; [lia|]. split; [lia|auto].
        -- destruct (Nat.eqb_spec ax k) as [->|_]; [congruence|]. split; auto.
      * rewrite A1. exists l', m'. split; auto. split; [congruence|auto].
Qed.

(** The lattices of [finite_hypercubic] can be extended. *)
Theorem C79_finite_hypercubic_start :
  forall query argsort inv s a at_ za,
    let d := length s in
    let L := map (fun x => (Qfloor (x / a)%Q + 1)%Z) s in
    correct_tree query -> is_argsort dleb argsort -> 1 <= d -> valid_basis (hypercubic inv d a) -> (1#1000 < a)%Q ->
    rounds_to_micro (a * a)%Q za ->
    (forall i, i < d -> (0 <= nth i s 0 /\ nth i s 0 / a < inject_Z (2 ^ 62))%Q) ->
    exists l m, finite_hypercubic query argsort inv (ASize s) a at_ 1 false None = Ok l /\
      grid_lattice d a za (repeat 0%Q d) (box d (repeat 0%Z d) L) m l /\ at_origin query d l.
Proof.
  intros query argsort inv s a at_ za d L Hq Harg Hd Hb Ha Hza Hrange.
  destruct (finite_box query argsort inv s a at_ za Hq Harg Hd Hb Ha Hza Hrange) as (st & l & m & E & E1 & E2 & E3 & E4 & E5 & E6 & G & _).
  exists l, m. split; auto. split; auto. fold d in E1, E2, E6. destruct (analyze_keeps query st) as [Kb [_ [Kp _]]]. rewrite E5 in Kb, Kp. cbn [fst] in Kb, Kp.
  assert (b_dim (lt_basis (new_lattice (lt_structure l))) = d) as Ed by (unfold lt_basis; cbn [new_lattice lt_structure]; rewrite Kb, E1; apply hypercubic_dim).
  split; [exists st; auto|]. split.
  - destruct C76_shape as [H _]. rewrite <- Ed. eapply H; [| | |exact E6].
    + unfold lt_basis. cbn [new_lattice lt_structure]. rewrite Kb, E1. exact Hb.
    + discriminate.
    + intros r Hr. cbn [new_lattice lt_structure] in Hr. rewrite Ed. rewrite Kp, E2 in Hr. destruct Hr as [<-|[]]. apply repeat_length.
  - apply C53_successful_build in E6.
    + destruct E6 as [_ [_ [_ [E7 _]]]]. unfold is_primitive. rewrite E7. reflexivity.
    + unfold lt_basis. cbn [new_lattice lt_structure]. rewrite Kb, E1. exact Hb.
    + discriminate.
    + intros r Hr. cbn [new_lattice lt_structure] in Hr. rewrite Ed. rewrite Kp, E2 in Hr. destruct Hr as [<-|[]]. apply repeat_length.
Qed.

(** The example of the documentation: the extents [5, 2], then [8, 2], then [8, 5]. *)
Example C79_example :
  let steps := [(keep, 2%Q, 0); (keep, 2%Q, 1)] in
  correct_tree brute /\ correct_ball brute_ball /\ is_argsort dleb dist_argsort /\ rounds_to_micro (1 * 1)%Q 1000000 /\
  (exists l m, unit_square [5; 2]%Q = Ok l /\ grid_lattice 2 1 1000000 (repeat 0%Q 2) (box 2 (repeat 0%Z 2) [6; 3]%Z) m l /\ at_origin brute 2 l) /\
  (forall k, k < 2 -> (3 <= nth k [6; 3] 0)%Z /\ nth k [9; 6]%Z 0%Z = (nth k [6; 3] 0 + added 1 steps k)%Z /\ (nth k [9; 6] 0 <= 2 ^ 62)%Z) /\
  match unit_square [5; 2]%Q with
  | Ok l =>
    lt_shape l = Some [5; 2]%Q /\
    match extend brute brute_ball dist_argsort [1; 1]%Q keep l 2 0 1 None false, extend_all brute brute_ball dist_argsort [1; 1]%Q steps l with
    | Some l1, Some l2 => lt_shape l1 = Some [8; 2]%Q /\ lt_shape l2 = Some [8; 5]%Q /\
        match lt_data l2 with Some dt => nsites dt = 54 /\ nth 17 (d_indices dt) [] = [5; 2; 0]%Z /\ length (links dt 17) = 4 | None => False end
    | _, _ => False
    end
  | _ => False
  end.
Proof.
  intro steps. split; [exact brute_nearest|]. split; [apply brute_ball_correct|]. split; [apply dist_argsort_ok|].
  assert (rounds_to_micro (1 * 1)%Q 1000000) as Hr by (change 1000000%Z with (sqrt_micro (1 * 1)); apply sqrt_micro_rounds; lra).
  split; [exact Hr|]. split; [|split].
  - destruct (C79_finite_hypercubic_start brute dist_argsort diagonal_inverse [5; 2]%Q 1 (ex_atom "A") 1000000) as [l [m [E [G A]]]]; auto.
    + exact brute_nearest.
    + exact dist_argsort_ok.
    + cbn. lia.
    + apply inverse2_check; reflexivity.
    + reflexivity.
    + intros [|[|i]] Hi; [| |cbn in Hi; lia]; vm_compute; split; congruence.
    + exists l, m. split; [exact E|]. split; [exact G|exact A].
  - intros [|[|k]] Hk; [| |lia]; vm_compute; repeat split; congruence.
  - vm_compute. repeat split.
Qed.

(** ** C79: where extending goes wrong *)

Definition built_at (s : structure) (size : list Q) (primitive : bool) (pos : option (list Q)) : lattice :=
  fst (build brute dist_argsort [1; 1]%Q (new_lattice s) (ASize size) primitive pos true None None None).
Definition extend_by (l : lattice) (size : Q) (side : Z) : option lattice := extend brute brute_ball dist_argsort [1; 1]%Q keep l size 0 side None false.
Definition half_atom : structure := Eval vm_compute in run_calls brute ex_square [CAddAtom (Some [0; 1#2]%Q) (ex_atom "A") false 1].
Definition ex_skew : basis := mkBasis [[1; 1#2]; [0; 1]]%Q [[1; -1#2]; [0; 1]]%Q.
Definition skew_atom : structure := Eval vm_compute in run_calls brute ex_skew [CAddAtom (Some [0; 0]%Q) (ex_atom "A") false 1].

(** Extending does not continue the rows of cells: for a lattice built away from the origin, for an atom away from the
    lattice point, for primitive vectors that are not orthogonal and after an extension to the left. *)
Definition continues (l l' : lattice) : Prop :=
  forall n, In n (lt_indices l') -> exists n', In n' (lt_indices l) /\ forall k, 1 <= k -> nth k n 0%Z = nth k n' 0%Z.

Theorem C79_extend_rows_refuted :
  (* 3 x 3 sites at (0, 5): the new sites are at y = 0, 1, 2 *)
  (exists l', extend_by (built_at square_atom [2; 2]%Q false (Some [0; 5]%Q)) 2 1 = Some l' /\
     ~ continues (built_at square_atom [2; 2]%Q false (Some [0; 5]%Q)) l') /\
  (* 3 x 3 sites, the atom at (0, 1/2): 3 x 2 new sites *)
  (exists l', lt_num_sites (built_at half_atom [2; 3]%Q false None) = 9 /\ extend_by (built_at half_atom [2; 3]%Q false None) 2 1 = Some l' /\
     lt_num_sites l' = 15 /\ ~ In [3; 2; 0]%Z (lt_indices l')) /\
  (* 3 x 2 cells of a skew lattice, primitive: the two new cells are (3, 0) and (4, 0) *)
  (exists l', lt_num_sites (built_at skew_atom [2; 2]%Q true None) = 6 /\ extend_by (built_at skew_atom [2; 2]%Q true None) 2 1 = Some l' /\
     lt_num_sites l' = 8 /\ ~ In [3; 1; 0]%Z (lt_indices l')).
Proof.
  split; [|split].
  - eexists. split; [vm_compute; reflexivity|]. intro H.
    destruct (H [3; 0; 0]%Z) as [n' [Hn E]]; [vm_compute; tauto|]. specialize (E 1 (le_n 1)). cbn in E. vm_compute in Hn.
    repeat (destruct Hn as [<-|Hn]; [discriminate E|]). destruct Hn.
  - eexists. split; [reflexivity|]. split; [vm_compute; reflexivity|]. split; [reflexivity|]. vm_compute. intros H. repeat (destruct H as [H|H]; [discriminate H|]). destruct H.
  - eexists. split; [reflexivity|]. split; [vm_compute; reflexivity|]. split; [reflexivity|]. vm_compute. intros H. repeat (destruct H as [H|H]; [discriminate H|]). destruct H.
Qed.

(** Three sites, extended to the left and then to the right: the cells 3, 4 and 5 are missing.  Extended twice to the
    left: the sites -3, -2 and -1 occur twice. *)
Theorem C79_extend_both_sides_refuted :
  exists l l1, l = built_at one_atom [2]%Q false None /\ extend_by l 2 (-1) = Some l1 /\
    (exists l2, extend_by l1 2 1 = Some l2 /\ lt_num_sites l2 = 9 /\ In [6; 0]%Z (lt_indices l2) /\ ~ In [3; 0]%Z (lt_indices l2)) /\
    (exists l3, extend_by l1 2 (-1) = Some l3 /\ ~ NoDup (lt_indices l3)).
Proof.
  exists (built_at one_atom [2]%Q false None). eexists. split; [reflexivity|]. split; [vm_compute; reflexivity|]. split.
  - eexists. split; [vm_compute; reflexivity|]. split; [reflexivity|]. split; [vm_compute; tauto|].
    vm_compute. intros H. repeat (destruct H as [H|H]; [discriminate H|]). destruct H.
  - eexists. split; [vm_compute; reflexivity|]. intro H. vm_compute in H.
    rewrite (NoDup_nth _ []) in H. specialize (H 3 6 ltac:(cbn; lia) ltac:(cbn; lia) eq_refl). discriminate H.
Qed.

Print Assumptions C79_extend_appends.
Print Assumptions C79_extend_needs.
Print Assumptions C79_extend_box.
Print Assumptions C79_extend_repeatedly.
Print Assumptions C79_finite_hypercubic_start.
Print Assumptions C79_extend_rows_refuted.
Print Assumptions C79_extend_both_sides_refuted.
