(** * Property C72 (lattpy/lattice.py, __init__.py: the graph of a hypercubic lattice) *)
From Coq Require Import String List ZArith QArith Qabs Qround Bool Arith Lia Lqa Permutation Sorting.Sorted.
From Verif Require Import Np NpFacts LinAlg LinFacts SpecUtils UtilsModel UtilsProofs PropUtils SpecBasis AtomModel BasisModel BasisProofs
  NeighborCellProofs PropBasis SpatialModel SpecSpatial SpatialProofs KDProofs SpecStructure SpecBuild ShapeModel ShapeProofs PropShape PropSpatial StructureModel KDBrute RoundFacts StructureFacts
  DataModel SpecData DataFacts DataProofs PropData AnalyzeProofs StructureProofs PropStructure PropAnalyze FilterProofs SpecNeighbors
  NeighborProofs RadiusProofs RangeProofs PropNeighbors BuiltProofs BuildProofs PropBuild LatticeModel LatticeExamples PropFailed SpecGrid GridProofs
  PropBuilt PresetModel PropPrimitive.
Import ListNotations.
Open Scope nat_scope.
Open Scope list_scope.

(** ** C72 *)

Lemma radius_small a za r : (0 < a)%Q -> rounds_to_micro (a * a)%Q za -> (6 <= za)%Z ->
  (r == (inject_Z za + (1#10) * inject_Z za) * (1#1000000))%Q -> (r * r < 2 * (a * a) /\ a * a <= r * r)%Q.
Proof.
  intros Ha [_ [H2 [H1 _]]] H6 Er. specialize (H1 ltac:(lia)). assert (6 <= inject_Z za)%Q as H by (change 6%Q with (inject_Z 6); rewrite <- Zle_Qle; lia).
  set (z := inject_Z za) in *. assert (r == (11#10) * z * (1#1000000))%Q as E by (rewrite Er; ring).
  assert (z - (1#2) <= a * 1000000)%Q as B1.
  { apply Qnot_lt_le. intro L. assert ((a * 1000000) * (a * 1000000) < (z - (1#2)) * (z - (1#2)))%Q by nra. lra. }
  assert (a * 1000000 <= z + (1#2))%Q as B2.
  { apply Qnot_lt_le. intro L. assert ((z + (1#2)) * (z + (1#2)) < (a * 1000000) * (a * 1000000))%Q by nra. lra. }
  assert (r <= (12#10) * a)%Q by lra. assert (a <= r)%Q by lra. split; nra.
Qed.

Lemma nth_app_cell (n : list Z) x k : k < length n -> nth k (n ++ [x]) 0%Z = nth k n 0%Z.
Proof. intro. apply app_nth1. auto. Qed.

(** The sites of [build_indices] on a hypercubic lattice with one atom and connections to the nearest neighbours. *)
Lemma grid_sites :
  forall query argsort norms s s' sh primitive pos check callback I P a za,
    correct_tree query -> is_argsort dleb argsort ->
    valid_basis (st_basis s) -> 1 <= b_dim (st_basis s) -> in_step s ->
    length (st_positions s) = 1 -> st_connections s = Some [[1]] -> analyze query s = (s', Ok tt) ->
    let d := b_dim (st_basis s) in
    cubic_lattice d (b_mat (st_basis s)) a -> rounds_to_micro (a * a)%Q za -> (6 <= za)%Z ->
    (primitive = true -> length norms = d) ->
    build_indices (st_basis s) norms (st_positions s) sh primitive pos check callback = Ok (I, P) ->
    I <> [] ->
    no_connections s' = false /\ not_analyzed s' = false /\ st_basis s' = st_basis s /\ st_positions s' = st_positions s /\
    exists an r T dt, st_analysis s' = Some an /\ query_radius an = Some r /\ (a * a <= r * r /\ r * r < 2 * (a * a))%Q /\
      compute_neighbors query argsort an I P = Some T /\ data_set I P (map (map fst) T) (map (map snd) T) = Some dt /\ stored d T dt /\
      wf dt /\ d_indices dt = I /\ d_positions dt = P /\
      forall i, i < length P -> NoDup (map fst (links dt i)) /\
        forall j x, In (j, x) (links dt i) <-> j < length P /\ unit_step d (nth i I []) (nth j I []) /\ x = Fin za.
Proof.
  intros query argsort norms s s' sh primitive pos check callback I P a za Hq Harg Hb Hd Hs HR1 Ec Ha d HV Hza H6 Hnorms EI HI.
  destruct (st_positions s) as [|r0 [|r1 R']] eqn:ER; try discriminate. clear HR1.
  assert (length r0 = d) as Hr0 by (destruct Hs as [_ [Hs _]]; apply Hs; rewrite ER; left; auto).
  assert (exists an, st_analysis s' = Some an) as [an Ean].
  { destruct (analysed_table query s s' Hb Hd Hs Ha) as [conns' [cells [_ [_ [_ [_ [_ [_ [_ Es]]]]]]]]]. rewrite Es. cbn. eauto. }
  destruct (C70_search_range query s s' [[1]] an Hq Hb Hd Hs Ec Ha Ean) as [m [cells [Hm1 [Hm2 [Ecells [Hrad [Hdef [found [Hf1 [Hf2 Hf3]]]]]]]]]].
  rewrite ER in Hrad, Hdef, Hf3.
  assert (m = 1) as ->.
  { destruct Hm2 as [x [y E]]. specialize (Hm1 0 0). cbn in Hm1. destruct x as [|[|x]], y as [|[|y]]; cbn in E; lia. }
  assert (forall x, among_first 1 (occurs d (b_mat (st_basis s)) [r0] cells 0 0) x <-> x = Fin za) as Hfirst
    by (intro x; eapply first_cubic; eauto).
  assert (forall x, occurs d (b_mat (st_basis s)) [r0] cells 0 0 x -> exists z, x = Fin z /\ (za <= z)%Z) as Hocc
    by (intro x; eapply occurs_cubic; eauto).
  assert (occurs d (b_mat (st_basis s)) [r0] cells 0 0 (Fin za)) as Hunit
    by (eapply occurs_unit; eauto).
  (* the radius *)
  destruct (query_radius an) as [r|] eqn:Er.
  2:{ exfalso. apply Hdef; auto. intros [|x] [|y] Hx Hy; cbn in Hx, Hy; try lia. exists [Fin za]. split; [constructor; [intros []|constructor]|].
      split; auto. intros x [<-|[]]. exact Hunit. }
  assert (r * r < 2 * (a * a) /\ a * a <= r * r)%Q as [Hr2 Hr1].
  { destruct (Hrad r eq_refl) as [mx [mn [E [Hmx [Hmx' [Hmn Hmn']]]]]].
    assert (mx = za) as ->.
    { specialize (Hmx' 0 0 za ltac:(cbn; lia) ltac:(cbn; lia) ltac:(apply Hfirst; auto)).
      destruct Hmx as [->|[x [y [Hx [Hy Hxy]]]]]; [lia|]. destruct x as [|x], y as [|y]; cbn in Hx, Hy; try lia. apply Hfirst in Hxy. congruence. }
    assert (mn = za) as ->.
    { specialize (Hmn' 0 0 za ltac:(cbn; lia) ltac:(cbn; lia) Hunit). destruct Hmn as [x [y [Hx [Hy Hxy]]]].
      destruct x as [|x], y as [|y]; cbn in Hx, Hy; try lia. apply Hocc in Hxy. destruct Hxy as [z [Ez Hz]]. injection Ez as <-. lia. }
    destruct HV as [Ha0 _]. apply (radius_small a za r); auto. }
  (* the sites *)
  assert (forall r, In r [r0] -> length r = d) as HRl by (intros r' [<-|[]]; auto).
  destruct (C31_indices_and_positions_aligned _ _ _ _ _ _ _ _ _ _ Hb Hnorms HRl EI) as [Hlen [Hal _]]. fold d in Hal.
  assert (forall k, k < length P -> exists n p, nth_error I k = Some (n ++ [0%Z]) /\ nth_error P k = Some p /\ length n = d /\
            same p (lattice_point d (b_mat (st_basis s)) r0 n)) as Hsite.
  { intros k Hk. destruct (nth_error_lt I k) as [i Hi]; [lia|]. destruct (nth_error_lt P k) as [p Hp]; [lia|].
    destruct (Hal k i p Hi Hp) as [n [[|[|c]] [r' [-> [Hn [Hr' Hsame]]]]]]; cbn in Hr'; try discriminate.
    injection Hr' as <-. exists n, p. auto. }
  assert (forall i j n m p q, nth_error I i = Some (n ++ [0%Z]) -> nth_error I j = Some (m ++ [0%Z]) -> nth_error P i = Some p -> nth_error P j = Some q ->
            (sqdist p q == a * a * inject_Z (zs d (fun k => nth k (nth j I []) 0 - nth k (nth i I []) 0)%Z))%Q) as Hsq.
  { intros i j n m p q Hi Hj Hp Hq'. destruct (Hal i _ p Hi Hp) as [n' [c [r' [E1 [Hn [Hr' S1]]]]]]. destruct (Hal j _ q Hj Hq') as [m' [c' [r'' [E2 [Hm [Hr'' S2]]]]]].
    apply app_inj_tail in E1. apply app_inj_tail in E2. destruct E1 as [<- E1], E2 as [<- E2].
    assert (c = 0 /\ c' = 0) as [-> ->] by lia. cbn in Hr', Hr''. injection Hr' as <-. injection Hr'' as <-.
    rewrite (sqdist_veq p q _ _ (proj1 (same_veq _ _) S1) (proj1 (same_veq _ _) S2)), (point_sq d _ a HV r0 n m Hr0).
    rewrite (zs_ext d _ (fun k => nth k (nth j I []) 0 - nth k (nth i I []) 0)%Z); [reflexivity|].
    intros k Hk. rewrite (nth_of_nth_error _ _ _ _ Hi), (nth_of_nth_error _ _ _ _ Hj). rewrite !nth_app_cell by lia. reflexivity. }
  set (gap := fun i j => zs d (fun k => nth k (nth j I []) 0 - nth k (nth i I []) 0)%Z).
  assert (forall i j p q, nth_error P i = Some p -> nth_error P j = Some q -> (sqdist p q == a * a * inject_Z (gap i j))%Q) as Hgap.
  { intros i j p q Hp Hq'. destruct (Hsite i (nth_error_length_lt _ _ _ Hp)) as [n [_ [Hi _]]]. destruct (Hsite j (nth_error_length_lt _ _ _ Hq')) as [m [_ [Hj _]]].
    exact (Hsq i j n m p q Hi Hj Hp Hq'). }
  pose proof (C33_no_site_twice _ _ _ _ _ _ _ _ _ _ Hb Hnorms HRl EI) as HNI.
  assert (forall i j, i < length P -> j < length P -> (forall k, k < d -> nth k (nth j I []) 0%Z = nth k (nth i I []) 0%Z) -> i = j) as Hinj.
  { intros i j Hi Hj H. destruct (Hsite i Hi) as [n [_ [Ei [_ [Hn _]]]]]. destruct (Hsite j Hj) as [m [_ [Ej [_ [Hm _]]]]].
    rewrite (nth_of_nth_error _ _ _ _ Ei), (nth_of_nth_error _ _ _ _ Ej) in H.
    assert (n = m) as <-.
    { apply (list_eq_nth _ _ 0%Z); [lia|]. intros k Hk. specialize (H k ltac:(lia)). rewrite !nth_app_cell in H by lia. auto. }
    rewrite NoDup_nth_error in HNI. apply HNI; [lia|congruence]. }
  assert (forall i j, i < length P -> j < length P -> i <> j -> (1 <= gap i j)%Z) as Hone.
  { intros i j Hi Hj Hij. pose proof (zs_nonneg d (fun k => nth k (nth j I []) 0 - nth k (nth i I []) 0)%Z) as H. fold (gap i j) in H.
    destruct (Z.eq_dec (gap i j) 0) as [E|E]; [|lia]. exfalso. apply Hij. apply Hinj; auto. intros k Hk. pose proof (zs_zero d _ E k Hk) as E'. cbv beta in E'. lia. }
  assert (0 < a * a)%Q as Haa by (destruct HV as [Ha0 _]; nra).
  assert (forall i j p, nth_error P i = Some p -> within P p (r * r)%Q j -> j < length P /\ (gap i j <= 1)%Z) as Hnear.
  { intros i j p Hp [q [Hq' Hle]]. split; [eapply nth_error_length_lt; eauto|]. rewrite (Hgap i j p q Hp Hq') in Hle.
    apply Znot_gt_le. intro G. assert (2 <= inject_Z (gap i j))%Q by (change 2%Q with (inject_Z 2); rewrite <- Zle_Qle; lia). nra. }
  (* not too many *)
  assert (forall p, In p P -> at_most (query_count an) (within P p (r * r)%Q)) as Hroom.
  { intros p Hp L HL1 HL2. apply In_nth_error in Hp. destruct Hp as [i Hp].
    transitivity (S (length (steps d))).
    - set (diff := fun j => map (fun k => nth k (nth j I []) 0 - nth k (nth i I []) 0)%Z (seq 0 d)).
      assert (forall j k, k < d -> nth k (diff j) 0%Z = (nth k (nth j I []) 0 - nth k (nth i I []) 0)%Z) as Hdiff.
      { intros j k Hk. unfold diff. rewrite (nth_map_in _ _ _ 0) by (rewrite seq_length; auto). rewrite seq_nth by auto. reflexivity. }
      rewrite <- (map_length diff L). change (S (length (steps d))) with (length (repeat 0%Z d :: steps d)).
      apply NoDup_incl_length.
      + apply NoDup_map_in; auto. intros j j' Hj Hj' E. apply Hinj.
        * apply (Hnear i j p Hp). auto.
        * apply (Hnear i j' p Hp). auto.
        * intros k Hk. apply (f_equal (fun v => nth k v 0%Z)) in E. rewrite !Hdiff in E by auto. lia.
      + intros v Hv. apply in_map_iff in Hv. destruct Hv as [j [<- Hj]]. destruct (Hnear i j p Hp (HL2 j Hj)) as [Hj1 Hj2].
        assert (length (diff j) = d) as Hdl by (unfold diff; rewrite map_length, seq_length; auto).
        destruct (Z.eq_dec (gap i j) 0) as [E|E].
        * left. symmetry. apply (list_eq_nth _ _ 0%Z); [rewrite repeat_length; auto|]. intros k Hk. rewrite nth_repeat. rewrite Hdiff by lia.
          apply (zs_zero d _ E k). lia.
        * right. apply In_steps; auto. pose proof (zs_nonneg d (fun k => nth k (nth j I []) 0 - nth k (nth i I []) 0)%Z) as H. fold (gap i j) in H.
          rewrite (zs_ext d _ (fun k => nth k (nth j I []) 0 - nth k (nth i I []) 0)%Z) by (intros; apply Hdiff; auto). fold (gap i j). lia.
    - rewrite Hf2. apply le_n_S. rewrite <- (map_length (fun v => (0, 0, v)) (steps d)). apply NoDup_incl_length.
      + apply NoDup_map_in; [|apply steps_NoDup]. intros v v0 _ _ E. injection E; auto.
      + intros t Ht. apply in_map_iff in Ht. destruct Ht as [v [<- Hv]].
        assert (length v = d) as Hvl.
        { unfold steps in Hv. apply in_flat_map in Hv. destruct Hv as [k [_ [<-|[<-|[]]]]]; apply unit_vector_length. }
        apply In_steps in Hv; auto. apply Hf3. cbn [length]. split; [lia|]. split; [lia|]. split; [eapply step_cells; eauto|].
        exists (Fin za). split; [eapply unit_distance; eauto|apply Hfirst; auto]. }
  (* who is connected *)
  set (allowed := fun x y => among_first (nth y (nth x [[1]] []) 0) (occurs d (b_mat (st_basis s)) [r0] cells x y)).
  assert (forall i, i < length P -> atom_of I i = 0) as Hat.
  { intros i Hi. destruct (Hsite i Hi) as [n [_ [Ei _]]]. unfold atom_of. rewrite (nth_of_nth_error _ _ _ _ Ei), last_last. reflexivity. }
  assert (forall i j x, i < length P -> connected_sites allowed I P i j x <-> j < length P /\ unit_step d (nth i I []) (nth j I []) /\ x = Fin za) as Hconn.
  { intros i j x Hi. rewrite unit_step_sq. fold (gap i j). split.
    - intros [Hij [[p [q [z [Hp [Hq' [-> Hz]]]]]] Hal']]. pose proof (nth_error_length_lt _ _ _ Hq') as Hj. split; auto.
      rewrite (Hat i Hi), (Hat j Hj) in Hal'. unfold allowed in Hal'. cbn [nth] in Hal'. apply Hfirst in Hal'. injection Hal' as ->. split; auto.
      pose proof (Hone i j Hi Hj Hij) as H1. destruct (Z_le_gt_dec (gap i j) 1) as [G|G]; [lia|]. exfalso.
      assert (2 <= inject_Z (gap i j))%Q as G' by (change 2%Q with (inject_Z 2); rewrite <- Zle_Qle; lia).
      destruct Hza as [_ [_ [Hza _]]]. specialize (Hza ltac:(lia)). destruct Hz as [_ [Hz _]]. cbv zeta in *. rewrite (Hgap i j p q Hp Hq') in Hz.
      assert (6 <= inject_Z za)%Q by (change 6%Q with (inject_Z 6); rewrite <- Zle_Qle; lia). nra.
    - intros [Hj [Hg ->]]. destruct (nth_error_lt P i Hi) as [p Hp]. destruct (nth_error_lt P j Hj) as [q Hq']. split; [|split].
      + intros <-. unfold gap in Hg. rewrite zs_all_zero in Hg; [discriminate|]. intros; lia.
      + exists p, q, za. split; auto. split; auto. split; auto. eapply rounds_ext; [|exact Hza]. rewrite (Hgap i j p q Hp Hq'), Hg.
        change (inject_Z 1) with 1%Q. ring.
      + rewrite (Hat i Hi), (Hat j Hj). unfold allowed. cbn [nth]. apply Hfirst. auto. }
  pose proof (connect_sites query argsort norms s s' [[1]] an sh primitive pos check callback I P r Hq Harg Hb Hd Hs Ec Ha Ean) as T.
  cbv zeta in T. rewrite ER in T. fold d in T. specialize (T Hnorms).
  assert (incongruent d (b_mat (st_basis s)) [r0]) as Hinc by (intros [|x] [|y] n Hx Hy _ _; cbn in Hx, Hy; lia).
  destruct (T Hinc EI HI Er Hroom) as [m [cells' [Hm1' [Hm2' [Ecells' C]]]]]. clear T.
  assert (m = 1) as ->.
  { destruct Hm2' as [x [y E]]. specialize (Hm1' 0 0). cbn in Hm1'. destruct x as [|[|x]], y as [|[|y]]; cbn in E; lia. }
  rewrite Ecells in Ecells'. injection Ecells' as <-. fold allowed in C.
  destruct C as (N1 & N2 & N3 & N4 & T & dt & C1 & C2 & C3 & C4 & C5 & C6 & C7).
  - intros [|x] [|y] z Hx Hy; cbn in Hx, Hy; try lia. intro H. apply Hocc in H. destruct H as [z' [-> Hz']]. apply Z.leb_le. lia.
  - exists [Fin za]. split; [cbn; lia|]. intros [|x] [|y] z Hx Hy; cbn in Hx, Hy; try lia. intro H. unfold allowed in H. cbn [nth] in H. apply Hfirst in H. left; auto.
  - right. intros i j p Hij Hp Hw. destruct (Hnear i j p Hp Hw) as [Hj Hg]. exists (Fin za). pose proof (nth_error_length_lt _ _ _ Hp) as Hi.
    apply Hconn; auto. split; auto. split; auto. apply unit_step_sq. fold (gap i j). specialize (Hone i j Hi Hj Hij). lia.
  - split; auto. split; auto. split; auto. split; auto. exists an, r, T, dt. repeat (split; [auto; fail|]). intros i Hi. destruct (C7 i Hi) as [D1 D2].
    split; auto. intros j x. rewrite D2. apply Hconn. auto.
Qed.

(** A hypercubic lattice with one atom and connections to the nearest neighbours: however the sites are selected, two
    of them are neighbours if and only if their cells differ by one in one component, and the distance is [a]. *)
Theorem C72_hypercubic_grid :
  forall query argsort norms s s' l sh primitive pos check callback I P a za,
    correct_tree query -> is_argsort dleb argsort ->
    valid_basis (st_basis s) -> 1 <= b_dim (st_basis s) -> in_step s ->
    length (st_positions s) = 1 -> st_connections s = Some [[1]] -> analyze query s = (s', Ok tt) -> lt_structure l = s' ->
    let d := b_dim (st_basis s) in
    cubic_lattice d (b_mat (st_basis s)) a -> rounds_to_micro (a * a)%Q za -> (6 <= za)%Z ->
    (primitive = true -> length norms = d) -> fitting d sh primitive pos ->
    build_indices (st_basis s) norms (st_positions s) (AShape (build_shape (st_basis s) sh primitive pos)) primitive pos check callback = Ok (I, P) ->
    I <> [] ->
    exists l' dt, build query argsort norms l sh primitive pos check None None callback = (l', Ok tt) /\
      lt_structure l' = s' /\ lt_data l' = Some dt /\ wf dt /\ d_indices dt = I /\ d_positions dt = P /\
      forall i, i < length P -> NoDup (map fst (links dt i)) /\
        forall j x, In (j, x) (links dt i) <-> j < length P /\ unit_step d (nth i I []) (nth j I []) /\ x = Fin za.
Proof.
  intros query argsort norms s s' l sh primitive pos check callback I P a za Hq Harg Hb Hd Hs HR1 Ec Ha El d HV Hza H6 Hnorms Hfit EI HI.
  destruct (grid_sites query argsort norms s s' _ primitive pos check callback I P a za Hq Harg Hb Hd Hs HR1 Ec Ha HV Hza H6 Hnorms EI HI)
    as (En & Ena & Eb & ER & an & r & T & dt & Ean & _ & _ & ET & Edt & _ & Hwf & Edi & Edp & Hlinks).
  set (l1 := mkLattice (lt_structure l) (Some dt) (lt_shape l) (lt_pos l) (lt_axes l) (Some primitive)).
  destruct (update_shape_same l1) as [U1 [U2 _]].
  exists (update_shape l1), dt. split; [|split; [rewrite U1; exact El|split; [exact U2|auto]]].
  assert (shape_ok (st_basis s) sh primitive pos = true) as Hshape by (apply fitting_ok; exact Hfit).
  unfold build, build_tables.
  change (lt_structure (set_data l None)) with (lt_structure l). unfold l1. rewrite El, En, Ena, Eb, ER, Hshape. cbn [negb].
  rewrite EI, Ean, ET, Edt. reflexivity.
Qed.

(** ** The sites of a box on an axis-parallel lattice *)

Lemma box_limits_axis d s i : length s = d -> i < d -> (forall j, j < d -> (0 <= nth j s 0)%Q) ->
  let lim := shape_limits (SBox s (vzero d)) in
  length lim = d /\ (nth i (map fst lim) 0 == 0 /\ nth i (map snd lim) 0 == nth i s 0)%Q.
Proof.
  intros Hs Hi H0 lim. cbn [shape_limits] in lim.
  assert (forall c, In c (box_corners s (vzero d)) -> length c = d) as Hcl by (intros c Hc; apply (corner_length d s (vzero d)); auto; apply repeat_length).
  assert (length lim = d) as Hll by (apply point_limits_length; [apply box_corners_nonempty|auto]).
  split; auto. destruct (nth_error_lt lim i) as [[lo hi] Hn]; [lia|].
  assert (nth i (map fst lim) 0%Q = lo) as -> by (apply nth_of_nth_error; rewrite nth_error_map', Hn; reflexivity).
  assert (nth i (map snd lim) 0%Q = hi) as -> by (apply nth_of_nth_error; rewrite nth_error_map', Hn; reflexivity).
  apply point_limits_spec in Hn. destruct Hn as [[[x [Hx Ex]] Hlo] [[y [Hy Ey]] Hhi]].
  assert (forall z, In z (map (fun p => nth i p 0%Q) (box_corners s (vzero d))) -> (z == 0 \/ z == nth i s 0)%Q) as Hz.
  { intros z Hz. apply in_map_iff in Hz. destruct Hz as [c [<- Hc]]. apply In_box_corners in Hc. destruct Hc as [o [-> Ho]].
    assert (length o = d) as Hol by (apply Forall2_len in Ho; lia).
    assert (nth i o 0 = 0 \/ nth i o 0 = nth i s 0)%Q as Hoi.
    { clear -Ho. revert i. induction Ho as [|a c o s H Ho IH]; intros [|i]; cbn; auto. }
    rewrite nth_vadd by (unfold vzero; rewrite repeat_length; auto). unfold vzero. rewrite nth_repeat.
    destruct Hoi as [E|E]; rewrite E; [left|right]; ring. }
  assert (forall o, Forall2 (fun x s => x = 0%Q \/ x = s) o s -> length o = d ->
            exists z, In z (map (fun p => nth i p 0%Q) (box_corners s (vzero d))) /\ (z == nth i o 0)%Q) as Hex.
  { intros o Ho Hol. exists (nth i (vadd (vzero d) o) 0%Q). split.
    - apply (in_map (fun p => nth i p 0%Q)). apply In_box_corners. exists o. auto.
    - rewrite nth_vadd by (unfold vzero; rewrite repeat_length; auto). unfold vzero. rewrite nth_repeat. ring. }
  destruct (Hex (repeat 0%Q d)) as [z0 [Hz0 Ez0]].
  { clear -Hs. revert s Hs. induction d as [|n IH]; intros [|x s] E; try discriminate; cbn; constructor; auto. }
  { apply repeat_length. }
  destruct (Hex s) as [z1 [Hz1 Ez1]]; auto.
  { clear. induction s; constructor; auto. }
  rewrite nth_repeat in Ez0. pose proof (Hlo _ Hz0). pose proof (Hlo _ Hz1). pose proof (Hhi _ Hz0). pose proof (Hhi _ Hz1).
  specialize (H0 i Hi). destruct (Hz x Hx), (Hz y Hy); lra.
Qed.

(** The cells tried for a box at the origin of an axis-parallel lattice. *)
Lemma axis_box_limits b cs s lower size :
  let d := b_dim b in let f i := Qfloor (nth i s 0 / nth i cs 0)%Q in
  axis_lattice b cs -> 1 <= d -> length lower = d -> length size = d ->
  (forall i, i < d -> (nth i lower 0 == 0)%Q) -> (forall i, i < d -> (nth i size 0 == nth i s 0)%Q) ->
  (forall i, i < d -> (0 <= nth i s 0 /\ nth i s 0 / nth i cs 0 < inject_Z (2 ^ 62))%Q) ->
  (forall i, i < d -> (0 <= f i < 2 ^ 62)%Z) /\ (forall i, i < d -> nth i (nvec_limits b lower size 0) (0, 0)%Z = (-1, f i + 1)%Z) /\
  no_wrap (nvec_limits b lower size 0).
Proof.
  intros d f Hax Hd Hl Hsz Elower Esize Hrange. pose proof Hax as [Hb [Hcs _]]. fold d in Hcs.
  assert (forall i, i < d -> (0 <= f i < 2 ^ 62)%Z) as Hf.
  { intros i Hi. destruct (Hrange i Hi) as [R1 R2]. pose proof (axis_pos b cs Hax i Hi) as R0. unfold f. split.
    - apply (Qfloor_resp_le 0). apply Qle_shift_div_l; lra.
    - rewrite Zlt_Qlt. eapply Qle_lt_trans; [apply Qfloor_le|]. lra. }
  assert (forall i, i < d -> nth i (nvec_limits b lower size 0) (0, 0)%Z = (-1, f i + 1)%Z) as Hlim.
  { intros i Hi. destruct (nvec_range b lower (vadd lower size)) as [lo hi] eqn:E.
    rewrite (nth_nvec_limits b lower size i lo hi) by auto.
    pose proof (range_spec b Hb lower (vadd lower size) Hl) as Hr. rewrite E in Hr.
    destruct Hr as [_ [_ Hr]]; [fold d; rewrite vadd_length; lia|]. destruct (Hr i Hi) as [Hlo [Hhi _]].
    destruct (range_attained b lower size lo hi Hb Hl Hsz E i Hi) as [[p [Hp [Ep Hpp]]] [q [Hq [Eq Hqq]]]].
    pose proof (axis_pos b cs Hax i Hi) as Hc.
    assert (forall p, (nth i p 0 == 0)%Q -> Qfloor (coord b p i) = 0%Z) as Hzero.
    { intros p' E'. apply (Qfloor_comp _ 0). rewrite (axis_coord b cs Hax p' i Hi), E'. field. lra. }
    assert (forall p, (nth i p 0 == nth i lower 0 + nth i size 0)%Q -> Qfloor (coord b p i) = f i) as Hend.
    { intros p' E'. unfold f. apply Qfloor_comp. rewrite (axis_coord b cs Hax p' i Hi), E', Elower, Esize by auto. field. lra. }
    rewrite Hzero in Hlo by auto. rewrite Hend in Hhi by (apply nth_vadd; lia).
    specialize (Hf i Hi).
    assert (nth i lo 0 = 0 \/ nth i lo 0 = f i)%Z as Hlo'.
    { destruct Hpp as [Hpp|Hpp]; specialize (Hpp i Hi).
      - left. rewrite Ep. apply Hzero. rewrite Hpp. auto.
      - destruct Hpp as [Hpp|Hpp]; [left; rewrite Ep; auto|right; rewrite Ep; auto]. }
    assert (nth i hi 0 = 0 \/ nth i hi 0 = f i)%Z as Hhi'.
    { destruct Hqq as [Hqq|Hqq]; specialize (Hqq i Hi).
      - left. rewrite Eq. apply Hzero. rewrite Hqq. auto.
      - destruct Hqq as [Hqq|Hqq]; [left; rewrite Eq; auto|right; rewrite Eq; auto]. }
    f_equal; lia. }
  pose proof (nvec_limits_length b lower size 0 Hb Hl Hsz) as Hlen. fold d in Hlen.
  assert (nvec_limits b lower size 0 <> []) as Hne by (intro E; rewrite E in Hlen; cbn in Hlen; lia).
  assert (forall l, In l (nvec_limits b lower size 0) -> exists i, i < d /\ l = (-1, f i + 1)%Z) as Hlin.
  { intros l Hin. destruct (In_nth _ _ (0, 0)%Z Hin) as [i [Hi <-]]. exists i. split; [lia|]. apply Hlim. lia. }
  split; [exact Hf|]. split; [exact Hlim|]. apply no_wrap_from; auto.
    - exists (2 ^ 62)%Z. split; [|lia]. intros l Hin. destruct (Hlin l Hin) as [i [Hi ->]]. specialize (Hf i Hi). cbn [fst snd]. lia.
    - intros l Hin. destruct (Hlin l Hin) as [i [Hi ->]]. specialize (Hf i Hi). cbn [fst snd]. lia.
Qed.

(** A build by size on an axis-parallel lattice with one atom at the origin: the sites are exactly those in the box. *)
Theorem C72_box_sites :
  forall b norms cs s,
    let d := b_dim b in
    axis_lattice b cs -> 1 <= d -> length s = d ->
    (forall i, i < d -> (1#1000 < nth i cs 0 /\ 0 <= nth i s 0 /\ nth i s 0 / nth i cs 0 < inject_Z (2 ^ 62))%Q) ->
    exists I P, build_indices b norms [repeat 0%Q d] (AShape (build_shape b (ASize s) false None)) false None true None = Ok (I, P) /\
      NoDup I /\
      forall n, In (n ++ [0%Z]) I <->
        length n = d /\ forall i, i < d -> (0 <= nth i n 0)%Z /\ (inject_Z (nth i n 0%Z) * nth i cs 0 <= nth i s 0)%Q.
Proof.
  intros b norms cs s d Hax Hd Hs Hrange. pose proof Hax as [Hb [Hcs _]]. fold d in Hcs.
  assert (forall j, j < d -> (0 <= nth j s 0)%Q) as H0 by (intros j Hj; apply Hrange; auto).
  cbn [build_shape]. rewrite Hs. set (sh := SBox s (vzero d)).
  set (lim := shape_limits sh).
  assert (length lim = d) as Hll by (destruct (box_limits_axis d s 0 Hs) as [H _]; auto).
  set (lower := map fst lim). set (size := vsub (map snd lim) (map fst lim)).
  assert (length lower = d) as Hl by (unfold lower; rewrite map_length; auto).
  assert (length size = d) as Hsz by (unfold size; rewrite vsub_length; rewrite !map_length; auto).
  assert (forall i, i < d -> (nth i lower 0 == 0)%Q) as Elower.
  { intros i Hi. destruct (box_limits_axis d s i Hs Hi H0) as [_ [H _]]. exact H. }
  assert (forall i, i < d -> (nth i size 0 == nth i s 0)%Q) as Esize.
  { intros i Hi. unfold size. rewrite nth_vsub by (rewrite !map_length; auto).
    assert (nth i (map fst lim) 0 == 0 /\ nth i (map snd lim) 0 == nth i s 0)%Q as [E1 E2] by apply (box_limits_axis d s i Hs Hi H0).
    rewrite E1, E2. ring. }
  set (f := fun i => Qfloor (nth i s 0 / nth i cs 0)%Q).
  destruct (axis_box_limits b cs s lower size Hax Hd Hl Hsz Elower Esize) as [Hf [Hlim [w [Hw Hext]]]]; [intros i Hi; split; apply Hrange; auto|].
  cbv beta zeta in Hf, Hlim.
  assert (forall i, i < d -> (0 <= f i < 2 ^ 62)%Z) as Hf' by exact Hf. clear Hf. rename Hf' into Hf.
  assert (forall i, i < d -> nth i (nvec_limits b lower size 0) (0, 0)%Z = (-1, f i + 1)%Z) as Hlim' by exact Hlim. clear Hlim. rename Hlim' into Hlim.
  pose proof (nvec_limits_length b lower size 0 Hb Hl Hsz) as Hlen. fold d in Hlen.
  assert (nvec_limits b lower size 0 <> []) as Hne by (intro E; rewrite E in Hlen; cbn in Hlen; lia).
  assert (forall l, In l (nvec_limits b lower size 0) -> exists i, i < d /\ l = (-1, f i + 1)%Z) as Hlin.
  { intros l Hin. destruct (In_nth _ _ (0, 0)%Z Hin) as [i [Hi <-]]. exists i. split; [lia|]. apply Hlim. lia. }
  destruct (C16_vindices_enumerates_the_grid (nvec_limits b lower size 0) (Some 0) w Hne) as [cells [Ec [Hnd [Hcells _]]]]; auto.
  { intros l Hin. destruct (Hlin l Hin) as [i [Hi ->]]. specialize (Hf i Hi). cbn [fst snd]. lia. }
  { intros a Ea. injection Ea as <-. lia. }
  assert (build_translation_vectors b norms (AShape sh) false None false 0 = Ok cells) as Ebt.
  { rewrite build_cells_eq. unfold requested_box. fold lim. fold lower. fold size.
    change (vsub (map snd lim) lower) with size. cbv beta iota zeta.
    fold d. rewrite (proj2 (Nat.eqb_eq _ _) Hl), (proj2 (Nat.eqb_eq _ _) Hsz). cbn [negb]. rewrite Ec. reflexivity. }
  destruct (checked_members b norms [repeat 0%Q d] (AShape sh) false None (fun p => shape_contains sh p (1#1000) = true) cells Hb) as [I [P [EI HI]]]; auto.
  - discriminate.
  - intros r [<-|[]]. apply repeat_length.
  - discriminate.
  - intros p q Hp Hv. rewrite (contains_veq d sh p q); [reflexivity| |auto|auto]. left. exists s, (vzero d).
    split; [|split; [auto|apply repeat_length]]. cbn. split; auto.
  - intros points _. cbn [check_points]. eexists. split; [reflexivity|]. rewrite map_length. split; auto. intros k p Hk.
    rewrite (nth_of_nth_error _ _ _ (shape_contains sh p (1#1000))); [reflexivity|]. unfold vec. rewrite nth_error_map', Hk. reflexivity.
  - exists I, P. split; auto.
    split; [eapply C33_no_site_twice; [exact Hb| | |exact EI]; [discriminate|intros r [<-|[]]; apply repeat_length]|].
    intro n. specialize (HI n 0 (repeat 0%Q d) eq_refl). change (Z.of_nat 0) with 0%Z in HI. rewrite HI. clear HI.
    rewrite Hcells, in_limits_nth, Hlen.
    assert (length n = d -> (shape_contains sh (lattice_point d (b_mat b) (repeat 0%Q d) n) (1#1000) = true <->
              forall i, i < d -> (- (1#1000) <= inject_Z (nth i n 0%Z) * nth i cs 0 <= nth i s 0 + (1#1000))%Q)) as Hcont.
    { intro Hn. cbn [shape_contains sh].
      rewrite (box_contains_spec d) by (auto; try apply repeat_length; apply lattice_point_length).
      assert (forall i, i < d -> (nth i (lattice_point d (b_mat b) (repeat 0%Q d) n) 0 == inject_Z (nth i n 0%Z) * nth i cs 0)%Q) as Ei.
      { intros i Hi. rewrite nth_lattice_point by auto. rewrite nth_repeat.
        rewrite (sum_ext d _ (fun k => nth i cs 0 * (delta i k * inject_Z (nth k n 0%Z)))%Q).
        - rewrite sum_scale, sum_delta by auto. ring.
        - intros k Hk. rewrite (axis_entry b cs Hax) by auto. ring. }
      unfold vzero. split; intros H i Hi; specialize (H i Hi); rewrite Ei in * by auto; rewrite nth_repeat in *; lra. }
    split.
    + intros [[Hn Hc] Hp]. split; auto. pose proof (proj1 (Hcont Hn) Hp) as Hp'. clear Hp. rename Hp' into Hp. intros i Hi. specialize (Hp i Hi). specialize (Hc i Hi).
      rewrite (Hlim i Hi) in Hc. cbn [fst snd] in Hc. destruct (Hrange i Hi) as [R0 [R1 R2]]. split.
      * destruct (Z.eq_dec (nth i n 0%Z) (-1)) as [E|]; [|lia]. rewrite E in Hp. change (inject_Z (-1)) with (-1)%Q in Hp. lra.
      * assert (inject_Z (nth i n 0%Z) <= nth i s 0 / nth i cs 0)%Q as H
          by (apply (Qle_trans _ (inject_Z (f i))); [rewrite <- Zle_Qle; lia|apply Qfloor_le]).
        apply (Qmult_le_compat_r _ _ (nth i cs 0%Q)) in H; [|lra]. assert (nth i s 0 / nth i cs 0 * nth i cs 0 == nth i s 0)%Q as E by (field; lra). lra.
    + intros [Hn H]. split; [split; auto|].
      * intros i Hi. rewrite (Hlim i Hi). cbn [fst snd]. destruct (H i Hi) as [H1 H2]. destruct (Hrange i Hi) as [R0 [R1 R2]].
        assert (nth i n 0 <= f i)%Z; [|lia]. apply floor_ge. apply Qle_shift_div_l; lra.
      * apply (Hcont Hn). intros i Hi. destruct (H i Hi) as [H1 H2]. destruct (Hrange i Hi) as [R0 [R1 R2]]. split; [|lra].
        rewrite Zle_Qle in H1. change (inject_Z 0) with 0%Q in H1. nra.
Qed.

(** The number of sites of a grid. *)
Lemma grid_count d (f : nat -> Z) (I : list (list Z)) :
  NoDup I -> (forall i, i < d -> (0 <= f i)%Z) ->
  (forall site, In site I <-> exists n, site = n ++ [0%Z] /\ length n = d /\ forall i, i < d -> (0 <= nth i n 0 < f i)%Z) ->
  Z.of_nat (length I) = times d f.
Proof.
  intros Hnd Hf HI. set (ls := map (fun i => zrange 0 (f i)) (seq 0 d)).
  assert (length ls = d) as Hls by (unfold ls; rewrite map_length, seq_length; auto).
  assert (forall i, i < d -> nth i ls [] = zrange 0 (f i)) as Hnth.
  { intros i Hi. unfold ls. rewrite (nth_map_in _ _ _ 0) by (rewrite seq_length; auto). rewrite seq_nth by auto. reflexivity. }
  assert (forall n, In n (product ls) <-> length n = d /\ forall i, i < d -> (0 <= nth i n 0 < f i)%Z) as Hprod.
  { intro n. rewrite In_product. rewrite <- Hls at 1. rewrite <- Hls. split.
    - intro H. assert (length n = length ls) as Hn by (apply (Forall2_len H)). split; auto. intros i Hi.
      specialize (Hnth i). rewrite Hls in Hi. specialize (Hnth Hi). rewrite <- In_zrange, <- Hnth. clear -H Hi Hls.
      rewrite <- Hls in Hi. clear Hls. revert i Hi. induction H as [|x l n ls Hx H IH]; intros i Hi; [cbn in Hi; lia|]. destruct i as [|i]; cbn; auto.
      apply IH. cbn in Hi. lia.
    - intros [Hn H]. assert (forall i, i < length ls -> In (nth i n 0%Z) (nth i ls [])) as H'.
      { intros i Hi. rewrite Hnth by lia. apply In_zrange. apply H. exact Hi. }
      clear -Hn H'. revert n Hn H'. induction ls as [|l ls IH]; intros [|x n] Hn H'; try discriminate; constructor.
      + apply (H' 0). cbn. lia.
      + apply IH; [cbn in Hn; lia|]. intros i Hi. apply (H' (S i)). cbn. lia. }
  assert (Permutation I (map (fun n => n ++ [0%Z]) (product ls))) as Hperm.
  { apply NoDup_Permutation; auto.
    - apply FinFun.Injective_map_NoDup.
      + intros u v H. apply app_inj_tail in H. apply H.
      + apply NoDup_product. apply Forall_forall. intros l Hl. unfold ls in Hl. apply in_map_iff in Hl. destruct Hl as [i [<- _]]. apply NoDup_zrange.
    - intro site. rewrite HI, in_map_iff. split.
      + intros [n [-> H]]. exists n. split; auto. apply Hprod. auto.
      + intros [n [<- H]]. apply Hprod in H. exists n. auto. }
  rewrite (Permutation_length Hperm), map_length, product_count, Hls. apply times_ext. intros i Hi. rewrite Hnth by auto.
  rewrite zrange_length, Z.sub_0_r. apply Z2Nat.id. auto.
Qed.

(** ** The finite hypercubic lattice *)

Lemma hypercubic_preset query inv d a at_ : 1 <= d -> valid_basis (hypercubic inv d a) ->
  exists s s', st_basis s = hypercubic inv d a /\ st_positions s = [repeat 0%Q d] /\ st_connections s = Some [[1]] /\ in_step s /\
    analyze query s = (s', Ok tt) /\ preset query (hypercubic inv d a) [(None, at_)] 1 = Ok s'.
Proof.
  intros Hd Hb. set (b := hypercubic inv d a) in *. assert (b_dim b = d) as Hbd by apply hypercubic_dim.
  set (s := mkStructure b [at_] [repeat 0%Q d] false (Some [[1]]) (st_analysis (new_structure b))).
  assert (in_step s) as Hs.
  { split; [reflexivity|]. split; [intros r [<-|[]]; cbn [st_basis s]; rewrite repeat_length; auto|]. split.
    - intros [|i] [|j] r r' Hij; cbn; try lia; intros _ E; try (destruct j; discriminate).
    - split; auto. split; [intros row [<-|[]]; reflexivity|]. intros [|[|i]] [|[|j]]; reflexivity. }
  destruct (analyze query s) as [s' res] eqn:Ea.
  assert (res = Ok tt) as ->.
  { destruct (C28_analyze_outcome query s Hb ltac:(cbn [st_basis s]; lia) Hs) as [_ [_ H]]. cbv zeta in H. rewrite Ea in H. apply H.
    split; [discriminate|]. intro Z. specialize (Z [[1]] 0 0 eq_refl). discriminate. }
  exists s, s'. split; auto. split; auto. split; auto. split; auto. split; auto.
  unfold preset. cbn [add_atoms]. unfold add_atom. cbn [new_structure st_basis st_positions st_atoms st_frozen existsb app].
  unfold vzero at 1. rewrite repeat_length, Nat.eqb_refl. cbn [negb Nat.eqb length repeat]. unfold add_connections. cbn [st_connections map].
  match goal with |- context [analyze query ?x] => change x with (mkStructure b [at_] [repeat 0%Q (b_dim b)] false (Some [[1]]) (st_analysis (new_structure b))) end.
  rewrite Hbd. fold s. rewrite Ea. reflexivity.
Qed.

(** The lattice of finite_hypercubic with connections to the nearest neighbours: always built; the sites are those of a
    d-dimensional grid, one cell per lattice constant along every axis (for primitive builds see C62), and the
    neighbours are those of the grid graph. *)
Theorem C72_finite_hypercubic_is_a_grid :
  forall query argsort inv s a at_ za primitive,
    let d := length s in
    let cells i := if primitive : bool then cells_along (nth i s 0%Q) a else (Qfloor (nth i s 0 / a)%Q + 1)%Z in
    correct_tree query -> is_argsort dleb argsort -> 1 <= d -> valid_basis (hypercubic inv d a) -> (1#1000 < a)%Q ->
    rounds_to_micro (a * a)%Q za ->
    (forall i, i < d -> (0 <= nth i s 0 /\ nth i s 0 / a < inject_Z (2 ^ 62))%Q) ->
    (primitive = true -> forall i, i < d -> (1#10 <= nth i s 0 * a < inject_Z (2 ^ 62))%Q) ->
    exists l dt, finite_hypercubic query argsort inv (ASize s) a at_ 1 primitive None = Ok l /\ lt_data l = Some dt /\ wf dt /\
      Z.of_nat (length (d_indices dt)) = times d cells /\ NoDup (d_indices dt) /\
      (forall site, In site (d_indices dt) <-> exists n, site = n ++ [0%Z] /\ length n = d /\ forall i, i < d -> (0 <= nth i n 0 < cells i)%Z) /\
      forall i, i < length (d_indices dt) -> NoDup (map fst (links dt i)) /\
        forall j x, In (j, x) (links dt i) <->
          j < length (d_indices dt) /\ unit_step d (nth i (d_indices dt) []) (nth j (d_indices dt) []) /\ x = Fin za.
Proof.
  intros query argsort inv s a at_ za primitive d cells Hq Harg Hd Hb Ha Hza Hrange Hprim.
  destruct (hypercubic_preset query inv d a at_ Hd Hb) as [st [st' [Hsb [Hsp [Hsc [Hst [Han Hpre]]]]]]].
  assert (0 < a)%Q as Ha0 by lra.
  pose proof (hypercubic_axis inv d a Ha0 Hb) as Hax. pose proof (hypercubic_dim inv d a) as Hbd.
  set (b := hypercubic inv d a) in *.
  assert (forall i, i < d -> (nth i (repeat (Qabs a) d) 0 == a)%Q) as Hcs.
  { intros i Hi. rewrite (nth_error_nth (repeat (Qabs a) d) i 0%Q (x := Qabs a)); [apply Qabs_pos; lra|]. apply nth_error_repeat. auto. }
  assert (6 <= za)%Z as H6.
  { destruct Hza as [Z0 [Hza _]]. cbv zeta in Hza. apply Znot_gt_le. intro G.
    assert (inject_Z za <= 5)%Q as G' by (change 5%Q with (inject_Z 5); rewrite <- Zle_Qle; lia).
    rewrite Zle_Qle in Z0. change (inject_Z 0) with 0%Q in Z0. nra. }
  assert (exists I P, build_indices b (repeat (Qabs a) d) [repeat 0%Q d] (AShape (build_shape b (ASize s) primitive None)) primitive None true None = Ok (I, P) /\
            NoDup I /\ forall n, In (n ++ [0%Z]) I <-> length n = d /\ forall i, i < d -> (0 <= nth i n 0 < cells i)%Z) as [I [P [EI [HN HI]]]].
  { destruct primitive.
    - destruct (C62_primitive_sites b (repeat (Qabs a) d) s Hax) as [I [P [E [Hnd HI]]]].
      + lia.
      + auto.
      + rewrite Hbd. intros i Hi. rewrite (Hcs i Hi). split; [apply Hrange; auto|apply Hprim; auto].
      + rewrite Hbd in *. exists I, P. split; auto. split; auto. intro n. rewrite HI.
        assert (forall i, i < d -> cells_along (nth i s 0%Q) (nth i (repeat (Qabs a) d) 0%Q) = cells i) as Hca.
        { intros i Hi. unfold cells, cells_along. rewrite (Qfloor_comp (nth i s 0 * nth i (repeat (Qabs a) d) 0 - (1#10))%Q (nth i s 0 * a - (1#10))%Q); [reflexivity|].
          rewrite (Hcs i Hi). reflexivity. }
        split; intros [Hn H]; (split; [exact Hn|]); intros i Hi; specialize (H i Hi).
        * rewrite <- !floor_ge in H. rewrite <- (Hca i Hi). unfold cells_along. lia.
        * rewrite <- (Hca i Hi) in H. unfold cells_along in H. rewrite <- !floor_ge. lia.
    - destruct (C72_box_sites b (repeat (Qabs a) d) (repeat (Qabs a) d) s Hax) as [I [P [E [Hnd HI]]]].
      + lia.
      + auto.
      + rewrite Hbd. intros i Hi. rewrite (Hcs i Hi). split; auto.
      + rewrite Hbd in *. exists I, P. split; auto. split; auto. intro n. rewrite HI.
        assert (forall i, i < d -> (inject_Z (nth i n 0%Z) * nth i (repeat (Qabs a) d) 0 <= nth i s 0)%Q <-> (nth i n 0 < cells i)%Z) as Hca.
        { intros i Hi. unfold cells. fold (Z.succ (Qfloor (nth i s 0 / a)%Q)). rewrite (Hcs i Hi), Z.lt_succ_r, floor_ge. split; intro H.
          - apply Qle_shift_div_l; lra.
          - apply (Qmult_le_compat_r _ _ a) in H; [|lra]. assert (nth i s 0 / a * a == nth i s 0)%Q as E' by (field; lra). lra. }
        split; intros [Hn H]; (split; [exact Hn|]); intros i Hi; specialize (H i Hi); rewrite Hca in * by auto; tauto. }
  assert (forall i, i < d -> (1 <= cells i)%Z) as Hcells.
  { intros i Hi. unfold cells. destruct (Hrange i Hi) as [R1 R2]. destruct primitive.
    - unfold cells_along. assert (0 <= Qfloor (nth i s 0 + (1#1000))%Q)%Z by (apply floor_ge; change (inject_Z 0) with 0%Q; lra).
      assert (0 <= Qfloor (nth i s 0 * a - (1#10))%Q)%Z; [|lia]. destruct (Hprim eq_refl i Hi). apply floor_ge; change (inject_Z 0) with 0%Q; lra.
    - assert (0 <= Qfloor (nth i s 0 / a)%Q)%Z; [|lia]. apply floor_ge. change (inject_Z 0) with 0%Q. apply Qle_shift_div_l; lra. }
  assert (I <> []) as HI0.
  { intro E. assert (In (repeat 0%Z d ++ [0%Z]) I) as Hin; [|rewrite E in Hin; destruct Hin]. apply HI. split; [apply repeat_length|].
    intros i Hi. rewrite nth_repeat. specialize (Hcells i Hi). lia. }
  assert (forall site, In site I <-> exists n, site = n ++ [0%Z] /\ length n = d /\ forall i, i < d -> (0 <= nth i n 0 < cells i)%Z) as HI'.
  { intro site. split.
    - intro Hin. destruct (In_nth_error _ _ Hin) as [k Hk].
      destruct (C31_indices_and_positions_aligned b (repeat (Qabs a) d) [repeat 0%Q d] (AShape (build_shape b (ASize s) primitive None)) primitive None true None I P Hb) as [Hl [Hal _]]; auto.
      { intros _. rewrite repeat_length. auto. }
      { intros r [<-|[]]. rewrite repeat_length. auto. }
      { destruct (nth_error_lt P k) as [p Hp]; [rewrite <- Hl; apply nth_error_length_lt in Hk; exact Hk|].
        destruct (Hal k site p Hk Hp) as [n [c [r [-> [_ [Hc _]]]]]]. destruct c as [|c]; [|destruct c; discriminate].
        exists n. split; auto. apply HI. exact Hin. }
    - intros [n [-> H]]. apply HI. exact H. }
  destruct (C72_hypercubic_grid query argsort (repeat (Qabs a) d) st st' (new_lattice st') (ASize s) primitive None true None I P a za) as [l [dt [Eb [_ [Edt [Hwf [Edi [Edp Hlinks]]]]]]]]; auto.
  - rewrite Hsb. auto.
  - rewrite Hsb. lia.
  - rewrite Hsp. reflexivity.
  - rewrite Hsb, Hbd. split; auto. intros i j Hi Hj. apply hypercubic_entry; auto.
  - intros _. rewrite Hsb, repeat_length. auto.
  - rewrite Hsb, Hbd. split; [discriminate|]. intros _. reflexivity.
  - rewrite Hsb, Hsp. exact EI.
  - exists l, dt. split.
    { unfold finite_hypercubic. fold d. fold b. rewrite Hpre, Eb. reflexivity. }
    split; auto. split; auto. rewrite Edi. split; [apply grid_count; auto; intros i Hi; specialize (Hcells i Hi); lia|]. split; auto. split; auto.
    assert (length I = length P) as Hlen.
    { destruct (C31_indices_and_positions_aligned b (repeat (Qabs a) d) [repeat 0%Q d] (AShape (build_shape b (ASize s) primitive None)) primitive None true None I P Hb) as [Hl _]; auto.
      - intros _. rewrite repeat_length. auto.
      - intros r [<-|[]]. rewrite repeat_length. auto. }
    rewrite Hsb, Hbd in Hlinks. rewrite Hlen. exact Hlinks.
Qed.

(** The neighbours of all sites. *)
Definition links_of (r : result lattice) : option (list (list (nat * dist))) :=
  match r with
  | Ok l => match lt_data l with Some dt => Some (map (links dt) (seq 0 (length (d_indices dt)))) | None => None end
  | Raise _ => None
  end.

(** Six sites, 3 x 2 with constant 3/2: the graph is a ladder of two squares. *)
Example C72_example :
  correct_tree brute /\ is_argsort dleb dist_argsort /\ valid_basis (hypercubic diagonal_inverse 2 (3#2)) /\
  rounds_to_micro ((3#2) * (3#2))%Q 1500000 /\
  (forall i, i < 2 -> (0 <= nth i [3; 2] 0 /\ nth i [3; 2] 0 / (3#2) < inject_Z (2 ^ 62))%Q) /\
  sites_of (finite_hypercubic brute dist_argsort diagonal_inverse (ASize [3; 2]%Q) (3#2) (ex_atom "A") 1 false None) =
    [[0; 0; 0]; [0; 1; 0]; [1; 0; 0]; [1; 1; 0]; [2; 0; 0]; [2; 1; 0]]%Z /\
  option_map (map (map fst)) (links_of (finite_hypercubic brute dist_argsort diagonal_inverse (ASize [3; 2]%Q) (3#2) (ex_atom "A") 1 false None)) =
    Some [[1; 2]; [0; 3]; [0; 3; 4]; [1; 2; 5]; [2; 5]; [3; 4]] /\
  unit_step 2 [1; 0; 0]%Z [2; 0; 0]%Z /\ ~ unit_step 2 [1; 0; 0]%Z [2; 1; 0]%Z.
Proof.
  split; [exact brute_nearest|]. split; [exact dist_argsort_ok|]. split; [apply C62_example|]. split; [|split; [|split; [|split; [|split]]]].
  - change 1500000%Z with (sqrt_micro ((3#2) * (3#2))). apply sqrt_micro_rounds. lra.
  - intros [|[|i]] Hi; [| |lia]; vm_compute; split; congruence.
  - vm_compute. reflexivity.
  - vm_compute. reflexivity.
  - exists 0. split; [lia|]. split; [reflexivity|]. intros [|[|k]] Hk; try lia. reflexivity.
  - intros [[|[|k]] [Hk [H1 H2]]]; [|cbn in *|lia].
    + specialize (H2 1 ltac:(lia) ltac:(lia)). discriminate.
    + specialize (H2 0 ltac:(lia) ltac:(lia)). discriminate.
Qed.

Print Assumptions C72_hypercubic_grid.
Print Assumptions C72_box_sites.
Print Assumptions C72_finite_hypercubic_is_a_grid.
