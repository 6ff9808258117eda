(** * Property C85 (lattpy/lattice.py: periodic boundary conditions of a hypercubic lattice) *)
From Coq Require Import String List ZArith QArith Qabs Qround Bool Arith Lia Lqa Permutation Sorting.Sorted.
From Verif Require Import Np NpFacts LinAlg LinFacts SpecUtils UtilsModel SpecBasis AtomModel BasisModel BasisProofs PropBasis SpatialModel SpecSpatial SpatialProofs SpecStructure ShapeModel StructureModel KDBrute RoundFacts StructureFacts
  AnalyzeProofs PropAnalyze SpecNeighbors SpecLattice DataModel SpecData DataFacts DataProofs DataOps DataAppend LatticeModel LatticeExamples SpecGrid GridProofs PropMinDist RepeatProofs PropRepeat SpecSeam PropSeam SpecJoin JoinProofs BoxProofs
  StructureProofs PropStructure PropData SpecBuild ShapeProofs BuildProofs PropBuild NeighborProofs RangeProofs PropFailed PropBuilt PresetModel PropPrimitive PropGrid PropCells PropJoin PropExtend PropPeriodic SpecTorus TorusProofs.
Import ListNotations.
Open Scope nat_scope.
Open Scope list_scope.

Lemma partition_NoDup {A B} (f : A -> B) (p : A -> bool) l : NoDup (map f (filter p l)) -> NoDup (map f (filter (fun x => negb (p x)) l)) ->
  (forall x y, In x l -> In y l -> p x = true -> p y = false -> f x <> f y) -> NoDup (map f l).
Proof.
  induction l as [|x l IH]; intros H1 H2 H; [constructor|]. cbn [map filter] in *.
  assert (NoDup (map f l)) as HN.
  { apply IH; [destruct (p x); auto; inversion H1; auto|destruct (p x); auto; inversion H2; auto|]. intros; apply H; auto; right; auto. }
  constructor; auto. intro Hin. apply in_map_iff in Hin. destruct Hin as [y [E Hy]]. destruct (p x) eqn:Ex.
  - cbn [map] in H1. inversion H1 as [|? ? N1 _]; subst. destruct (p y) eqn:Ey.
    + apply N1. rewrite <- E. apply in_map. apply filter_In. auto.
    + apply (H x y (or_introl eq_refl) (or_intror Hy) Ex Ey). auto.
  - cbn [negb map] in H2. inversion H2 as [|? ? N2 _]; subst. destruct (p y) eqn:Ey.
    + apply (H y x (or_intror Hy) (or_introl eq_refl) Ey Ex). auto.
    + apply N2. rewrite <- E. apply in_map. apply filter_In. rewrite Ey. auto.
Qed.

Lemma regular_all dt i : (forall s, In s (slots dt i) -> s_per s = false) -> regular_links dt i = links dt i.
Proof.
  intro H. unfold regular_links. assert (filter (fun s => negb (s_per s)) (slots dt i) = slots dt i) as ->.
  { revert H. induction (slots dt i) as [|s l IH]; intro H; cbn [filter]; auto. rewrite (H s (or_introl eq_refl)). cbn [negb]. f_equal. apply IH. intros; apply H; right; auto. }
  unfold slots, links. rewrite map_map. reflexivity.
Qed.

Lemma neighbors_links dt i : wf dt -> i < nsites dt -> get_neighbors dt i None None false = Some (map fst (links dt i)).
Proof.
  intros W Hi. rewrite get_neighbors_wf by auto. f_equal. unfold links, valid_slots. rewrite map_map.
  rewrite (filter_ext (selects dt i None None false) (valid dt i)) by (intro c; unfold selects; rewrite !andb_true_r; auto). reflexivity.
Qed.

Lemma links_slots dt i : map fst (links dt i) = map s_nbr (slots dt i).
Proof. unfold links, slots. rewrite !map_map. reflexivity. Qed.

(** What [remove_periodic] makes of data without periodic neighbours. *)
Lemma cleared d a za r0 C m dt : grid_data d a za r0 C m dt -> let d0 := remove_periodic dt in
  call_remove_periodic dt = Some d0 /\ wf d0 /\ layered d0 /\ forall i, i < nsites dt -> links d0 i = links dt i /\ regular_links d0 i = links dt i.
Proof.
  intros G d0. pose proof (gd_wf _ _ _ _ _ _ _ G) as W. destruct (remove_periodic_spec dt W) as [W0 H0]. fold d0 in W0, H0.
  assert (forall i c, i < nsites dt -> c < d_cols dt -> pm dt i c = false) as Hpm.
  { intros i c Hi Hc. destruct (pm dt i c) eqn:E; auto. pose proof (wf_pm _ W i c Hi Hc E) as Hv.
    rewrite <- E. apply (gd_regular _ _ _ _ _ _ _ G i Hi (slot_at dt i c)). unfold slots. apply in_map. unfold valid_slots. apply filter_In. split; auto. apply in_seq. lia. }
  split; [|split; [auto|split]].
  - unfold call_remove_periodic. rewrite (proj1 (wf_pmask _ W)), (proj1 (wf_neighbors _ W)), Nat.eqb_refl. reflexivity.
  - intros i Hi. destruct (gd_packed _ _ _ _ _ _ _ G i Hi) as [r [Hr Hv]]. exists r, r. split; [lia|]. split; auto. intros c Hc.
    change (d_cols d0) with (d_cols dt) in Hc. destruct (H0 i c Hi Hc) as [_ [_ [V0 [P0 _]]]]. rewrite V0, P0, Hpm, Hv by auto. split; auto.
    destruct (Nat.leb_spec r c), (Nat.ltb_spec c r); cbn; auto; lia.
  - intros i Hi. assert (links d0 i = links dt i) as E.
    { etransitivity; [exact (remove_periodic_links dt i W Hi)|]. apply regular_all. apply (gd_regular _ _ _ _ _ _ _ G i Hi). }
    split; auto. rewrite <- E. apply regular_all. intros s Hs. unfold slots in Hs. apply in_map_iff in Hs. destruct Hs as [c [<- Hc]].
    unfold valid_slots in Hc. apply filter_In in Hc. destruct Hc as [Hc _]. apply in_seq in Hc. change (d_cols d0) with (d_cols dt) in Hc. apply (H0 i c Hi ltac:(lia)).
Qed.

(** ** C85 *)

Theorem C85_torus :
  forall query argsort s l d a za r0 o L m axes dt,
    correct_tree query -> is_argsort dleb argsort ->
    grid_lattice d a za r0 (box d o L) m l -> lt_data l = Some dt -> lt_shape l <> None ->
    in_step s -> st_positions s = [r0] -> st_connections s = Some [[1]] -> analyze query s = (lt_structure l, Ok tt) ->
    rounds_to_micro (a * a)%Q za -> (6 <= za)%Z -> (forall k, k < d -> (1 <= nth k L 0)%Z) ->
    NoDup axes -> axes <> [] -> (forall k, In k axes -> k < d /\ (3 <= nth k L 0)%Z) ->
    exists l' dt', set_periodic query argsort l (AxList axes) = (l', Ok tt) /\
      lt_structure l' = lt_structure l /\ lt_shape l' = lt_shape l /\ lt_primitive l' = lt_primitive l /\ lt_axes l' = axes /\
      lt_data l' = Some dt' /\ d_indices dt' = d_indices dt /\ d_positions dt' = d_positions dt /\ torus_data d za L axes dt' /\
      ((forall k, k < d -> In k axes) -> forall i, i < nsites dt' -> length (slots dt' i) = 2 * d).
Proof.
  intros query argsort s l d a za r0 o L m axes dt Hq Harg [B HV [an [r [Ean [Er [Hr1 Hr2]]]]] [dt1 [Edt G]]] Edt' Hshape Hs ER Ec Ha Hza H6 HL HN Hne Hax.
  rewrite Edt' in Edt. injection Edt as <-.
  assert (forall k, In k axes -> k < d) as Hax1 by (intros; apply Hax; auto).
  assert (forall k, In k axes -> (3 <= nth k L 0)%Z) as Hax3 by (intros; apply Hax; auto).
  destruct axes as [|k0 axes0] eqn:Eaxes; [congruence|]. rewrite <- Eaxes in *. assert (In k0 axes) as Hk0 by (rewrite Eaxes; left; auto). clear Eaxes axes0 Hne.
  assert (1 <= d) as Hd by (specialize (Hax1 k0 Hk0); lia).
  destruct (analyze_keeps query s) as [Kb [_ [Kp _]]]. rewrite Ha in Kb, Kp. cbn [fst] in Kb, Kp.
  assert (lt_basis l = st_basis s) as Eb by exact Kb.
  pose proof (bt_basis _ _ B) as Hb. pose proof (bt_dim _ _ B) as Hbd. rewrite Eb in Hb, Hbd, HV.
  assert (lt_indices l = d_indices dt /\ lt_positions l = d_positions dt) as [EI EP] by (unfold lt_indices, lt_positions; rewrite Edt'; auto).
  destruct (cleared _ _ _ _ _ _ _ G) as [Ecall [W0 [Lay0 Hlinks]]]. cbv zeta in *. set (d0 := remove_periodic dt) in *.
  pose proof (gd_wf _ _ _ _ _ _ _ G) as W.
  set (I := d_indices dt) in *. set (P := d_positions dt) in *.
  assert (d_indices d0 = I /\ d_positions d0 = P) as [EI0 EP0] by (split; reflexivity).
  assert (nsites d0 = nsites dt) as En0 by reflexivity.
  assert (length I = nsites dt) as LI by reflexivity.
  assert (length P = nsites dt) as LP by (apply (wf_positions _ W)).
  pose proof (grid_nonempty _ _ _ _ _ _ _ G) as H0.
  assert (I <> []) as HI by (intro E; unfold nsites in H0; fold I in H0; rewrite E in H0; cbn in H0; lia).
  assert (length r0 = d) as Lr0 by (rewrite <- Hbd; apply Hs; rewrite ER; left; auto).
  assert (forall i, In i I -> 0 <= last i 0 < Z.of_nat (length (st_positions s)))%Z as Hat.
  { intros i Hi. apply (gd_cells _ _ _ _ _ _ _ G) in Hi. destruct Hi as [n [-> _]]. rewrite last_last, ER. cbn. lia. }
  (* the cells *)
  assert (forall i, i < nsites dt -> box d o L (nth i I [])) as Hbox.
  { intros i Hi. destruct (grid_cell _ _ _ _ _ _ _ G i Hi) as [n [En [Ln Hn]]]. fold I in En. rewrite En. intros k Hk. rewrite app_nth1 by lia. auto. }
  assert (forall n, length n = d -> box d o L n -> exists i, i < nsites dt /\ forall k, k < d -> nth k (nth i I []) 0%Z = nth k n 0%Z) as Hsite.
  { intros n Ln Hn. destruct (grid_site _ _ _ _ _ _ _ G n Ln Hn) as [i [Hi Ei]]. exists i. split; auto. intros k Hk. fold I in Ei. rewrite Ei, app_nth1 by lia. auto. }
  assert (forall i j, i < nsites dt -> j < nsites dt -> (forall k, k < d -> nth k (nth i I []) 0%Z = nth k (nth j I []) 0%Z) -> i = j) as Hinj by exact (grid_inj _ _ _ _ _ _ _ G).
  (* the translations *)
  destruct (C58_succeeds query argsort s (lt_structure l) [[1]] an d0 (is_primitive l) axes r) as [items [pd [Eit Epd]]]; auto; try (rewrite Hbd); auto.
  { apply (gd_dim _ _ _ _ _ _ _ G). }
  rewrite EI0 in Eit.
  destruct (box_items d l L axes items) as [It1 [It2 It3]]; auto.
  { rewrite EI. auto. }
  { right. rewrite Eb. apply (cubic_aligned d _ a); auto. rewrite <- Hbd. apply Hb. }
  { intros k Hk. rewrite EI. apply (box_extent d o); auto. apply (gd_cells _ _ _ _ _ _ _ G). }
  { rewrite EI, Eb. exact Eit. }
  (* the search *)
  pose proof (C58_periodic_neighbors query argsort s (lt_structure l) [[1]] an d0 (is_primitive l) axes items r pd Hq Harg Hb) as T.
  rewrite Hbd in T. specialize (T Hd Hs Ec Ha Ean Er). cbv zeta in T. rewrite EI0, EP0, ER in T.
  destruct T as [m1 [cells [Hm1 [Hm2 [Ecells [T1 [T2 [T3 T4]]]]]]]]; auto.
  { intros p Hp. rewrite <- (gd_dim _ _ _ _ _ _ _ G). apply (wf_positions _ W). auto. } { rewrite <- ER. auto. }
  assert (m1 = 1) as ->.
  { destruct Hm2 as [x [y E]]. specialize (Hm1 0 0). cbn in Hm1. destruct x as [|[|x]], y as [|[|y]]; cbn in E; lia. }
  change (2 * 1) with 2 in Ecells.
  set (image := image_sites d (b_mat (st_basis s)) (fun a0 c => among_first (nth c (nth a0 [[1]] []) 0) (occurs d (b_mat (st_basis s)) [r0] cells a0 c)) I P) in *.
  set (regular := fun i j => exists l, DataModel.get_neighbors d0 i None None false = Some l /\ In j l) in *.
  rewrite <- Hbd in HV.
  assert (forall x, among_first 1 (occurs d (b_mat (st_basis s)) [r0] cells 0 0) x <-> x = Fin za) as Hfirst
    by (intro x; rewrite <- Hbd; eapply first_cubic; eauto; rewrite Hbd; auto).
  assert (forall x, occurs d (b_mat (st_basis s)) [r0] cells 0 0 x -> exists z, x = Fin z /\ (za <= z)%Z) as Hocc
    by (intro x; rewrite <- Hbd; eapply occurs_cubic; eauto; rewrite Hbd; auto).
  rewrite Hbd in HV.
  (* distances after a translation *)
  assert (forall i j n p q, length n = d -> nth_error P i = Some p -> nth_error P j = Some q ->
    (sqdist (lattice_point d (b_mat (st_basis s)) p n) q == a * a * inject_Z (zs d (fun k => nth k (nth j I []) 0 - nth k (nth i I []) 0 - nth k n 0)%Z))%Q) as Hsq.
  { intros i j n p q Ln Hp Hq'. rewrite <- sum_squares. unfold sqdist. rewrite lattice_point_length. apply sum_ext. intros k Hk.
    destruct (gd_positions _ _ _ _ _ _ _ G i ltac:(rewrite <- LP; eapply nth_error_length_lt; eauto)) as [_ G1].
    destruct (gd_positions _ _ _ _ _ _ _ G j ltac:(rewrite <- LP; eapply nth_error_length_lt; eauto)) as [_ G2].
    specialize (G1 k Hk). specialize (G2 k Hk). fold P I in G1, G2. rewrite (nth_of_nth_error _ _ _ _ Hp) in G1. rewrite (nth_of_nth_error _ _ _ _ Hq') in G2.
    rewrite nth_lattice_point by auto. rewrite (row_sum d _ a HV) by auto. rewrite G1, G2. unfold Z.sub. rewrite !inject_Z_plus, !inject_Z_opp. ring. }
  assert (forall i, i < nsites dt -> Z.to_nat (last (nth i I []) 0%Z) = 0) as Hatom.
  { intros i Hi. destruct (grid_cell _ _ _ _ _ _ _ G i Hi) as [n [En _]]. fold I in En. rewrite En, last_last. auto. }
  assert (forall n i j x, length n = d -> image n i j x <->
    i < nsites dt /\ j < nsites dt /\ x = Fin za /\ zs d (fun k => nth k (nth j I []) 0 - nth k (nth i I []) 0 - nth k n 0)%Z = 1%Z) as Himage.
  { intros n i j x Ln. split.
    - intros [p [q [z [Hp [Hq' [-> [Hz Hall]]]]]]].
      assert (i < nsites dt) as Hi by (rewrite <- LP; eapply nth_error_length_lt; eauto). assert (j < nsites dt) as Hj by (rewrite <- LP; eapply nth_error_length_lt; eauto).
      rewrite (Hatom i Hi), (Hatom j Hj) in Hall. cbn [nth] in Hall. apply Hfirst in Hall. injection Hall as ->. split; auto. split; auto. split; auto.
      apply (rounds_ext _ _ _ (Hsq i j n p q Ln Hp Hq')) in Hz.
      pose proof (zs_nonneg d (fun k => nth k (nth j I []) 0 - nth k (nth i I []) 0 - nth k n 0)%Z) as Z0. set (g := zs d _) in *.
      destruct (Z.eq_dec g 0) as [E|E].
      + exfalso. rewrite E in Hz. assert (rounds_to_micro 0 0) as R0 by (change 0%Z with (sqrt_micro 0); apply sqrt_micro_rounds; lra).
        assert (za = 0%Z); [|lia]. eapply rounds_unique; [exact Hz|exact R0|]. change (inject_Z 0) with 0%Q. ring.
      + destruct (Z_le_gt_dec g 1) as [G1|G1]; [lia|]. exfalso. destruct HV as [Ha0 _].
        assert (2 <= inject_Z g)%Q as G' by (change 2%Q with (inject_Z 2); rewrite <- Zle_Qle; lia).
        destruct Hza as [_ [_ [Hza _]]]. specialize (Hza ltac:(lia)). destruct Hz as [_ [Hz _]]. cbv zeta in *.
        assert (6 <= inject_Z za)%Q by (change 6%Q with (inject_Z 6); rewrite <- Zle_Qle; lia). assert (0 < a * a)%Q by nra. nra.
    - intros [Hi [Hj [-> Hg]]]. destruct (nth_error_lt P i ltac:(lia)) as [p Hp]. destruct (nth_error_lt P j ltac:(lia)) as [q Hq'].
      exists p, q, za. split; auto. split; auto. split; auto. split.
      + eapply rounds_ext; [|exact Hza]. rewrite (Hsq i j n p q Ln Hp Hq'), Hg. change (inject_Z 1) with 1%Q. ring.
      + rewrite (Hatom i Hi), (Hatom j Hj). cbn [nth]. apply Hfirst. auto. }
  assert (forall i, i < nsites dt -> DataModel.get_neighbors d0 i None None false = Some (map fst (links dt i))) as Eget.
  { intros i Hi. rewrite neighbors_links by auto. destruct (Hlinks i Hi) as [-> _]. auto. }
  assert (forall i j, i < nsites dt -> regular i j <-> j < nsites dt /\ unit_step d (nth i I []) (nth j I [])) as Hreg.
  { intros i j Hi. unfold regular. split.
    - intros [l0 [E Hin]]. rewrite (Eget i Hi) in E. injection E as <-. apply in_map_iff in Hin. destruct Hin as [[j' x] [Ej Hin]]. cbn in Ej. subst j'.
      apply (gd_links _ _ _ _ _ _ _ G i Hi) in Hin. tauto.
    - intros [Hj Hu]. eexists. split; [apply Eget; auto|]. apply in_map_iff. exists (j, Fin za). split; auto. apply (gd_links _ _ _ _ _ _ _ G i Hi). auto. }
  assert (forall ax n, translation_of items ax n -> length n = d /\ length ax <= d /\ wrapping d L axes n /\ (forall k, k < d -> nth k n 0%Z <> 0%Z <-> In k ax) /\ forall k, In k ax -> k < d) as Htr.
  { intros ax n [H|H].
    - destruct (It1 ax n H) as [A1 [A2 [A3 A4]]]. split; auto. split; auto. split; auto. split; auto. apply (It2 ax n H).
    - destruct (It1 _ _ H) as [A1 [A2 [A3 A4]]]. rewrite map_length in A1. split; auto. split; auto.
      assert (map Z.opp (map Z.opp n) = n) as En. { rewrite map_map. rewrite <- (map_id n) at 2. apply map_ext. intro; lia. }
      split; [rewrite <- En; apply wrapping_opp; auto|]. split; [|apply (It2 _ _ H)]. intros k Hk. rewrite <- (A4 k Hk), (map_nth Z.opp n 0%Z k : nth k (map Z.opp n) 0%Z = _). lia. }
  assert (forall ax n i j x, translation_of items ax n -> image n i j x -> wrap_step d L axes (nth i I []) (nth j I [])) as Hiw.
  { intros ax n i j x Ht Hi. destruct (Htr ax n Ht) as [Ln [_ [Hw _]]]. apply Himage in Hi; auto. destruct Hi as [Hi [Hj [_ Hz]]].
    destruct (wrapped_neighbour d o L axes Hax3 n (nth i I []) (nth j I [])) as [k [Hk [Hin [_ [Ho [_ [Hw' _]]]]]]]; auto; [lia|].
    exists k. split; auto. split; auto. split; auto. intros b Hb' Hbk. apply Ho; auto. }
  (* the other requirements *)
  assert (forall ax n, In (ax, n) items -> forall p, In p P -> at_most (query_count an) (within P (lattice_point d (b_mat (st_basis s)) p n) (r * r)%Q)) as Hroom.
  { intros ax n Hin p Hp l0 Hl1 Hl2. unfold query_count. transitivity 1; [|lia]. apply In_nth_error in Hp. destruct Hp as [i Hp].
    assert (i < nsites dt) as Hi by (rewrite <- LP; eapply nth_error_length_lt; eauto).
    destruct (It1 ax n Hin) as [Ln [_ [Hw _]]].
    assert (forall j, In j l0 -> j < nsites dt /\ (zs d (fun k => nth k (nth j I []) 0 - nth k (nth i I []) 0 - nth k n 0)%Z <= 1)%Z) as Hj.
    { intros j Hj. destruct (Hl2 j Hj) as [q [Hq' Hle]]. split; [rewrite <- LP; eapply nth_error_length_lt; eauto|]. rewrite (Hsq i j n p q Ln Hp Hq') in Hle.
      apply Znot_gt_le. intro G1. set (g := zs d _) in *. assert (2 <= inject_Z g)%Q by (change 2%Q with (inject_Z 2); rewrite <- Zle_Qle; lia).
      destruct HV as [Ha0 _]. assert (0 < a * a)%Q by nra. nra. }
    assert (forall j j', In j l0 -> In j' l0 -> j = j') as Hsame.
    { intros j j' Hjl Hjl'. destruct (Hj j Hjl) as [Lj Zj]. destruct (Hj j' Hjl') as [Lj' Zj'].
      destruct (wrapped_neighbour d o L axes Hax3 n (nth i I []) (nth j I [])) as [k [Hk [_ [Hn [Ho [_ [_ E]]]]]]]; auto.
      destruct (wrapped_neighbour d o L axes Hax3 n (nth i I []) (nth j' I [])) as [k' [Hk' [_ [Hn' [Ho' [_ [_ E']]]]]]]; auto.
      assert (k' = k) as -> by (destruct (Nat.eq_dec k' k) as [|E0]; auto; exfalso; apply Hn'; apply Ho; auto).
      apply Hinj; auto. intros b Hb'. destruct (Nat.eq_dec b k) as [->|Hbk]; [congruence|]. destruct (Ho b Hb' Hbk) as [_ <-]. destruct (Ho' b Hb' Hbk) as [_ <-]. auto. }
    destruct l0 as [|j [|j' l0]]; cbn; try lia. exfalso. assert (j = j') as -> by (apply Hsame; [left|right; left]; auto). inversion Hl1 as [|? ? N _]. apply N. left. auto. }
  assert (forall a0 c y, a0 < length [r0] -> c < length [r0] -> occurs d (b_mat (st_basis s)) [r0] cells a0 c y -> dleb (Fin 6) y = true) as Hsep.
  { intros [|x] [|y] z Hx Hy; cbn in Hx, Hy; try lia. intro H. apply Hocc in H. destruct H as [z' [-> Hz']]. apply Z.leb_le. lia. }
  specialize (T4 ltac:(intros i j ax n x Hr Ht Hi; assert (i < nsites dt) as Hi' by (apply Himage in Hi; [tauto|apply (Htr ax n Ht)]);
    apply Hreg in Hr; auto; apply (wrap_not_unit d L axes Hax3 _ _ (Hiw ax n i j x Ht Hi)); tauto)).
  (* the listed sites *)
  assert (forall i l0 j, In (i, l0) pd -> In j (map pn_idx l0) -> i < nsites dt /\ j < nsites dt /\ wrap_step d L axes (nth i I []) (nth j I [])) as Hpd1.
  { intros i l0 j Hin Hj. destruct (T2 i l0 Hin) as [_ T2']. destruct (T2' j Hj) as [_ [ax [n [x [Ht Hi]]]]]. split; [|split; [|eapply Hiw; eauto]].
    - apply Himage in Hi; [tauto|apply (Htr ax n Ht)].
    - apply Himage in Hi; [tauto|apply (Htr ax n Ht)]. }
  assert (forall i j, i < nsites dt -> j < nsites dt -> wrap_step d L axes (nth i I []) (nth j I []) -> exists l0, In (i, l0) pd /\ In j (map pn_idx l0)) as Hpd2.
  { intros i j Hi Hj Hw. pose proof (wrap_not_unit d L axes Hax3 _ _ Hw) as Hu. pose proof (wrap_not_unit d L axes Hax3 _ _ (wrap_sym _ _ _ _ _ Hw)) as Hu'.
    destruct Hw as [k [Hk [Hin [Hd' Ho]]]]. destruct (It3 k Hin) as [ax [n [Hit [En Eo]]]]. destruct (It1 ax n Hit) as [Ln _].
    assert (~ regular i j) as Hr by (rewrite Hreg by auto; tauto). assert (~ regular j i) as Hr' by (rewrite Hreg by auto; tauto).
    destruct (Z_le_gt_dec (nth k (nth i I []) 0%Z) (nth k (nth j I []) 0%Z)).
    - assert (image n i j (Fin za)) as Him.
      { apply Himage; auto. split; auto. split; auto. split; auto. apply (wrap_translation d L k); auto. lia. }
      apply (T3 i j ax n (Fin za) Hit Him (Hroom ax n Hit) Hsep). auto.
    - assert (image n j i (Fin za)) as Him.
      { apply Himage; auto. split; auto. split; auto. split; auto. apply (wrap_translation d L k); auto; [lia|]. intros; symmetry; auto. }
      apply (T3 j i ax n (Fin za) Hit Him (Hroom ax n Hit) Hsep). auto. }
  (* a site has a regular neighbour: the distance is known; and a periodic one *)
  set (c0 := map (fun k => nth k o 0%Z) (seq 0 d)).
  assert (forall k, k < d -> nth k c0 0%Z = nth k o 0%Z) as Hc0 by (intros k Hk; unfold c0; rewrite (nth_map_in _ _ _ 0) by (rewrite seq_length; auto); rewrite seq_nth by auto; reflexivity).
  assert (length c0 = d) as Lc0 by (unfold c0; rewrite map_length, seq_length; auto).
  assert (box d o L c0) as Bc0 by (intros k Hk; rewrite Hc0 by auto; specialize (HL k Hk); lia).
  pose proof (Hax1 k0 Hk0) as Lk0. pose proof (Hax3 k0 Hk0) as Hk03.
  assert (forall z, (0 <= z < nth k0 L 0)%Z -> box d o L (step_to d c0 k0 z)) as Bstep.
  { intros z Hz k Hk. rewrite nth_step_to, Hc0 by auto. specialize (HL k Hk). destruct (Nat.eqb_spec k k0) as [->|]; lia. }
  destruct (Hsite c0 Lc0 Bc0) as [i0 [Hi0 Ei0]].
  assert (In (Fin za) (d_distvals d0)) as Hknown.
  { destruct (Hsite (step_to d c0 k0 1) ltac:(apply step_to_length) ltac:(apply Bstep; lia)) as [i1 [Hi1 Ei1]].
    assert (In (i1, Fin za) (links dt i0)) as Hl.
    { apply (gd_links _ _ _ _ _ _ _ G i0 Hi0). split; auto. split; auto. fold I. eapply unit_step_ext; [exact Ei0|exact Ei1|]. apply step_to_unit; auto. }
    unfold links in Hl. apply in_map_iff in Hl. destruct Hl as [c [E Hc]]. unfold valid_slots in Hc. apply filter_In in Hc. destruct Hc as [Hc _]. apply in_seq in Hc.
    unfold link_at in E. injection E as _ E. change (d_distvals d0) with (d_distvals dt). rewrite <- E. apply nth_In. apply (wf_di _ W); auto. lia. }
  assert (pd <> []) as Hpd0.
  { destruct (Hsite (step_to d c0 k0 (nth k0 L 0 - 1)%Z) ltac:(apply step_to_length) ltac:(apply Bstep; lia)) as [i1 [Hi1 Ei1]].
    destruct (Hpd2 i0 i1 Hi0 Hi1) as [l0 [Hin _]]; [|intro E; rewrite E in Hin; destruct Hin].
    exists k0. split; auto. split; auto. rewrite Ei0, Ei1, nth_step_to, Nat.eqb_refl by auto. split; [lia|]. intros b Hb' Hbk. rewrite Ei0, Ei1, nth_step_to by auto.
    rewrite (proj2 (Nat.eqb_neq _ _) Hbk). auto. }
  (* entries *)
  assert (forall i l0 e, In (i, l0) pd -> In e l0 -> i < nsites dt /\ pn_idx e < nsites dt /\ pn_dist e = Fin za /\ length (pn_nvec e) = d /\ length (pn_axes e) <= d /\
    exists k, k < d /\ In k axes /\ Z.abs (nth k (pn_nvec e) 0%Z) = nth k L 0%Z /\ (forall b, b < d -> b <> k -> nth b (pn_nvec e) 0%Z = 0%Z) /\
      (forall b, In b (pn_axes e) <-> b = k) /\ zs d (fun k => nth k (nth (pn_idx e) I []) 0 - nth k (nth i I []) 0 - nth k (pn_nvec e) 0)%Z = 1%Z) as Hent.
  { intros i l0 e Hin He. destruct (T4 i l0 e Hin He) as [Him [Ht _]]. destruct (Htr _ _ Ht) as [Ln [La [Hw [Hiff Hlt]]]].
    apply Himage in Him; auto. destruct Him as [Hi [Hj [Ed Hz]]]. split; auto. split; auto. split; auto. split; auto. split; auto.
    destruct (wrapped_neighbour d o L axes Hax3 (pn_nvec e) (nth i I []) (nth (pn_idx e) I [])) as [k [Hk [Hink [Hn [Ho [Hab _]]]]]]; auto; [lia|].
    exists k. split; auto. split; auto. split; auto. split; [intros; apply Ho; auto|]. split; auto. intro b. split.
    - intro Hb'. pose proof (Hlt b Hb') as Hbd'. destruct (Nat.eq_dec b k) as [|E]; auto. exfalso. apply Hiff in Hb'; auto. apply Hb'. apply Ho; auto.
    - intros ->. apply Hiff; auto. }
  (* room for them *)
  assert (forall i, i < nsites dt -> forall J, NoDup J -> (forall j, In j J -> j < nsites dt /\ torus_step d L axes (nth i I []) (nth j I [])) -> length J <= length (ring d o L axes (nth i I []))) as Hring.
  { intros i Hi J HJ1 HJ2. set (f := fun j => map (fun k => nth k (nth j I []) 0%Z) (seq 0 d)).
    assert (forall j k, k < d -> nth k (f j) 0%Z = nth k (nth j I []) 0%Z) as Hf by (intros j k Hk; unfold f; rewrite (nth_map_in _ _ _ 0) by (rewrite seq_length; auto); rewrite seq_nth by auto; reflexivity).
    rewrite <- (map_length f J). apply NoDup_incl_length.
    - apply NoDup_map_in; auto. intros j j' Hj Hj' E. apply Hinj; [apply HJ2; auto|apply HJ2; auto|]. intros k Hk. apply (f_equal (fun v => nth k v 0%Z)) in E. rewrite !Hf in E by auto. auto.
    - intros v Hv. apply in_map_iff in Hv. destruct Hv as [j [<- Hj]]. destruct (HJ2 j Hj) as [Lj Hs']. apply In_ring; auto.
      + unfold f. rewrite map_length, seq_length. auto.
      + split; [intros k Hk; rewrite Hf by auto; apply (Hbox j Lj k Hk)|]. eapply torus_ext; [| |exact Hs']; auto. intros; symmetry; apply Hf; auto. }
  assert (fits d0 pd) as Hfits.
  { split; auto. intros i pn Hin. assert (i < nsites dt) as Hi.
    { destruct pn as [|e pn]; [|apply (Hent i _ e Hin); left; auto]. exfalso. clear -Epd Hin. unfold compute_pneighbors in Epd.
      destruct (periodic_translation_vectors _ _ _ _); [|discriminate]. destruct (collect_translations _ _ _ _ _ _ _ _) as [raw|]; [|discriminate].
      revert pd Epd Hin. induction raw as [|[k v] raw IH]; intros pd E Hin; cbn in E; [injection E as <-; destruct Hin|].
      destruct (DataModel.get_neighbors d0 k None None false) as [ex|]; [|discriminate]. destruct (finish d0 raw) as [rest|]; [|discriminate].
      destruct (finish_site ex v) as [|e t] eqn:Ef; injection E as <-; [eapply IH; eauto|]. destruct Hin as [H|H]; [discriminate|]. eapply IH; eauto. }
    split; auto. destruct (Hlinks i Hi) as [_ ->]. split.
    - change (d_cols d0) with (d_cols dt). rewrite (gd_cols _ _ _ _ _ _ _ G). etransitivity; [|exact (box_columns _ _ _ _ _ _ _ _ HL G)].
      etransitivity; [|apply (ring_degree d o L axes Hax3 (nth i I [])); auto].
      rewrite <- (map_length fst (links dt i)), <- (map_length pn_idx pn), <- app_length. apply Hring; auto.
      + apply NoDup_app_intro; [apply (gd_links _ _ _ _ _ _ _ G i Hi)|apply (T2 i pn Hin)|]. intros j Hj Hj'.
        destruct (T2 i pn Hin) as [_ T2']. destruct (T2' j Hj') as [Hnr _]. apply Hnr. exists (map fst (links dt i)). split; auto.
      + intros j Hj. apply in_app_or in Hj. destruct Hj as [Hj|Hj].
        * apply in_map_iff in Hj. destruct Hj as [[j' x] [Ej Hin']]. cbn in Ej. subst j'. apply (gd_links _ _ _ _ _ _ _ G i Hi) in Hin'. destruct Hin' as [Hj [Hu _]].
          split; auto. apply (torus_cases d o L axes Hax3); auto.
        * destruct (Hpd1 i pn j Hin Hj) as [_ [Hj' Hw]]. split; auto. apply (torus_cases d o L axes Hax3); auto.
    - apply Forall_forall. intros e He. destruct (Hent i pn e Hin He) as [_ [E1 [E2 [E3 [E4 _]]]]]. unfold pn_ok. change (nsites d0) with (nsites dt).
      change (d_dim d0) with (d_dim dt). rewrite (gd_dim _ _ _ _ _ _ _ G), E2. split; auto. split; auto. split; [discriminate|]. auto. }
  destruct (C46_set_periodic d0 pd W0 Lay0 Hfits) as (dt' & Eset & W' & _ & En' & EI' & EP' & _ & Hall).
  exists (mkLattice (lt_structure l) (Some dt') (lt_shape l) (lt_pos l) axes (lt_primitive l)), dt'.
  split.
  { unfold set_periodic. destruct (lt_shape l) as [sh|] eqn:Esh; [|congruence]. rewrite Edt', Ecall. cbn [set_data lt_structure]. rewrite Ean.
    unfold is_primitive in Epd |- *. cbn [lt_primitive set_data]. change (lt_basis (set_data l (Some d0))) with (lt_basis l). rewrite Eb, Epd.
    destruct pd as [|e pd']; [congruence|]. rewrite Eset. cbn [set_data lt_pos lt_shape lt_structure]. rewrite Esh. reflexivity. }
  cbn [lt_structure lt_shape lt_primitive lt_axes lt_data]. do 5 (split; [auto|]). split; [exact EI'|]. split; [exact EP'|].
  change (nsites d0) with (nsites dt) in *. change (d_indices d0) with I in EI'.
  assert (forall i s, i < nsites dt -> In s (slots dt' i) -> s_per s = false -> s_nbr s < nsites dt /\ unit_step d (nth i I []) (nth (s_nbr s) I []) /\ s_dist s = Fin za) as Sreg.
  { intros i s0 Hi Hs0 Hp. destruct (Hall i Hi) as [A1 _]. rewrite (proj2 (Hlinks i Hi)) in A1.
    apply (gd_links _ _ _ _ _ _ _ G i Hi). rewrite <- A1. unfold regular_links. apply in_map_iff. exists s0. split; auto. apply filter_In. rewrite Hp. auto. }
  assert (forall i s, i < nsites dt -> In s (slots dt' i) -> s_per s = true -> exists l0 e, In (i, l0) pd /\ In e l0 /\ s = pslot d e) as Sper.
  { intros i s0 Hi Hs0 Hp. destruct (Hall i Hi) as [_ [A2 _]]. assert (In s0 (filter (fun s => s_per s) (slots dt' i))) as Hin by (apply filter_In; auto).
    rewrite A2 in Hin. apply in_map_iff in Hin. destruct Hin as [e [E He]]. change (d_dim d0) with (d_dim dt) in E. rewrite (gd_dim _ _ _ _ _ _ _ G) in E.
    unfold given in He. apply in_flat_map in He. destruct He as [[i' pn] [Hin He]]. cbn [fst snd] in He. destruct (Nat.eqb_spec i' i) as [->|]; [|destruct He].
    exists pn, e. auto. }
  assert (forall i j, i < nsites dt -> In j (map s_nbr (slots dt' i)) <-> j < nsites dt /\ torus_step d L axes (nth i I []) (nth j I [])) as Sn.
  { intros i j Hi. split.
    - intro Hj. apply in_map_iff in Hj. destruct Hj as [s0 [<- Hs0]]. destruct (s_per s0) eqn:Ep.
      + destruct (Sper i s0 Hi Hs0 Ep) as [l0 [e [Hin [He ->]]]]. cbn [pslot s_nbr].
        destruct (Hpd1 i l0 (pn_idx e) Hin (in_map _ _ _ He)) as [_ [Hj Hw]]. split; auto. apply (torus_cases d o L axes Hax3); auto.
      + destruct (Sreg i s0 Hi Hs0 Ep) as [Hj [Hu _]]. split; auto. apply (torus_cases d o L axes Hax3); auto.
    - intros [Hj Ht]. apply (torus_cases d o L axes Hax3) in Ht; auto. destruct (Hall i Hi) as [A1 [A2 _]]. rewrite (proj2 (Hlinks i Hi)) in A1. destruct Ht as [Hu|Hw].
      + assert (In (j, Fin za) (regular_links dt' i)) as Hin by (rewrite A1; apply (gd_links _ _ _ _ _ _ _ G i Hi); auto).
        unfold regular_links in Hin. apply in_map_iff in Hin. destruct Hin as [s0 [E Hs0]]. apply filter_In in Hs0. apply in_map_iff. exists s0. split; [congruence|tauto].
      + destruct (Hpd2 i j Hi Hj Hw) as [l0 [Hin Hj']]. apply in_map_iff in Hj'. destruct Hj' as [e [<- He]].
        assert (In (pslot (d_dim d0) e) (filter (fun s => s_per s) (slots dt' i))) as Hin'.
        { rewrite A2. apply in_map. rewrite (given_in pd i l0); auto. }
        apply filter_In in Hin'. apply in_map_iff. exists (pslot (d_dim d0) e). split; auto. apply Hin'. }
  assert (forall i, i < nsites dt -> NoDup (map s_nbr (slots dt' i))) as Snd.
  { intros i Hi. destruct (Hall i Hi) as [A1 [A2 _]]. rewrite (proj2 (Hlinks i Hi)) in A1. apply (partition_NoDup s_nbr (fun s => s_per s)).
    - rewrite A2, map_map. change (fun x => s_nbr (pslot (d_dim d0) x)) with pn_idx. destruct (in_dec Nat.eq_dec i (map fst pd)) as [Hin|Hin].
      + apply in_map_iff in Hin. destruct Hin as [[i' l0] [E Hin]]. cbn in E. subst i'. rewrite (given_in pd i l0 T1 Hin). apply (T2 i l0 Hin).
      + rewrite given_notin by auto. constructor.
    - assert (map s_nbr (filter (fun s => negb (s_per s)) (slots dt' i)) = map fst (regular_links dt' i)) as -> by (unfold regular_links; rewrite map_map; reflexivity).
      rewrite A1. apply (gd_links _ _ _ _ _ _ _ G i Hi).
    - intros x y Hx Hy Px Py E. destruct (Sper i x Hi Hx Px) as [l0 [e [Hin [He ->]]]]. destruct (Sreg i y Hi Hy Py) as [_ [Hu _]]. rewrite <- E in Hu. cbn [pslot s_nbr] in Hu.
      destruct (Hpd1 i l0 (pn_idx e) Hin (in_map _ _ _ He)) as [_ [_ Hw]]. apply (wrap_not_unit d L axes Hax3 _ _ Hw). auto. }
  split.
  - constructor; rewrite ?En', ?EI'; auto.
    + intros i s0 Hi Hs0. destruct (s_per s0) eqn:Ep; [|apply (Sreg i s0 Hi Hs0 Ep)]. destruct (Sper i s0 Hi Hs0 Ep) as [l0 [e [Hin [He ->]]]]. cbn [pslot s_dist]. apply (Hent i l0 e Hin He).
    + intros i s0 Hi Hs0. split; [intro Ep; apply (Sreg i s0 Hi Hs0 Ep)|]. intro Hu. destruct (s_per s0) eqn:Ep; auto. exfalso.
      destruct (Sper i s0 Hi Hs0 Ep) as [l0 [e [Hin [He ->]]]]. cbn [pslot s_nbr] in Hu. destruct (Hpd1 i l0 (pn_idx e) Hin (in_map _ _ _ He)) as [_ [_ Hw]].
      apply (wrap_not_unit d L axes Hax3 _ _ Hw). auto.
    + intros i s0 Hi Hs0 Ep. destruct (Sper i s0 Hi Hs0 Ep) as [l0 [e [Hin [He ->]]]]. cbn [pslot s_nbr s_nvec s_axes].
      destruct (Hent i l0 e Hin He) as [_ [_ [_ [Ln [_ [k [Hk [Hka [Hab [Ho [Haxe Hz]]]]]]]]]]]. exists k. do 5 (split; auto). split.
      { intros b Hb'. apply in_app_or in Hb'. destruct Hb' as [Hb'|Hb']; [left; apply Haxe; auto|right; eapply repeat_spec; eauto]. }
      split; [apply in_or_app; left; apply Haxe; auto|].
      exists (map (fun b => (nth b (nth i I []) 0 + nth b (pn_nvec e) 0)%Z) (seq 0 d)).
      assert (forall b, b < d -> nth b (map (fun b => (nth b (nth i I []) 0 + nth b (pn_nvec e) 0)%Z) (seq 0 d)) 0%Z = (nth b (nth i I []) 0 + nth b (pn_nvec e) 0)%Z) as En.
      { intros b Hb'. rewrite (nth_map_in _ _ _ 0) by (rewrite seq_length; auto). rewrite seq_nth by auto. reflexivity. }
      split; auto. apply unit_step_sq. rewrite <- Hz. apply zs_ext. intros b Hb'. rewrite En by auto. lia.
  - rewrite En'. intros Hfull i Hi. rewrite <- (ring_full d o L axes (nth i I []) Hfull), <- (map_length s_nbr). apply Nat.le_antisymm.
    + apply Hring; auto. intros j Hj. apply Sn; auto.
    + set (g := fun n => n ++ [0%Z]). rewrite <- (map_length g). 
      assert (NoDup (map g (ring d o L axes (nth i I [])))) as HNg.
      { apply NoDup_map_in; [|apply ring_NoDup; auto]. intros x y _ _ E. apply app_inj_tail in E. apply E. }
      rewrite <- (map_length (fun j => nth j I []) (map s_nbr (slots dt' i))). apply NoDup_incl_length; auto.
      intros v Hv. apply in_map_iff in Hv. destruct Hv as [n [<- Hn]].
      assert (length n = d) as Ln.
      { unfold ring in Hn. apply in_flat_map in Hn. destruct Hn as [k [Hk Hn]]. apply in_seq in Hk. apply In_ring_at in Hn; auto; [|lia]. destruct Hn as [z [-> _]]. apply step_to_length. }
      apply In_ring in Hn; auto. destruct Hn as [Hb' Ht]. destruct (grid_site _ _ _ _ _ _ _ G n Ln Hb') as [j [Hj Ej]]. fold I in Ej.
      apply in_map_iff. exists j. split; [exact Ej|]. apply Sn; auto. split; auto. eapply torus_ext; [| |exact Ht]; auto. intros k Hk. rewrite Ej, app_nth1 by lia. auto.
Qed.

(** [True] makes all axes periodic. *)
Lemma all_axes query argsort l d : b_dim (lt_basis l) = d -> set_periodic query argsort l (AxBool true) = set_periodic query argsort l (AxList (seq 0 d)).
Proof. intros <-. reflexivity. Qed.

Lemma build_then_periodic query argsort norms l sh primitive pos check mn cb l' axis : axis <> AxNone ->
  build query argsort norms l sh primitive pos check mn None cb = (l', Ok tt) ->
  build query argsort norms l sh primitive pos check mn (Some axis) cb = set_periodic query argsort l' axis.
Proof.
  intros Hax. unfold build. destruct (build_tables _ _ _ _ _ _ _ _ _ _) as [[[I P] T]|e]; [|discriminate]. destruct (data_set _ _ _ _) as [dt|]; [|discriminate].
  intro E. injection E as <-. destruct axis; [congruence|reflexivity|reflexivity].
Qed.

(** The lattice [finite_hypercubic] of the size [s] with periodic axes along which it has three or more sites. *)
Theorem C85_finite_hypercubic :
  forall query argsort inv s a at_ za axes,
    let d := length s in
    let L := map (fun x => (Qfloor (x / a)%Q + 1)%Z) s in
    correct_tree query -> is_argsort dleb argsort -> valid_basis (hypercubic inv d a) -> (1#1000 < a)%Q -> rounds_to_micro (a * a)%Q za ->
    (forall i, i < d -> (0 <= nth i s 0 /\ nth i s 0 / a < inject_Z (2 ^ 62))%Q) ->
    NoDup axes -> axes <> [] -> (forall k, In k axes -> k < d /\ (2 * a <= nth k s 0)%Q) ->
    exists l dt, finite_hypercubic query argsort inv (ASize s) a at_ 1 false (Some (AxList axes)) = Ok l /\
      lt_axes l = axes /\ lt_data l = Some dt /\ NoDup (d_indices dt) /\
      (forall i, In i (d_indices dt) <-> exists n, i = n ++ [0%Z] /\ length n = d /\ forall k, k < d -> (0 <= nth k n 0 < nth k L 0)%Z) /\
      torus_data d za L axes dt /\ ((forall k, k < d -> In k axes) -> forall i, i < nsites dt -> length (slots dt i) = 2 * d) /\
      (axes = seq 0 d -> finite_hypercubic query argsort inv (ASize s) a at_ 1 false (Some (AxBool true)) = Ok l).
Proof.
  intros query argsort inv s a at_ za axes d L Hq Harg Hb Ha Hza Hrange HN Hne Hax.
  assert (1 <= d) as Hd by (destruct axes as [|k axes]; [congruence|]; destruct (Hax k (or_introl eq_refl)); lia).
  destruct (finite_box query argsort inv s a at_ za Hq Harg Hd Hb Ha Hza Hrange) as (st & l0 & m & E & E1 & E2 & E3 & E4 & E5 & E6 & G & HL).
  fold d in E1, E2, G, HL. fold L in G, HL.
  assert (6 <= za)%Z as H6.
  { destruct Hza as [Z0 [Hza _]]. cbv zeta in Hza. apply Znot_gt_le. intro G0.
    assert (inject_Z za <= 5)%Q as G' by (change 5%Q with (inject_Z 5); rewrite <- Zle_Qle; lia).
    rewrite Zle_Qle in Z0. change (inject_Z 0) with 0%Q in Z0. nra. }
  assert (forall k, In k axes -> k < d /\ (3 <= nth k L 0)%Z) as Hax'.
  { intros k Hk. destruct (Hax k Hk) as [H1 H2]. split; auto. unfold L. rewrite (nth_map_in _ _ _ 0%Q) by auto.
    assert (2 <= Qfloor (nth k s 0 / a)%Q)%Z; [|lia]. apply floor_ge. apply Qle_shift_div_l; [lra|]. exact H2. }
  pose proof (gl_built _ _ _ _ _ _ _ G) as B.
  destruct (gl_data _ _ _ _ _ _ _ G) as [dt0 [Edt0 Gd]].
  assert (lt_shape l0 <> None) as Hsh.
  { pose proof (C79_finite_hypercubic_start query argsort inv s a at_ za Hq Harg Hd Hb Ha Hza Hrange) as [l1 [m1 [El1 [Gl1 [_ [Hcur _]]]]]].
    rewrite E in El1. injection El1 as <-. destruct Hcur as [o' [sh [_ [Esh _]]]]. congruence. }
  destruct (C85_torus query argsort st l0 d a za (repeat 0%Q d) (repeat 0%Z d) L m axes dt0 Hq Harg G Edt0 Hsh E4 E2 E3 E5 Hza H6 HL HN Hne Hax')
    as (l & dt & Eset & F1 & F2 & F3 & F4 & F5 & F6 & F7 & F8 & F9).
  exists l, dt.
  assert (forall axis, axis <> AxNone -> set_periodic query argsort l0 axis = (l, Ok tt) -> finite_hypercubic query argsort inv (ASize s) a at_ 1 false (Some axis) = Ok l) as Hfin.
  { intros axis Hnone Es. unfold finite_hypercubic in E |- *. destruct (preset _ _ _ _) as [s0|]; [|discriminate].
    destruct (build _ _ _ _ _ _ _ _ _ _ _) as [l1 [u|e]] eqn:Eb; [|discriminate]. injection E as ->. destruct u.
    rewrite (build_then_periodic _ _ _ _ _ _ _ _ _ _ _ axis Hnone Eb), Es. reflexivity. }
  split; [apply Hfin; [discriminate|exact Eset]|]. split; auto. split; auto. rewrite F6. split; [apply (gd_once _ _ _ _ _ _ _ Gd)|]. split; [|split; [auto|split; [auto|]]].
  - intro i. rewrite (gd_cells _ _ _ _ _ _ _ Gd i). split; intros [n [-> [Ln Hn]]]; exists n; (split; [auto|split; [auto|]]); intros k Hk; specialize (Hn k Hk); rewrite nth_repeat in *; lia.
  - intro Es. apply Hfin; [discriminate|]. rewrite (all_axes query argsort l0 d (bt_dim _ _ B)), <- Es. exact Eset.
Qed.

(** 3 x 4 sites, periodic along both axes and along the second one: the hypotheses hold; the neighbours of the first
    site. *)
Definition torus34 (axis : axis_arg) : result lattice := finite_hypercubic brute dist_argsort diagonal_inverse (ASize [2; 3]%Q) 1 (ex_atom "A") 1 false (Some axis).
Definition slots_of (r : result lattice) (i : nat) : list (list Z * bool * list Z * list nat) :=
  match r with
  | Ok l => match lt_data l with Some dt => map (fun s => (nth (s_nbr s) (d_indices dt) [], s_per s, s_nvec s, s_axes s)) (slots dt i) | None => [] end
  | Raise _ => []
  end.

Example C85_example :
  correct_tree brute /\ is_argsort dleb dist_argsort /\ valid_basis (hypercubic diagonal_inverse 2 1) /\ (1#1000 < 1)%Q /\ rounds_to_micro (1 * 1)%Q 1000000 /\
  (forall i, i < 2 -> (0 <= nth i [2; 3]%Q 0 /\ nth i [2; 3]%Q 0 / 1 < inject_Z (2 ^ 62))%Q) /\
  (forall k, In k [0; 1] -> k < 2 /\ (2 * 1 <= nth k [2; 3]%Q 0)%Q) /\
  slots_of (torus34 (AxBool true)) 0 =
    [([0; 1; 0], false, [0; 0], [2; 2]%nat); ([1; 0; 0], false, [0; 0], [2; 2]%nat);
     ([0; 3; 0], true, [0; 4], [1; 1]%nat); ([2; 0; 0], true, [3; 0], [0; 0]%nat)]%Z /\
  slots_of (torus34 (AxList [1])) 0 =
    [([0; 1; 0], false, [0; 0], [2; 2]%nat); ([1; 0; 0], false, [0; 0], [2; 2]%nat); ([0; 3; 0], true, [0; 4], [1; 2]%nat)]%Z.
Proof.
  split; [exact brute_nearest|]. split; [exact dist_argsort_ok|]. split; [apply inverse2_check; reflexivity|]. split; [reflexivity|].
  split; [change 1000000%Z with (sqrt_micro (1 * 1)); apply sqrt_micro_rounds; lra|].
  split; [intros [|[|i]] Hi; [| |lia]; vm_compute; split; congruence|].
  split; [intros k [<-|[<-|[]]]; (split; [lia|vm_compute; congruence])|].
  split; vm_compute; reflexivity.
Qed.

Print Assumptions C85_torus.
Print Assumptions C85_finite_hypercubic.
Print Assumptions C85_example.
