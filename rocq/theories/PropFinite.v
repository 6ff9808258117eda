(** * Property C91 (lattpy/lattice.py, structure.py: neighbours of finite and infinite lattices) *)
From Coq Require Import String List ZArith QArith Bool Arith Lia Lqa Permutation Sorting.Sorted.
From Verif Require Import Np NpFacts LinAlg LinFacts SpecUtils UtilsModel SpecBasis AtomModel BasisModel BasisProofs PropBasis SpatialModel SpecSpatial SpatialProofs SpecStructure ShapeModel StructureModel KDBrute KDProofs RoundFacts StructureFacts
  AnalyzeProofs PropAnalyze SpecNeighbors PropNeighbors SpecLattice DataModel SpecData DataFacts DataProofs LatticeModel LatticeExamples SpecGrid GridProofs
  StructureProofs PropStructure PropData SpecBuild BuildProofs PropBuild NeighborProofs RangeProofs PropBuilt SpecJoin SpecBlock BlockProofs PropBlock PropTorus SpecFinite.
Import ListNotations.
Open Scope nat_scope.
Open Scope list_scope.

Theorem C91_neighbors :
  forall query s s' conns m cells l dt,
    correct_tree query -> valid_basis (st_basis s) -> 1 <= b_dim (st_basis s) -> in_step s ->
    st_connections s = Some conns -> analyze query s = (s', Ok tt) ->
    (forall a c, nth c (nth a conns []) 0 <= m) -> (exists a c, nth c (nth a conns []) 0 = m) ->
    get_neighbor_cells (st_basis s) (2 * m) true Qle_bool = Some cells ->
    let d := b_dim (st_basis s) in
    let V := b_mat (st_basis s) in
    let R := st_positions s in
    let allowed a c := among_first (nth c (nth a conns []) 0) (occurs d V R cells a c) in
    lt_structure l = s' -> lt_data l = Some dt -> finite_lattice d V R allowed dt ->
    let I := d_indices dt in
    forall i N a, i < nsites dt -> nth i I [] = N ++ [Z.of_nat a] ->
    (* the distances of the neighbours of the atom in the infinite lattice *)
    exists Ds, increasing dleb Ds /\ (forall k, (length Ds <= k -> StructureModel.get_neighbors (lt_structure l) N a k = Raise IndexError) /\
        (k < length Ds -> exists L, StructureModel.get_neighbors (lt_structure l) N a k = Ok L)) /\
      (* the neighbours in the infinite lattice, as far as they are sites, are neighbours *)
      (forall j x, (exists k L, nth_error Ds k = Some x /\ StructureModel.get_neighbors (lt_structure l) N a k = Ok L /\ j < nsites dt /\ In (nth j I []) L) <->
         In (j, x) (links dt i) /\ exists n, In n cells /\ cells_apart d (nth i I []) (nth j I []) n) /\
      (* all of them if the search of the cells is complete *)
      ((forall b c n x, bond d V R allowed b c n x -> In n cells) ->
       (forall j, In j (map fst (links dt i)) <->
          j < nsites dt /\ exists k L, StructureModel.get_neighbors (lt_structure l) N a k = Ok L /\ In (nth j I []) L) /\
       (* also for the distance at the index [k] of the structure and [k'] of the data *)
       (forall k k' x, nth_error Ds k = Some x -> nth_error (d_distvals dt) k' = Some x ->
          exists L ns, StructureModel.get_neighbors (lt_structure l) N a k = Ok L /\ neighbors l i (Some k') false = Some ns /\ NoDup ns /\
            forall j, In j ns <-> j < nsites dt /\ In (nth j I []) L) /\
       (* the number of neighbours of a site in the interior *)
       (forall ns B, neighbors l i None false = Some ns -> NoDup B ->
          (forall t, In t B <-> exists k L, StructureModel.get_neighbors (lt_structure l) N a k = Ok L /\ In t L) ->
          length ns <= length B /\ ((forall t, In t B -> In t I) -> length ns = length B))).
Proof.
  intros query s s' conns m cells l dt Hq Hb Hd Hs Ec Ha Hm1 Hm2 Ecells d V R allowed El Edt F I i N a Hi Eidx.
  rewrite El. clear El.
  destruct (C29_neighbors_translation_covariant query s s' conns Hq Hb Hd Hs Ec Ha) as [m' [cells' [Hm1' [Hm2' [Ecells' H29]]]]].
  assert (m' = m) as -> by (destruct Hm2 as [a1 [c1 E1]]; destruct Hm2' as [a2 [c2 E2]]; specialize (Hm1' a1 c1); specialize (Hm1 a2 c2); lia).
  rewrite Ecells in Ecells'. injection Ecells' as <-. fold d V R in H29.
  assert (forall x, In x R -> length x = d) as HR by (intros x Hx; apply Hs; auto).
  destruct F as [W Hnd Hsites Hlinks]. fold I in Hnd, Hsites, Hlinks.
  destruct (Hsites i Hi) as [N' [a' [E' [LN [La Pi]]]]]. rewrite Eidx in E'. apply app_inj_tail in E'. destruct E' as [<- E']. apply Nat2Z.inj in E'. subst a'.
  destruct (Hlinks i Hi) as [Lnd Hlink].
  destruct (H29 a La) as [Ds [Inc [HDs H]]]. exists Ds. split; auto.
  assert (forall n M, length n = length M -> forall k, nth k (map2 Z.add n M) 0%Z = (nth k n 0 + nth k M 0)%Z) as Hadd.
  { induction n as [|z n IH]; intros [|z' M] E k; try discriminate; [destruct k; reflexivity|]. destruct k; cbn; auto. }
  (* neighbours in the infinite lattice *)
  assert (forall k x, nth_error Ds k = Some x -> exists L, StructureModel.get_neighbors s' N a k = Ok L /\
    forall t, In t L <-> exists n c, c < length R /\ t = map2 Z.add n N ++ [Z.of_nat c] /\ linked d V R cells conns a c n x) as Hget.
  { intros k x Ek. specialize (H N k LN). rewrite Ek in H. destruct H as [L [L0 [E1 [_ [_ [_ [Hin _]]]]]]]. exists L. auto. }
  assert (forall k, length Ds <= k -> StructureModel.get_neighbors s' N a k = Raise IndexError) as Hover.
  { intros k Hk. specialize (H N k LN). rewrite (proj2 (nth_error_None Ds k) Hk) in H. exact H. }
  assert (forall k L, StructureModel.get_neighbors s' N a k = Ok L -> exists x, nth_error Ds k = Some x) as Hk.
  { intros k L EL. destruct (nth_error Ds k) as [x|] eqn:Ek; eauto. apply nth_error_None in Ek. rewrite (Hover k Ek) in EL. discriminate. }
  (* links *)
  assert (forall j x, j < nsites dt -> forall M c, nth j I [] = M ++ [Z.of_nat c] -> c < length R -> length M = d ->
    same (nth j (d_positions dt) []) (lattice_point d V (nth c R []) M) ->
    (In (j, x) (links dt i) <-> allowed a c x /\ pair_distance d V R a c (cell_diff d N M []) x)) as Hpair.
  { intros j x Hj M c Ej Hc LM Pj. rewrite Hlink. unfold connected_sites, atom_of. rewrite Eidx, Ej, !last_last, !Nat2Z.id.
    assert (length (d_positions dt) = nsites dt) as Lp by (apply (wf_positions _ W)).
    destruct (nth_error_lt (d_positions dt) i) as [p Ep]; [lia|]. destruct (nth_error_lt (d_positions dt) j) as [q Eq]; [lia|].
    rewrite (nth_of_nth_error _ _ _ _ Ep) in Pi. rewrite (nth_of_nth_error _ _ _ _ Eq) in Pj.
    assert (sqdist p q == sqdist (nth a R []) (lattice_point d V (nth c R []) (cell_diff d N M [])))%Q as ED.
    { rewrite <- (translated_distance d V _ _ _ _ [] p q (HR _ (nth_In _ _ La)) Pi Pj). unfold sqdist. rewrite lattice_point_length.
      destruct Pi as [Lpp _]. rewrite lattice_point_length in Lpp. rewrite Lpp. apply sum_ext. intros k' Hk'. rewrite nth_lattice_point by auto.
      assert (sum_upto d (fun k0 => entry V k' k0 * inject_Z (nth k0 [] 0%Z)) == 0)%Q as ->; [|ring].
      clear. induction d as [|e IH]; cbn [sum_upto]; [reflexivity|]. rewrite IH. destruct e; cbn; ring. }
    split.
    - intros [Hne [[p' [q' [z [Ep' [Eq' [-> Hz]]]]]] Hal]]. split; auto. exists z. split; auto. pose proof (eq_trans (eq_sym Ep) Ep') as Ep2. pose proof (eq_trans (eq_sym Eq) Eq') as Eq2. injection Ep2 as <-. injection Eq2 as <-.
      eapply rounds_ext; eauto.
    - intros [Hal [z [-> Hz]]]. split; [|split; [|exact Hal]; exists p, q, z; split; [exact Ep|]; split; [exact Eq|]; split; [reflexivity|]; eapply rounds_ext; [symmetry; exact ED|exact Hz]].
      intros ->. assert (a = c /\ N = M) as [<- <-] by (rewrite Eidx in Ej; apply app_inj_tail in Ej; destruct Ej as [-> Ej]; apply Nat2Z.inj in Ej; auto).
      destruct Hal as [L [_ [HL [n0 [_ Hn0]]]]]. apply nth_error_In in Hn0. apply HL in Hn0. destruct Hn0 as [Hne _]. apply Hne. f_equal.
      eapply rounds_unique; [exact Hz|apply (sqrt_micro_rounds 0); lra|]. rewrite <- ED. pose proof (eq_trans (eq_sym Ep) Eq) as Eq2. injection Eq2 as <-.
      clear. unfold sqdist. generalize (length p). intro e. induction e as [|e IH]; cbn [sum_upto]; [reflexivity|]. rewrite IH. ring. }
  assert (forall n, In n cells -> length n = d) as Hlen.
  { destruct (cells_props (st_basis s) m Hb Hd cells Ecells) as [_ [G _]]. exact G. }
  assert (forall N1 N2 n, length N1 = d -> length N2 = d -> cells_apart d (N1 ++ [0%Z]) (N2 ++ [0%Z]) n -> n = cell_diff d N1 N2 [] /\ map2 Z.add n N1 = N2) as Hapart.
  { intros N1 N2 n L1 L2 [Ln Hn]. split.
    - apply (list_eq_nth _ _ 0%Z); [rewrite cell_diff_length; auto|]. intros k Hk'. rewrite nth_cell_diff by lia. specialize (Hn k ltac:(lia)). rewrite !app_nth1 in Hn by lia. rewrite Hn.
      destruct k; cbn [nth]; lia.
    - apply (list_eq_nth _ _ 0%Z); [rewrite map2_length; lia|]. intros k Hk'. rewrite map2_length in Hk'. rewrite Hadd by lia. specialize (Hn k ltac:(lia)). rewrite !app_nth1 in Hn by lia. lia. }
  assert (forall N1 N2 a1 a2 n, length N1 = d -> length N2 = d -> cells_apart d (N1 ++ [a1]) (N2 ++ [a2]) n <-> cells_apart d (N1 ++ [0%Z]) (N2 ++ [0%Z]) n) as Hatoms.
  { intros N1 N2 a1 a2 n L1 L2. unfold cells_apart. split; intros [G1 G2]; (split; [auto|]); intros k Hk'; specialize (G2 k Hk'); rewrite !app_nth1 in * by lia; auto. }
  assert (forall j x, (exists k L, nth_error Ds k = Some x /\ StructureModel.get_neighbors s' N a k = Ok L /\ j < nsites dt /\ In (nth j I []) L) <->
         In (j, x) (links dt i) /\ exists n, In n cells /\ cells_apart d (nth i I []) (nth j I []) n) as Hboth.
  { intros j x. split.
    - intros [k [L [Ek [EL [Hj Hin]]]]]. destruct (Hget k x Ek) as [L' [EL' HL']]. rewrite EL in EL'. injection EL' as <-.
      apply HL' in Hin. destruct Hin as [n [c [Hc [Ej [Hn [Hp Hal]]]]]].
      destruct (Hsites j Hj) as [M [c' [Ej' [LM [_ Pj]]]]]. rewrite Ej in Ej'. apply app_inj_tail in Ej'. destruct Ej' as [EM Ej']. apply Nat2Z.inj in Ej'. subst c' M.
      assert (cells_apart d (N ++ [0%Z]) (map2 Z.add n N ++ [0%Z]) n) as Hap.
      { split; [auto|]. intros k0 Hk0. rewrite !app_nth1 by lia. rewrite Hadd by (rewrite Hlen; auto). lia. }
      split; [|exists n; split; auto; rewrite Eidx, Ej; apply Hatoms; auto].
      apply (Hpair j x Hj _ c Ej Hc LM Pj). destruct (Hapart _ _ _ LN LM Hap) as [<- _]. auto.
    - intros [Hin [n [Hn Hap]]]. assert (j < nsites dt) as Hj.
      { apply Hlink in Hin. destruct Hin as [_ [[p [q [z [_ [Eq _]]]]] _]]. apply nth_error_length_lt in Eq. rewrite <- (proj1 (wf_positions _ W)). exact Eq. }
      destruct (Hsites j Hj) as [M [c [Ej [LM [Hc Pj]]]]]. apply (Hpair j x Hj M c Ej Hc LM Pj) in Hin. destruct Hin as [Hal Hp].
      rewrite Eidx, Ej in Hap. apply (Hatoms _ _ _ _ _ LN LM) in Hap. destruct (Hapart _ _ _ LN LM Hap) as [En EM]. rewrite <- En in Hp.
      assert (In x Ds) as HinD by (apply HDs; exists c, n; split; auto; split; auto).
      apply In_nth_error in HinD. destruct HinD as [k Ek]. destruct (Hget k x Ek) as [L [EL HL]]. exists k, L. repeat (split; auto).
      apply HL. exists n, c. split; auto. split; [rewrite Ej, EM; auto|]. split; auto. }
  split; [intro k; split; [apply Hover|]; intro Hlt; destruct (nth_error_lt Ds k Hlt) as [x Ex]; destruct (Hget k x Ex) as [L [EL _]]; eauto|].
  split; [auto|]. intro Hcomplete.
  assert (forall j x, In (j, x) (links dt i) <-> exists k L, nth_error Ds k = Some x /\ StructureModel.get_neighbors s' N a k = Ok L /\ j < nsites dt /\ In (nth j I []) L) as Hall.
  { intros j x. rewrite Hboth. split; [|tauto]. intro Hin. split; auto. assert (j < nsites dt) as Hj.
    { apply Hlink in Hin. destruct Hin as [_ [[p [q [z [_ [Eq _]]]]] _]]. apply nth_error_length_lt in Eq. rewrite <- (proj1 (wf_positions _ W)). exact Eq. }
    destruct (Hsites j Hj) as [M [c [Ej [LM [Hc Pj]]]]]. apply (Hpair j x Hj M c Ej Hc LM Pj) in Hin. destruct Hin as [Hal Hp].
    exists (cell_diff d N M []). split; [apply (Hcomplete a c _ x); split; [exact La|]; split; [exact Hc|]; split; [apply cell_diff_length|]; split; [exact Hp|exact Hal]|]. rewrite Eidx, Ej. split; [apply cell_diff_length|].
    intros k Hk'. rewrite nth_cell_diff by auto. rewrite !app_nth1 by lia. destruct k; cbn [nth]; lia. }
  assert (forall j, In j (map fst (links dt i)) <-> j < nsites dt /\ exists k L, StructureModel.get_neighbors s' N a k = Ok L /\ In (nth j I []) L) as Hany.
  { intro j. rewrite in_map_iff. split.
    - intros [[j' x] [<- Hin]]. apply Hall in Hin. cbn. destruct Hin as [k [L [_ [EL [Hj Hin]]]]]. eauto 6.
    - intros [Hj [k [L [EL Hin]]]]. destruct (Hk k L EL) as [x Ek]. exists (j, x). split; auto. apply Hall. eauto 8. }
  split; [auto|]. split.
  - intros k k' x Ek Ek'. destruct (Hget k x Ek) as [L [EL HL]].
    assert (k' < d_invalid_distidx dt) as Hk'.
    { assert (x <> Inf) as Hx.
      { apply nth_error_In, HDs in Ek. destruct Ek as [c [n [_ [_ [[z [-> _]] _]]]]]. discriminate. }
      pose proof (inf_last _ _ (wf_distvals _ W) (wf_invalid _ W)) as G. apply nth_error_length_lt in Ek' as G'.
      destruct (Nat.eq_dec k' (d_invalid_distidx dt)) as [->|]; [|lia]. rewrite (wf_invalid _ W) in Ek'. congruence. }
    eexists L, _. split; [exact EL|]. split; [unfold neighbors; rewrite Edt; apply C40_by_distance; auto|].
    rewrite (nth_of_nth_error _ _ _ _ Ek').
    assert (forall A (q : list A), filter (fun _ => true) q = q) as Hft by (induction q as [|y q IH]; cbn; congruence). rewrite Hft.
    split.
    + clear - Lnd. induction (links dt i) as [|[j y] q IH]; cbn in *; [constructor|]. inversion Lnd as [|? ? Hni Hq']; subst.
      destruct (deqb y x); cbn; [|auto]. constructor; [|auto]. intro Hin. apply Hni. apply in_map_iff in Hin. destruct Hin as [f [E Hf]]. apply filter_In in Hf. apply in_map_iff. exists f. tauto.
    + intro j. rewrite in_map_iff. split.
      * intros [[j' y] [<- Hin]]. apply filter_In in Hin. destruct Hin as [Hin Ey]. cbn in *. apply deqb_eq in Ey. subst y. apply Hall in Hin.
        destruct Hin as [k2 [L2 [Ek2 [EL2 [Hj Hin]]]]]. destruct (Hget k2 x Ek2) as [L3 [EL3 HL3]]. rewrite EL2 in EL3. injection EL3 as <-. split; auto. apply HL. apply HL3. auto.
      * intros [Hj Hin]. exists (j, x). split; auto. apply filter_In. split; [|cbn; apply deqb_refl]. apply Hall. eauto 8.
  - intros ns B Ens HB HBin. unfold neighbors in Ens. rewrite Edt, C40_all_neighbors in Ens by auto.
    assert (forall A (q : list A), filter (fun _ => true) q = q) as Hft by (induction q as [|y q IH]; cbn; congruence). rewrite Hft in Ens. injection Ens as <-.
    assert (NoDup (map (fun j => nth j I []) (map fst (links dt i)))) as HN.
    { apply NoDup_map_in; auto. intros j j' Hj Hj' E. apply Hany in Hj. apply Hany in Hj'. apply (proj1 (NoDup_nth I []) Hnd); auto; [apply Hj|apply Hj']. }
    rewrite <- (map_length (fun j => nth j I []) (map fst (links dt i))). split.
    + apply NoDup_incl_length; auto. intros t Ht. apply in_map_iff in Ht. destruct Ht as [j [<- Hj]]. apply HBin. apply Hany in Hj. apply Hj.
    + intro Hin. apply Nat.le_antisymm; apply NoDup_incl_length; auto.
      * intros t Ht. apply in_map_iff in Ht. destruct Ht as [j [<- Hj]]. apply HBin. apply Hany in Hj. apply Hj.
      * intros t Ht. specialize (Hin t Ht). apply (In_nth _ _ []) in Hin. destruct Hin as [j [Hj <-]]. apply in_map_iff. exists j. split; auto. apply Hany. split; [exact Hj|]. apply HBin. auto.
Qed.

Theorem C91_built :
  forall query argsort norms s s' conns an l sh primitive pos check callback I P r,
    correct_tree query -> is_argsort dleb argsort ->
    valid_basis (st_basis s) -> 1 <= b_dim (st_basis s) -> in_step s ->
    st_connections s = Some conns -> analyze query s = (s', Ok tt) -> st_analysis s' = Some an -> lt_structure l = s' ->
    let d := b_dim (st_basis s) in
    let V := b_mat (st_basis s) in
    let R := st_positions s in
    (primitive = true -> length norms = d) -> fitting d sh primitive pos -> incongruent d V R ->
    build_indices (st_basis s) norms R (AShape (build_shape (st_basis s) sh primitive pos)) primitive pos check callback = Ok (I, P) ->
    I <> [] ->
    query_radius an = Some r -> (forall p, In p P -> at_most (query_count an) (within P p (r * r)%Q)) ->
    exists m cells,
      (forall a c, nth c (nth a conns []) 0 <= m) /\ (exists a c, nth c (nth a conns []) 0 = m) /\
      get_neighbor_cells (st_basis s) (2 * m) true Qle_bool = Some cells /\
      let allowed a c := among_first (nth c (nth a conns []) 0) (occurs d V R cells a c) in
      let connected := connected_sites allowed I P in
      (forall a c x, a < length R -> c < length R -> occurs d V R cells a c x -> dleb (Fin 6) x = true) ->
      (exists values, length values <= 255 /\ forall a c x, a < length R -> c < length R -> allowed a c x -> In x values) ->
      ((exists i i', i < length P /\ i' < length P /\ fewer connected i i') \/
       (forall i j p, i <> j -> nth_error P i = Some p -> within P p (r * r)%Q j -> exists x, connected i j x)) ->
      exists l' dt, build query argsort norms l sh primitive pos check None None callback = (l', Ok tt) /\
        lt_structure l' = s' /\ lt_data l' = Some dt /\ d_indices dt = I /\ finite_lattice d V R allowed dt.
Proof.
  intros query argsort norms s s' conns an l sh primitive pos check callback I P r Hq Harg Hb Hd Hs Ec Ha Ean El d V R Hnorms Hfit Hinc EI HIne Er Hroom.
  assert (forall x, In x R -> length x = d) as HR by (intros x Hx; apply Hs; auto).
  destruct (C31_indices_and_positions_aligned _ _ _ _ _ _ _ _ _ _ Hb Hnorms HR EI) as [Hlen [Hal _]].
  pose proof (C33_no_site_twice _ _ _ _ _ _ _ _ _ _ Hb Hnorms HR EI) as HNI.
  destruct (C71_build_connects_the_sites query argsort norms s s' conns an l sh primitive pos check callback I P r Hq Harg Hb Hd Hs Ec Ha Ean El Hnorms Hfit Hinc EI HIne Er Hroom)
    as [m [cells [Hm1 [Hm2 [Ecells H]]]]].
  exists m, cells. do 3 (split; auto). cbv zeta. intros Hsep Hval Hpad.
  destruct (H Hsep Hval Hpad) as (l1 & dt & Ebuild & Es & _ & _ & Edt & W & _ & _ & _ & EI1 & EP1 & _ & Hlinks). clear H.
  exists l1, dt. do 4 (split; auto). constructor; rewrite ?EI1, ?EP1; auto.
  - apply W.
  - intros i Hi. unfold nsites in Hi. rewrite EI1 in Hi. destruct (nth_error_lt I i Hi) as [t Ht]. rewrite Hlen in Hi. destruct (nth_error_lt P i Hi) as [p Hp].
    destruct (Hal i t p Ht Hp) as [n [a [x [Et [Ln [Hx Hsame]]]]]]. exists n, a. rewrite (nth_of_nth_error _ _ _ _ Ht), (nth_of_nth_error _ _ _ _ Hp), (nth_of_nth_error _ _ _ _ Hx).
    repeat (split; auto). eapply nth_error_length_lt; eauto. 
  - intros i Hi. unfold nsites in Hi. rewrite EI1, Hlen in Hi. apply Hlinks. auto.
Qed.

(** The alternating chain of [C71_example]. *)
Example C91_built_example :
  exists m cells l' dt,
    get_neighbor_cells (st_basis ab_chain) (2 * m) true Qle_bool = Some cells /\
    build brute dist_argsort [] (mkLattice (fst (analyze brute ab_chain)) None None None [] None) (ASize [1]%Q) false None true None None None = (l', Ok tt) /\
    lt_data l' = Some dt /\ d_indices dt = ab_indices /\
    finite_lattice 1 [[1]]%Q [[0]; [1#2]]%Q (fun a c => among_first (nth c (nth a [[0; 1]; [1; 0]] []) 0) (occurs 1 [[1%Q]] [[0]; [1#2]]%Q cells a c)) dt.
Proof.
  destruct C71_example as (HV & Hd & Hs & Ec & Hinc & s' & an & r & cells & Ha & Ean & Er & Hfit & EI & Ecells & Hroom & Hsep & HA & Hf & _).
  destruct (C91_built brute dist_argsort [] ab_chain s' _ an (mkLattice s' None None None [] None) (ASize [1]%Q) false None true None _ _ r
    brute_nearest dist_argsort_ok HV Hd Hs Ec Ha Ean eq_refl ltac:(discriminate) Hfit Hinc EI ltac:(discriminate) Er Hroom) as (m & cells' & Hm1 & Hm2 & Ecells' & H).
  assert (m = 1) as ->.
  { destruct Hm2 as [a [c Hm2]]. specialize (Hm1 0 1). cbn in Hm1. destruct a as [|[|[|a]]], c as [|[|[|c]]]; cbn in Hm2; lia. }
  cbn [Nat.mul Nat.add] in Ecells'. pose proof (eq_trans (eq_sym Ecells) Ecells') as E. injection E as <-.
  destruct H as (l' & dt & Eb & _ & Edt & EI' & F).
  - exact Hsep.
  - exists [Fin 500000]. split; [cbn; lia|]. intros a c x H1 H2 H3. apply HA in H3; auto. left. symmetry. apply H3.
  - left. exists 0, 1. split; [cbn; lia|]. split; [cbn; lia|]. exact Hf.
  - exists 1, cells, l', dt. split; [exact Ecells|]. split; [rewrite Ha; exact Eb|]. split; [exact Edt|]. split; [exact EI'|]. exact F.
Qed.

Lemma skew_regular dt : lt_data skew_block = Some dt -> forall i, i < nsites dt -> forall s, In s (slots dt i) -> s_per s = false.
Proof.
  intro E. injection E as <-. intros i Hi s Hs. cbn in Hi.
  do 9 (destruct i as [|i]; [vm_compute in Hs; repeat (destruct Hs as [<-|Hs]; [reflexivity|]); destruct Hs|]). lia.
Qed.

Lemma skew_cells cells n1 n2 : get_neighbor_cells ex_skew 4 true Qle_bool = Some cells -> (-1 <= n1 <= 1)%Z -> (-1 <= n2 <= 1)%Z -> In [n1; n2] cells.
Proof.
  intro E. vm_compute in E. injection E as <-. intros B1 B2.
  assert (n1 = 0 \/ n1 = 1 \/ n1 = -1)%Z as [-> | [-> | ->]] by lia; assert (n2 = 0 \/ n2 = 1 \/ n2 = -1)%Z as [-> | [-> | ->]] by lia; cbn; tauto.
Qed.

Lemma skew_values l dt : l = skew_block -> lt_data l = Some dt ->
    nth 4 (d_indices dt) [] = [1; 1; 0]%Z /\ neighbors l 4 None false = Some [2; 6; 1; 3; 5; 7] /\ neighbors l 0 None false = Some [1; 3] /\
    StructureModel.get_neighbors (lt_structure l) [1; 1]%Z 0 0 = Ok [[0; 2; 0]; [2; 0; 0]]%Z /\
    StructureModel.get_neighbors (lt_structure l) [1; 1]%Z 0 1 = Ok [[0; 1; 0]; [1; 0; 0]; [1; 2; 0]; [2; 1; 0]]%Z /\
    StructureModel.get_neighbors (lt_structure l) [1; 1]%Z 0 2 = Raise IndexError /\
    d_distvals dt = [Fin 4472136; Fin 5000000; Inf] /\ neighbors l 4 (Some 0) false = Some [2; 6] /\ neighbors l 0 (Some 0) false = Some [].
Proof.
  intros -> E. injection E as <-. repeat split; vm_compute; reflexivity.
Qed.

(** Nine cells of the skew lattice, each atom has six neighbours in the infinite lattice.  The site in the middle has all of
    them; the site at the corner has two. *)
Example C91_example :
  exists l dt cells, build brute dist_argsort [5; 5]%Q (new_lattice skew_atom) (ASize [2; 2]%Q) true None true None None None = (l, Ok tt) /\
    analyze brute skew_atom = (lt_structure l, Ok tt) /\ get_neighbor_cells ex_skew 4 true Qle_bool = Some cells /\ lt_data l = Some dt /\
    let allowed a c := among_first (nth c (nth a [[2]] []) 0) (occurs 2 (b_mat ex_skew) [[0; 0]]%Q cells a c) in
    finite_lattice 2 (b_mat ex_skew) [[0; 0]]%Q allowed dt /\
    (forall a b n x, bond 2 (b_mat ex_skew) [[0; 0]]%Q allowed a b n x -> In n cells) /\
    nth 4 (d_indices dt) [] = [1; 1; 0]%Z /\ neighbors l 4 None false = Some [2; 6; 1; 3; 5; 7] /\ neighbors l 0 None false = Some [1; 3] /\
    StructureModel.get_neighbors (lt_structure l) [1; 1]%Z 0 0 = Ok [[0; 2; 0]; [2; 0; 0]]%Z /\
    StructureModel.get_neighbors (lt_structure l) [1; 1]%Z 0 1 = Ok [[0; 1; 0]; [1; 0; 0]; [1; 2; 0]; [2; 1; 0]]%Z /\
    StructureModel.get_neighbors (lt_structure l) [1; 1]%Z 0 2 = Raise IndexError /\
    d_distvals dt = [Fin 4472136; Fin 5000000; Inf] /\ neighbors l 4 (Some 0) false = Some [2; 6] /\ neighbors l 0 (Some 0) false = Some [].
Proof.
  destruct C90_built_torus_example as (HV & Hstep & _ & _ & Hconn & Hinc & Hfit & s' & an & r & cells & Ha & Ean & Er & Ecells & EI & HI & HA & Hf & Hb & Hsep & Hcr & _).
  destruct C90_example as (l & dt & cells' & an' & r' & Eb & Ha' & _ & _ & Ecells' & Edt & _ & _ & Hblock & _).
  pose proof (eq_trans (eq_sym Ecells) Ecells') as E. injection E as <-. exists l, dt, cells. split; [exact Eb|]. split; [exact Ha'|]. split; [exact Ecells|]. split; [exact Edt|]. cbv zeta. split; [|split].
  - destruct Hblock as [W Lay Dim Once Sites Pos Links]. clear - W Once Sites Pos Links Eb Edt. constructor; [apply W|exact Once| |].
    + intros i Hi. assert (In (nth i (d_indices dt) []) (d_indices dt)) as Hin by (apply nth_In; auto). apply Sites in Hin. destruct Hin as [n [a [E [Ln [_ La]]]]].
      exists n, a. split; [exact E|]. split; [exact Ln|]. split; [exact La|]. specialize (Pos i Hi). unfold atom_of in Pos. rewrite E, last_last, Nat2Z.id in Pos.
      assert (same (lattice_point 2 (b_mat ex_skew) (nth a [[0; 0]]%Q []) n) (lattice_point 2 (b_mat ex_skew) (nth a [[0; 0]]%Q []) (n ++ [Z.of_nat a]))) as [S3 S4]
        by (apply lattice_point_cells; intros k Hk; rewrite app_nth1 by lia; reflexivity).
      destruct Pos as [S1 S2]. split; [rewrite S1; symmetry; exact S3|]. intro k. rewrite S2. symmetry. apply S4.
    + intros i Hi. rewrite <- (regular_all dt i); [apply Links; exact Hi|]. apply skew_regular; [|exact Hi]. rewrite build_skew_block in Eb. congruence.
  - intros a b n x Hbond. assert (length n = 2) as Ln by apply Hbond. apply Hb in Hbond. clear - Hbond Ln Ecells. destruct n as [|n1 [|n2 [|? ?]]]; try discriminate.
    pose proof (Hbond 0 ltac:(cbn; tauto)) as B1. pose proof (Hbond 1 ltac:(cbn; tauto)) as B2. cbn [nth] in B1, B2. apply (skew_cells _ n1 n2 Ecells); lia.
  - apply skew_values; [|exact Edt]. rewrite build_skew_block in Eb. congruence.
Qed.

(** Without the guard on the cells a finite lattice may have neighbours that the infinite one lacks: for the vectors (1, 0) and
    (4, 1) the search of the cells misses the cell (-4, 1), at the distance 1.  The sites (-4, 1) and (0, 0) of the built lattice
    are neighbours. *)
Definition ex_flat : basis := mkBasis [[1; 4]; [0; 1]]%Q [[1; -4]; [0; 1]]%Q.
Definition flat_atom : structure :=
  Eval vm_compute in run_calls brute ex_flat [CAddAtom (Some [0; 0]%Q) (ex_atom "A") false 1].
Theorem C91_incomplete_cells_refuted :
  valid_basis ex_flat /\
  exists l dt, analyze brute flat_atom = (flat_atom, Ok tt) /\
    build brute dist_argsort [] (new_lattice flat_atom) (ASize [1; 1]%Q) false None true None None None = (l, Ok tt) /\ lt_structure l = flat_atom /\
    lt_data l = Some dt /\ d_indices dt = [[-4; 1; 0]; [-3; 1; 0]; [0; 0; 0]; [1; 0; 0]]%Z /\ neighbors l 2 None false = Some [0; 3] /\
    StructureModel.get_neighbors flat_atom [0; 0]%Z 0 0 = Ok [[-1; 0; 0]; [1; 0; 0]]%Z /\
    StructureModel.get_neighbors flat_atom [0; 0]%Z 0 1 = Raise IndexError.
Proof.
  split; [apply inverse2_check; reflexivity|]. eexists _, _. split; [vm_compute; reflexivity|]. split; [vm_compute; reflexivity|]. split; [reflexivity|]. split; [reflexivity|].
  split; [reflexivity|]. split; [vm_compute; reflexivity|]. split; vm_compute; reflexivity.
Qed.

Print Assumptions C91_neighbors.
Print Assumptions C91_built.
Print Assumptions C91_built_example.
Print Assumptions C91_example.
Print Assumptions C91_incomplete_cells_refuted.
