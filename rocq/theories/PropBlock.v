(** * Property C90 (lattpy/lattice.py: periodic boundary conditions of blocks of cells) *)
From Coq Require Import String List ZArith QArith Qabs Qround Bool Arith Lia Lqa Permutation Sorting.Sorted.
From Verif Require Import Np NpFacts LinAlg LinFacts SpecUtils UtilsModel SpecBasis AtomModel BasisModel BasisProofs PropBasis SpatialModel SpecSpatial SpatialProofs SpecStructure ShapeModel StructureModel KDBrute KDProofs RoundFacts StructureFacts
  AnalyzeProofs PropAnalyze SpecNeighbors PropNeighbors SpecLattice DataModel SpecData DataFacts DataProofs DataOps DataAppend LatticeModel LatticeExamples SpecGrid GridProofs PropMinDist RepeatProofs PropRepeat SpecSeam PropSeam SpecJoin JoinProofs BoxProofs
  StructureProofs PropStructure PropData SpecBuild ShapeProofs BuildProofs PropBuild NeighborProofs RangeProofs PropFailed PropBuilt PresetModel PropPrimitive PropGrid PropCells PropJoin PropExtend PropPeriodic SpecTorus TorusProofs PropTorus SpecBlock BlockProofs.
Import ListNotations.
Open Scope nat_scope.
Open Scope list_scope.

Lemma relation_length {A B} (Rel : A -> B -> Prop) (J : list A) (K : list B) : NoDup J ->
  (forall j, In j J -> exists y, Rel j y /\ In y K) -> (forall j j' y, In j J -> In j' J -> Rel j y -> Rel j' y -> j = j') -> length J <= length K.
Proof.
  revert K. induction J as [|j J IH]; intros K HN H1 H2; [cbn; lia|]. inversion HN as [|? ? N1 N2]; subst.
  destruct (H1 j (or_introl eq_refl)) as [y [Ry Hy]]. apply in_split in Hy. destruct Hy as [K1 [K2 ->]].
  specialize (IH (K1 ++ K2) N2). rewrite app_length in *. cbn [length]. enough (length J <= length K1 + length K2) by lia. apply IH.
  - intros j' Hj'. destruct (H1 j' (or_intror Hj')) as [y' [Ry' Hy']]. exists y'. split; auto. apply in_or_app. apply in_app_or in Hy'. destruct Hy' as [Hy'|[E|Hy']]; auto.
    exfalso. subst y'. apply N1. rewrite (H2 j j' y); auto; [left|right]; auto.
  - intros; eapply H2; eauto; right; auto.
Qed.

Lemma filter_le {A} (p : A -> bool) l : length (filter p l) <= length l.
Proof. induction l as [|x l IH]; cbn; auto. destruct (p x); cbn; lia. Qed.

Lemma regular_links_le dt i : length (regular_links dt i) <= d_cols dt.
Proof.
  unfold regular_links, slots, valid_slots. rewrite map_length. etransitivity; [apply filter_le|]. rewrite map_length. etransitivity; [apply filter_le|]. rewrite seq_length. auto.
Qed.

(** What [remove_periodic] makes of layered data. *)
Lemma cleared_layered dt : wf dt -> layered dt -> let d0 := remove_periodic dt in
  call_remove_periodic dt = Some d0 /\ wf d0 /\ layered d0 /\ forall i, i < nsites dt -> links d0 i = regular_links dt i /\ regular_links d0 i = regular_links dt i /\ filter (fun s => s_per s) (slots d0 i) = [].
Proof.
  intros W Lay d0. destruct (remove_periodic_spec dt W) as [W0 H0]. fold d0 in W0, H0.
  split; [|split; [auto|split]].
  - unfold call_remove_periodic. rewrite (proj1 (wf_pmask _ W)), (proj1 (wf_neighbors _ W)), Nat.eqb_refl. reflexivity.
  - intros i Hi. destruct (Lay i Hi) as [r [m [Hr [Hm Hv]]]]. exists r, r. split; [lia|]. split; [change (d_cols d0) with (d_cols dt); lia|]. intros c Hc.
    change (d_cols d0) with (d_cols dt) in Hc. destruct (H0 i c Hi Hc) as [_ [_ [V0 [P0 _]]]]. destruct (Hv c Hc) as [E1 E2]. rewrite V0, P0, E1, E2.
    split; destruct (Nat.leb_spec r c), (Nat.ltb_spec c r), (Nat.ltb_spec c m); cbn; auto; lia.
  - intros i Hi. assert (links d0 i = regular_links dt i) as E by exact (remove_periodic_links dt i W Hi).
    assert (forall s, In s (slots d0 i) -> s_per s = false) as Hp.
    { intros s Hs. unfold slots in Hs. apply in_map_iff in Hs. destruct Hs as [c [<- Hc]].
      unfold valid_slots in Hc. apply filter_In in Hc. destruct Hc as [Hc _]. apply in_seq in Hc. change (d_cols d0) with (d_cols dt) in Hc. apply (H0 i c Hi ltac:(lia)). }
    split; auto. split; [rewrite <- E; apply regular_all; auto|]. apply filter_none. auto.
Qed.

(** ** C90 *)

Theorem C90_torus :
  forall query argsort s l conns an r m cells o L axes dt,
    correct_tree query -> is_argsort dleb argsort ->
    valid_basis (st_basis s) -> 1 <= b_dim (st_basis s) -> in_step s -> st_connections s = Some conns ->
    analyze query s = (lt_structure l, Ok tt) -> st_analysis (lt_structure l) = Some an -> query_radius an = Some r ->
    (forall a c, nth c (nth a conns []) 0 <= m) -> (exists a c, nth c (nth a conns []) 0 = m) ->
    get_neighbor_cells (st_basis s) (2 * m) true Qle_bool = Some cells ->
    let d := b_dim (st_basis s) in
    let V := b_mat (st_basis s) in
    let R := st_positions s in
    let allowed a c := among_first (nth c (nth a conns []) 0) (occurs d V R cells a c) in
    (* the block *)
    lt_data l = Some dt -> lt_shape l <> None -> block d V R allowed o L dt -> (forall k, k < d -> (1 <= nth k L 0)%Z) ->
    (lt_primitive l = Some true \/ axis_aligned d V) ->
    NoDup axes -> (forall k, In k axes -> k < d) ->
    (* the bonds *)
    (forall a b n x, bond d V R allowed a b n x -> short L axes n /\ (d <= 2 \/ along_two axes n)) ->
    (forall a c x, a < length R -> c < length R -> occurs d V R cells a c x -> dleb (Fin 6) x = true) ->
    crowd d V R (query_count an) r ->
    exists l' dt', set_periodic query argsort l (AxList axes) = (l', Ok tt) /\
      lt_structure l' = lt_structure l /\ lt_shape l' = lt_shape l /\ lt_primitive l' = lt_primitive l /\
      ((exists i s, i < nsites dt' /\ In s (slots dt' i) /\ s_per s = true) -> lt_axes l' = axes) /\
      lt_data l' = Some dt' /\ d_indices dt' = d_indices dt /\ d_positions dt' = d_positions dt /\
      torus_block d V R allowed L axes dt' /\
      ((forall k, k < d -> In k axes) -> forall i B, i < nsites dt' -> NoDup B ->
        (forall b n, In (b, n) B <-> exists x, bond d V R allowed (atom_of (d_indices dt') i) b n x) ->
        length (slots dt' i) = length B).
Proof.
  intros query argsort s l conns an r m cells o L axes dt Hq Harg Hb Hd Hs Ec Ha Ean Er Hm1 Hm2 Ecells d V R allowed Edt Hshape G HL Hpa HN Hax Hbond Hsep Hcrowd.
  destruct (analyze_keeps query s) as [Kb [_ [Kp _]]]. rewrite Ha in Kb, Kp. cbn [fst] in Kb, Kp.
  assert (lt_basis l = st_basis s) as Eb by exact Kb.
  pose proof (bl_wf _ _ _ _ _ _ _ G) as W. pose proof (bl_dim _ _ _ _ _ _ _ G) as Hdim.
  destruct (cleared_layered dt W (bl_layered _ _ _ _ _ _ _ G)) as [Ecall [W0 [Lay0 Hlinks]]]. cbv zeta in *. set (d0 := remove_periodic dt) in *.
  set (I := d_indices dt) in *. set (P := d_positions dt) in *. set (N := nsites dt) in *.
  assert (length I = N) as LI by reflexivity. assert (length P = N) as LP by (apply (wf_positions _ W)).
  assert (forall p, In p P -> length p = d) as HP by (rewrite <- Hdim; exact (proj2 (wf_positions _ W))).
  destruct (analysed_table query s (lt_structure l) Hb Hd Hs Ha) as [conns' [cells' [Ec' [Hcne [HRne [Hm0 [Ecells' [[Hcl [Hcr Hcs]] [HR _]]]]]]]]].
  rewrite Ec in Ec'. injection Ec' as <-.
  assert (max_connections conns = m) as Emax.
  { destruct Hm2 as [a1 [c1 E1]]. destruct (max_connections_reached conns Hm0) as [a2 [c2 E2]]. pose proof (in_max_connections conns a1 c1). specialize (Hm1 a2 c2). unfold entry2 in *. lia. }
  rewrite Emax, Ecells in Ecells'. injection Ecells' as <-.
  destruct (cells_props (st_basis s) m Hb Hd cells Ecells) as [_ [Hclen Hneg]]. fold d in Hclen. fold R in HRne, HR, Hcl, Hcr, Hcs. fold d in HR.
  assert (forall a, a < length R -> length (nth a R []) = d) as HRl by (intros a Ha'; apply HR, nth_In; auto).
  assert (forall a c x, a < length R -> c < length R -> allowed a c x -> allowed c a x) as Hallsym.
  { intros a c x Ha' Hc H. unfold allowed in *. rewrite Hcs. eapply among_first_ext; [|exact H]. intro y. apply occurs_sym; auto. }
  assert (forall a c x, allowed a c x -> x <> Fin 0) as Hall0.
  { intros a c x [q [_ [H1 [i [_ H2]]]]]. apply nth_error_In in H2. apply H1 in H2. apply H2. }
  (* the sites *)
  assert (forall i, i < N -> box d o L (nth i I []) /\ atom_of I i < length R /\ exists n, nth i I [] = n ++ [Z.of_nat (atom_of I i)] /\ length n = d) as Hcell.
  { intros i Hi. assert (In (nth i I []) I) as Hin by (apply nth_In; lia). apply (bl_sites _ _ _ _ _ _ _ G) in Hin. destruct Hin as [n [a [E [Ln [Hn Ha']]]]].
    unfold atom_of. rewrite E, last_last, Nat2Z.id. split; [intros k Hk; rewrite app_nth1 by lia; auto|]. split; auto. exists n. auto. }
  assert (forall n a, length n = d -> box d o L n -> a < length R -> exists i, i < N /\ nth i I [] = n ++ [Z.of_nat a] /\ atom_of I i = a) as Hsite.
  { intros n a Ln Hn Ha'. assert (In (n ++ [Z.of_nat a]) I) as Hin by (apply (bl_sites _ _ _ _ _ _ _ G); exists n, a; auto).
    apply (In_nth _ _ []) in Hin. destruct Hin as [i [Hi E]]. exists i. split; [lia|]. split; auto. unfold atom_of. rewrite E, last_last, Nat2Z.id. auto. }
  assert (forall i j, i < N -> j < N -> atom_of I i = atom_of I j -> (forall k, k < d -> nth k (nth i I []) 0%Z = nth k (nth j I []) 0%Z) -> i = j) as Hinj.
  { intros i j Hi Hj Eat H. apply (proj1 (NoDup_nth I []) (bl_once _ _ _ _ _ _ _ G)); [lia|lia|].
    destruct (Hcell i Hi) as [_ [_ [n [E1 L1]]]]. destruct (Hcell j Hj) as [_ [_ [n' [E2 L2]]]]. rewrite E1, E2, Eat in *. f_equal.
    apply (list_eq_nth _ _ 0%Z); [congruence|]. intros k Hk. specialize (H k ltac:(lia)). rewrite !app_nth1 in H by lia. auto. }
  assert (0 < N) as H0.
  { destruct (Hsite (map (fun k => nth k o 0%Z) (seq 0 d)) 0) as [i [Hi _]]; [rewrite map_length, seq_length; auto| |destruct R; [congruence|cbn; lia]|lia].
    intros k Hk. rewrite (nth_map_in _ _ _ 0) by (rewrite seq_length; auto). rewrite seq_nth by auto. cbn. specialize (HL k Hk). lia. }
  assert (I <> []) as HI by (intro E; rewrite E in LI; cbn in LI; lia).
  assert (forall i, In i I -> 0 <= last i 0 < Z.of_nat (length R))%Z as Hat.
  { intros i Hi. apply (bl_sites _ _ _ _ _ _ _ G) in Hi. destruct Hi as [n [a [-> [_ [_ Ha']]]]]. rewrite last_last. split; [lia|]. apply inj_lt. exact Ha'. }
  assert (lt_indices l = I) as EI by (unfold lt_indices; rewrite Edt; auto).
  (* the translations *)
  destruct (C58_succeeds query argsort s (lt_structure l) conns an d0 (is_primitive l) axes r) as [items [pd [Eit Epd]]]; auto.
  change (d_indices d0) with I in Eit.
  set (l2 := mkLattice (lt_structure l) (lt_data l) (lt_shape l) (lt_pos l) [] (lt_primitive l)).
  assert (built d l2) as B.
  { constructor; cbn; auto.
    - change (lt_basis l2) with (lt_basis l). rewrite Eb. auto.
    - change (lt_basis l2) with (lt_basis l). rewrite Eb. auto.
    - change (lt_indices l2) with (lt_indices l). rewrite EI. intros i Hi. apply (bl_sites _ _ _ _ _ _ _ G) in Hi. destruct Hi as [n [a [-> [Ln _]]]]. rewrite app_length. cbn. lia.
    - unfold lt_positions. cbn. rewrite Edt. exact HP.
    - unfold lt_positions, lt_indices. cbn. rewrite Edt. fold I P. lia.
    - intros a []. }
  assert (forall k, In k axes -> (1 <= nth k L 0)%Z) as HL1 by (intros; apply HL; auto).
  assert (lt_indices l2 <> []) as HI2 by (change (lt_indices l2) with (lt_indices l); rewrite EI; auto).
  assert (lt_primitive l2 = Some true \/ axis_aligned d (b_mat (lt_basis l2))) as Hpa2 by (change (lt_basis l2) with (lt_basis l); rewrite Eb; exact Hpa).
  assert (forall k, In k axes -> extent (lt_indices l2) k (nth k L 0%Z)) as Hext2.
  { intros k Hk. change (lt_indices l2) with (lt_indices l). rewrite EI. apply (block_extent d o L (length R)); auto; [destruct R; [congruence|cbn; lia]|]. apply (bl_sites _ _ _ _ _ _ _ G). }
  assert (periodic_translation_vectors (lt_basis l2) (is_primitive l2) (lt_indices l2) axes = Some items) as Eit2.
  { change (lt_basis l2) with (lt_basis l). change (is_primitive l2) with (is_primitive l). change (lt_indices l2) with (lt_indices l). rewrite EI, Eb. exact Eit. }
  destruct (box_items d l2 L axes items B HI2 Hpa2 Hax HN HL1 Hext2 Eit2) as [It1 [It2 _]].
  pose proof (block_cover d l2 L axes items B HI2 Hpa2 Hax HN HL1 Hext2 Eit2) as Hcover.
  (* the search *)
  destruct (C58_periodic_neighbors query argsort s (lt_structure l) conns an d0 (is_primitive l) axes items r pd Hq Harg Hb Hd Hs Ec Ha Ean Er HI
    (eq_trans LI (eq_sym LP)) HP Hat Hax Eit Epd) as [m1 [cells1 [Hm1' [Hm2' [Ecells1 [T1 [T2 [T3 T4]]]]]]]].
  assert (m1 = m) as -> by (destruct Hm2 as [a1 [c1 E1]]; destruct Hm2' as [a2 [c2 E2]]; specialize (Hm1' a1 c1); specialize (Hm1 a2 c2); lia).
  rewrite Ecells in Ecells1. injection Ecells1 as <-.
  change (d_indices d0) with I in *. change (d_positions d0) with P in *. fold d V R in T2, T3, T4. fold allowed in T2, T3, T4.
  set (image := image_sites d V allowed I P) in *.
  change (image_sites d V (fun a c => among_first (nth c (nth a conns []) 0) (occurs d V R cells a c)) I P) with image in *.
  set (regular := fun i j => exists l, DataModel.get_neighbors d0 i None None false = Some l /\ In j l) in *.
  set (bd := bond d V R allowed) in *.
  (* distances *)
  assert (forall i j n p q, nth_error P i = Some p -> nth_error P j = Some q ->
    (sqdist (lattice_point d V p n) q == sqdist (nth (atom_of I i) R []) (lattice_point d V (nth (atom_of I j) R []) (cell_diff d (nth i I []) (nth j I []) n)))%Q) as Hdist.
  { intros i j n p q Hp Hq'. assert (i < N) as Hi by (rewrite <- LP; eapply nth_error_length_lt; eauto). assert (j < N) as Hj by (rewrite <- LP; eapply nth_error_length_lt; eauto).
    pose proof (bl_positions _ _ _ _ _ _ _ G i Hi) as G1. pose proof (bl_positions _ _ _ _ _ _ _ G j Hj) as G2. fold P I in G1, G2.
    rewrite (nth_of_nth_error _ _ _ _ Hp) in G1. rewrite (nth_of_nth_error _ _ _ _ Hq') in G2. apply translated_distance; auto. apply HRl. apply Hcell. auto. }
  assert (forall n i j x, image n i j x <-> i < N /\ j < N /\ bd (atom_of I i) (atom_of I j) (cell_diff d (nth i I []) (nth j I []) n) x) as Himage.
  { intros n i j x. split.
    - intros [p [q [z [Hp [Hq' [-> [Hz Hall]]]]]]].
      assert (i < N) as Hi by (rewrite <- LP; eapply nth_error_length_lt; eauto). assert (j < N) as Hj by (rewrite <- LP; eapply nth_error_length_lt; eauto).
      split; auto. split; auto. split; [apply Hcell; auto|]. split; [apply Hcell; auto|]. split; [apply cell_diff_length|]. split; auto.
      exists z. split; auto. eapply rounds_ext; [|exact Hz]. apply Hdist; auto.
    - intros [Hi [Hj [_ [_ [_ [[z [-> Hz]] Hall]]]]]]. destruct (nth_error_lt P i ltac:(lia)) as [p Hp]. destruct (nth_error_lt P j ltac:(lia)) as [q Hq'].
      exists p, q, z. split; auto. split; auto. split; auto. split; auto. eapply rounds_ext; [|exact Hz]. symmetry. apply Hdist; auto. }
  assert (forall p q, In p P -> (sqdist (lattice_point d V p []) q == sqdist p q)%Q) as Hplain.
  { intros p q Hp. unfold sqdist. rewrite lattice_point_length, (HP p Hp). apply sum_ext. intros k Hk. rewrite nth_lattice_point by auto.
    assert (sum_upto d (fun k0 => entry V k k0 * inject_Z (nth k0 [] 0%Z)) == 0)%Q as ->; [|ring].
    clear. induction d as [|e IH]; cbn [sum_upto]; [reflexivity|]. rewrite IH. destruct e; cbn; ring. }
  assert (forall i j x, connected_sites allowed I P i j x <-> i < N /\ j < N /\ bd (atom_of I i) (atom_of I j) (cell_diff d (nth i I []) (nth j I []) []) x) as Hconn.
  { intros i j x. rewrite <- Himage. split.
    - intros [_ [[p [q [z [Hp [Hq' [-> Hz]]]]]] Hall]]. exists p, q, z. split; auto. split; auto. split; auto. split; auto. eapply rounds_ext; [|exact Hz]. symmetry. apply Hplain. eapply nth_error_In; eauto.
    - intros [p [q [z [Hp [Hq' [-> [Hz Hall]]]]]]]. assert (rounds_to_micro (sqdist p q) z) as Hz' by (eapply rounds_ext; [|exact Hz]; apply Hplain; eapply nth_error_In; eauto).
      split; [|split; [exists p, q, z; auto|exact Hall]]. intros ->. rewrite Hp in Hq'. injection Hq' as <-.
      apply (Hall0 _ _ _ Hall). f_equal. eapply rounds_unique; [exact Hz'| |].
      + change 0%Z with (sqrt_micro 0). apply sqrt_micro_rounds. lra.
      + unfold sqdist. transitivity (sum_upto (length p) (fun _ => 0)%Q); [apply sum_ext; intros; ring|]. clear. induction (length p) as [|e IH]; cbn [sum_upto]; [reflexivity|]. rewrite IH. ring. }
  assert (forall a b n x x', bd a b n x -> bd a b n x' -> x = x') as Hxuniq.
  { intros a b n x x' [_ [_ [_ [[z [-> Hz]] _]]]] [_ [_ [_ [[z' [-> Hz']] _]]]]. f_equal. eapply rounds_unique; eauto. reflexivity. }
  (* the bonds between two sites *)
  set (tor := fun i j n x => torus_bond d V R allowed L axes (nth i I []) (nth j I []) n x).
  assert (forall i j n x, i < N -> j < N -> tor i j n x -> forall k, k < d ->
    let t := (nth k (nth j I []) 0 - nth k (nth i I []) 0 - nth k n 0)%Z in t = 0%Z \/ (In k axes /\ Z.abs t = nth k L 0%Z /\ (t * nth k n 0 < 0)%Z)) as Hwrap.
  { intros i j n x Hi Hj [Hbn Hmod] k Hk t. destruct (Hcell i Hi) as [Bi _]. destruct (Hcell j Hj) as [Bj _]. specialize (Bi k Hk). specialize (Bj k Hk). destruct (Hmod k Hk) as [E|[Hin [q Eq]]]; [left; unfold t; lia|].
    apply Hbond in Hbn. destruct Hbn as [Hsh _]. specialize (Hsh k Hin). unfold t.
    assert (q = 0 \/ q = 1 \/ q = -1)%Z as [->|[->| ->]] by nia; [left; lia| |]; right; (split; [auto|]); (split; [lia|]); nia. }
  assert (forall i j n n' x x', i < N -> j < N -> tor i j n x -> tor i j n' x' -> n = n') as Hnuniq.
  { intros i j n n' x x' Hi Hj [Hb1 Hmod1] [Hb2 Hmod2]. pose proof (Hbond _ _ _ _ Hb1) as [S1 _]. pose proof (Hbond _ _ _ _ Hb2) as [S2 _].
    destruct Hb1 as [_ [_ [L1 _]]]. destruct Hb2 as [_ [_ [L2 _]]]. apply (list_eq_nth _ _ 0%Z); [congruence|]. intros k Hk.
    destruct (in_dec Nat.eq_dec k axes) as [Hin|Hin].
    - specialize (S1 k Hin). specialize (S2 k Hin).
      assert (forall z, z = 0%Z \/ (In k axes /\ (nth k L 0 | z)%Z) -> (nth k L 0 | z)%Z) as Hdv by (intros z [->|[_ H]]; auto; apply Z.divide_0_r).
      assert (nth k L 0 | nth k (nth j I []) 0 - (nth k (nth i I []) 0 + nth k n 0))%Z as [q1 E1] by (destruct (Hmod1 k ltac:(lia)) as [E|[_ E]]; auto; rewrite E; exists 0%Z; lia).
      assert (nth k L 0 | nth k (nth j I []) 0 - (nth k (nth i I []) 0 + nth k n' 0))%Z as [q2 E2] by (destruct (Hmod2 k ltac:(lia)) as [E|[_ E]]; auto; rewrite E; exists 0%Z; lia).
      assert (q1 = q2) as -> by nia. lia.
    - destruct (Hmod1 k ltac:(lia)) as [E|[E _]]; [|contradiction]. destruct (Hmod2 k ltac:(lia)) as [E'|[E' _]]; [|contradiction]. lia. }
  assert (forall i j n x, tor i j n x -> length n = d) as Htlen by (intros i j n x [[_ [_ [H _]]] _]; exact H).
  assert (forall i j x, connected_sites allowed I P i j x <-> i < N /\ j < N /\ exists n, tor i j n x /\ forall k, k < d -> nth k (nth j I []) 0%Z = (nth k (nth i I []) 0 + nth k n 0)%Z) as Hctor.
  { intros i j x. rewrite Hconn. split.
    - intros [Hi [Hj H]]. split; auto. split; auto. exists (cell_diff d (nth i I []) (nth j I []) []).
      assert (forall k, k < d -> nth k (nth j I []) 0%Z = (nth k (nth i I []) 0 + nth k (cell_diff d (nth i I []) (nth j I []) []) 0)%Z) as E.
      { intros k Hk. rewrite nth_cell_diff by auto. destruct k; cbn; lia. }
      split; auto. split; auto.
    - intros [Hi [Hj [n [Ht E]]]]. split; auto. split; auto. assert (cell_diff d (nth i I []) (nth j I []) [] = n) as ->; [|apply Ht].
      apply (list_eq_nth _ _ 0%Z); [rewrite cell_diff_length; symmetry; eapply Htlen; eauto|]. intros k Hk. rewrite cell_diff_length in Hk. rewrite nth_cell_diff by auto. rewrite (E k Hk). destruct k; cbn; lia. }
  assert (forall t i j x, wrapping d L axes t -> length t = d -> image t i j x -> i < N /\ j < N /\ tor i j (cell_diff d (nth i I []) (nth j I []) t) x) as Hitor.
  { intros t i j x [_ Hw] Lt Him. apply Himage in Him. destruct Him as [Hi [Hj Hbn]]. split; auto. split; auto. split; auto.
    intros k Hk. rewrite nth_cell_diff by auto. destruct (Hw k Hk) as [E|[Hin E]]; [left; lia|right]. split; auto.
    replace (nth k (nth j I []) 0 - (nth k (nth i I []) 0 + (nth k (nth j I []) 0 - nth k (nth i I []) 0 - nth k t 0)))%Z with (nth k t 0%Z) by lia. apply Z.divide_abs_r. rewrite E. apply Z.divide_refl. }
  assert (forall i j n x, i < N -> j < N -> tor i j n x -> (forall k, k < d -> nth k (nth j I []) 0%Z = (nth k (nth i I []) 0 + nth k n 0)%Z) \/ wrapping d L axes (cell_diff d (nth i I []) (nth j I []) n)) as Hcases.
  { intros i j n x Hi Hj Ht. pose proof (Hwrap i j n x Hi Hj Ht) as Hw. cbv zeta in Hw.
    assert (forall e, e <= d -> (forall k, k < e -> nth k (nth j I []) 0%Z = (nth k (nth i I []) 0 + nth k n 0)%Z) \/ exists k, k < e /\ nth k (nth j I []) 0%Z <> (nth k (nth i I []) 0 + nth k n 0)%Z) as He.
    { induction e as [|e IH]; intro Hle; [left; lia|]. destruct (IH ltac:(lia)) as [A|[k [A1 A2]]]; [|right; exists k; split; [lia|auto]].
      destruct (Z.eq_dec (nth e (nth j I []) 0%Z) (nth e (nth i I []) 0 + nth e n 0)%Z) as [E|E]; [|right; exists e; auto].
      left. intros k Hk. destruct (Nat.eq_dec k e) as [->|]; auto. apply A. lia. }
    destruct (He d (le_n d)) as [A|[k [A1 A2]]]; auto. right. split.
    - exists k. split; auto. rewrite nth_cell_diff by auto. lia.
    - intros k' Hk'. rewrite nth_cell_diff by auto. destruct (Hw k' Hk') as [E|[E1 [E2 _]]]; auto. }
  (* regular neighbours *)
  assert (forall i, i < N -> DataModel.get_neighbors d0 i None None false = Some (map fst (regular_links dt i))) as Eget.
  { intros i Hi. rewrite neighbors_links by auto. destruct (Hlinks i Hi) as [-> _]. auto. }
  assert (forall i j, i < N -> regular i j <-> exists x, connected_sites allowed I P i j x) as Hreg.
  { intros i j Hi. unfold regular. split.
    - intros [l0 [E Hin]]. rewrite (Eget i Hi) in E. injection E as <-. apply in_map_iff in Hin. destruct Hin as [[j' x] [Ej Hin]]. cbn in Ej. subst j'.
      apply (bl_links _ _ _ _ _ _ _ G i Hi) in Hin. exists x. exact Hin.
    - intros [x Hx]. eexists. split; [apply Eget; auto|]. apply in_map_iff. exists (j, x). split; auto. apply (bl_links _ _ _ _ _ _ _ G i Hi). exact Hx. }
  assert (forall ax n, translation_of items ax n -> length n = d /\ length ax <= d /\ wrapping d L axes n /\ (forall k, k < d -> nth k n 0%Z <> 0%Z <-> In k ax) /\ forall k, In k ax -> k < d) as Htr.
  { intros ax n [H|H].
    - destruct (It1 ax n H) as [A1 [A2 [A3 A4]]]. split; auto. split; auto. split; auto. split; auto. apply (It2 ax n H).
    - destruct (It1 _ _ H) as [A1 [A2 [A3 A4]]]. rewrite map_length in A1. split; auto. split; auto.
      assert (map Z.opp (map Z.opp n) = n) as En. { rewrite map_map. rewrite <- (map_id n) at 2. apply map_ext. intro; lia. }
      split; [rewrite <- En; apply wrapping_opp; auto|]. split; [|apply (It2 _ _ H)]. intros k Hk. rewrite <- (A4 k Hk), (map_nth Z.opp n 0%Z k : nth k (map Z.opp n) 0%Z = _). lia. }
  assert (forall i j t n x, i < N -> j < N -> wrapping d L axes t -> (forall k, k < d -> nth k t 0%Z = (nth k (nth j I []) 0 - nth k (nth i I []) 0 - nth k n 0)%Z) -> tor i j n x -> ~ exists y, connected_sites allowed I P i j y) as Hnreg.
  { intros i j t n x Hi Hj [[k [Hk Hne]] _] Et Ht [y Hy]. apply Hctor in Hy. destruct Hy as [_ [_ [n' [Ht' E']]]]. rewrite (Hnuniq i j n n' x y Hi Hj Ht Ht') in Et. apply Hne. rewrite (Et k Hk). specialize (E' k Hk). lia. }
  assert (forall i j x, connected_sites allowed I P i j x -> connected_sites allowed I P j i x) as Hcsym.
  { intros i j x Hc. pose proof (proj1 (Hconn i j x) Hc) as [Hi [Hj _]]. destruct Hc as [H1 [[p [q [z [Hp [Hq' [-> Hz]]]]]] H3]]. split; auto. split.
    - exists q, p, z. split; auto. split; auto. split; auto. apply rounds_sqdist_sym; auto. rewrite !HP; auto; eapply nth_error_In; eauto.
    - apply Hallsym; auto; apply Hcell; auto. }
  assert (forall i j t x, image t i j x -> image (map Z.opp t) j i x) as Hisym.
  { intros i j t x Him. assert (i < N /\ j < N) as [Hi Hj] by (apply Himage in Him; tauto). destruct Him as [p [q [z [Hp [Hq' [-> [Hz Hall]]]]]]].
    exists q, p, z. split; auto. split; auto. split; auto. split; [|apply Hallsym; auto; apply Hcell; auto].
    eapply rounds_ext; [|exact Hz]. assert (length p = d) as Lp by (apply HP; eapply nth_error_In; eauto). assert (length q = d) as Lq by (apply HP; eapply nth_error_In; eauto).
    unfold sqdist. rewrite !lattice_point_length. apply sum_ext. intros k Hk. rewrite !nth_lattice_point by auto.
    assert (sum_upto d (fun k0 => entry V k k0 * inject_Z (nth k0 (map Z.opp t) 0%Z)) == - sum_upto d (fun k0 => entry V k k0 * inject_Z (nth k0 t 0%Z)))%Q as ->; [|ring].
    rewrite (sum_ext d _ (fun k0 => - (entry V k k0 * inject_Z (nth k0 t 0%Z)))%Q).
    - clear. induction d as [|e IH]; cbn [sum_upto]; [ring|]. rewrite IH. ring.
    - intros k0 _. rewrite (map_nth Z.opp t 0%Z k0 : nth k0 (map Z.opp t) 0%Z = _), inject_Z_opp. ring. }
  specialize (T4 ltac:(intros i j ax n x Hr Ht Hi; destruct (Htr ax n Ht) as [Ln [_ [Hw _]]]; destruct (Hitor n i j x Hw Ln Hi) as [Hi' [Hj' Htor]]; apply Hreg in Hr; auto;
    revert Hr; eapply Hnreg; eauto; intros k Hk; rewrite nth_cell_diff by auto; lia)).
  (* not too many sites *)
  assert (forall n p, In p P -> at_most (query_count an) (within P (lattice_point d V p n) (r * r)%Q)) as Hroom.
  { intros n p Hp l0 Hl1 Hl2. apply In_nth_error in Hp. destruct Hp as [i Hp]. assert (i < N) as Hi by (rewrite <- LP; eapply nth_error_length_lt; eauto).
    assert (forall j, In j l0 -> j < N) as Hj by (intros j Hj; destruct (Hl2 j Hj) as [q [Hq' _]]; rewrite <- LP; eapply nth_error_length_lt; eauto).
    rewrite <- (map_length (fun j => (atom_of I j, cell_diff d (nth i I []) (nth j I []) n)) l0). apply (Hcrowd (atom_of I i)); [apply Hcell; auto| |].
    - apply NoDup_map_in; auto. intros j j' Hjl Hjl' E. injection E as E1 E2. apply Hinj; auto. intros k Hk. apply (f_equal (fun v => nth k v 0%Z)) in E2. rewrite !nth_cell_diff in E2 by auto. lia.
    - intros b n' Hin. apply in_map_iff in Hin. destruct Hin as [j [E Hjl]]. injection E as <- <-. split; [apply Hcell; auto|]. split; [apply cell_diff_length|].
      destruct (Hl2 j Hjl) as [q [Hq' Hle]]. rewrite (Hdist i j n p q Hp Hq') in Hle. exact Hle. }
  (* the listed sites *)
  assert (forall i l0 j, In (i, l0) pd -> In j (map pn_idx l0) -> i < N /\ j < N /\ (exists n x, tor i j n x) /\ ~ exists y, connected_sites allowed I P i j y) as Hpd1.
  { intros i l0 j Hin Hj. destruct (T2 i l0 Hin) as [_ T2']. destruct (T2' j Hj) as [Hnr [ax [n [x [Ht Hi]]]]]. destruct (Htr ax n Ht) as [Ln [_ [Hw _]]].
    destruct (Hitor n i j x Hw Ln Hi) as [Hi' [Hj' Htor]]. split; auto. split; auto. split; [eauto|]. rewrite <- Hreg by auto. auto. }
  assert (forall i j n x, i < N -> j < N -> tor i j n x -> wrapping d L axes (cell_diff d (nth i I []) (nth j I []) n) -> exists l0, In (i, l0) pd /\ In j (map pn_idx l0)) as Hpd2.
  { intros i j n x Hi Hj Ht Hw. set (t := cell_diff d (nth i I []) (nth j I []) n) in *. assert (length t = d) as Lt by apply cell_diff_length.
    assert (~ regular i j) as Hr by (rewrite Hreg by auto; eapply Hnreg; eauto; intros k Hk; unfold t; apply nth_cell_diff; auto).
    assert (~ regular j i) as Hr' by (rewrite Hreg in * by auto; intros [y Hy]; apply Hr; exists y; auto).
    assert (image t i j x) as Him.
    { apply Himage. split; auto. split; auto. assert (cell_diff d (nth i I []) (nth j I []) t = n) as ->; [|apply Ht]. apply (list_eq_nth _ _ 0%Z); [rewrite cell_diff_length; symmetry; eapply Htlen; eauto|].
      intros k Hk. rewrite cell_diff_length in Hk. unfold t. rewrite !nth_cell_diff by auto. lia. }
    destruct (Hcover n t) as [ax [t' [Hit Ht']]]; auto.
    - destruct (Hbond _ _ _ _ (proj1 Ht)) as [_ [Hd2|Htwo]]; auto. intros k k' Hk Hk' Hlt _ _. apply Hax in Hk. apply Hax in Hk'. split; [left; lia|]. intros k'' Hk''. apply Hax in Hk''. lia.
    - intros k Hk Hne. unfold t in *. rewrite nth_cell_diff in * by auto. destruct (Hwrap i j n x Hi Hj Ht k Hk) as [E|[_ [_ E]]]; [contradiction|auto].
    - destruct Ht' as [->| ->].
      + apply (T3 i j ax t x Hit Him); auto.
      + apply Hisym in Him. apply (T3 j i ax _ x Hit Him); auto. }
  (* the same bond in the middle of the block *)
  assert (forall i, i < N -> exists i', i' < N /\ forall j n x, j < N -> tor i j n x -> exists j', j' < N /\ atom_of I j' = atom_of I j /\ connected_sites allowed I P i' j' x /\
    forall k, k < d -> nth k (nth j' I []) 0%Z = (nth k (nth i' I []) 0 + nth k n 0)%Z) as Hmid.
  { intros i Hi. destruct (Hcell i Hi) as [Bi [Ai _]].
    set (c := map (fun k => if isin axes k then (nth k o 0 + nth k L 0 / 2)%Z else nth k (nth i I []) 0%Z) (seq 0 d)).
    assert (forall k, k < d -> nth k c 0%Z = if isin axes k then (nth k o 0 + nth k L 0 / 2)%Z else nth k (nth i I []) 0%Z) as Hc.
    { intros k Hk. unfold c. rewrite (nth_map_in _ _ _ 0) by (rewrite seq_length; auto). rewrite seq_nth by auto. reflexivity. }
    assert (length c = d) as Lc by (unfold c; rewrite map_length, seq_length; auto).
    assert (forall z, (1 <= z)%Z -> (0 <= z / 2 /\ 2 * (z / 2) <= z /\ z < 2 * (z / 2) + 2)%Z) as Hhalf.
    { intros z Hz. pose proof (Z.div_mod z 2 ltac:(lia)). pose proof (Z.mod_pos_bound z 2 ltac:(lia)). lia. }
    destruct (Hsite c (atom_of I i) Lc) as [i' [Hi' [Ei' Ai']]]; auto.
    { intros k Hk. rewrite Hc by auto. destruct (isin axes k); [|apply Bi; auto]. specialize (Hhalf _ (HL k Hk)). specialize (HL k Hk). lia. }
    assert (forall k, k < d -> nth k (nth i' I []) 0%Z = nth k c 0%Z) as Ec' by (intros k Hk; rewrite Ei', app_nth1 by lia; auto).
    exists i'. split; auto. intros j n x Hj Ht. destruct (Hcell j Hj) as [Bj [Aj _]].
    set (e := map (fun k => (nth k c 0 + nth k n 0)%Z) (seq 0 d)).
    assert (forall k, k < d -> nth k e 0%Z = (nth k c 0 + nth k n 0)%Z) as He.
    { intros k Hk. unfold e. rewrite (nth_map_in _ _ _ 0) by (rewrite seq_length; auto). rewrite seq_nth by auto. reflexivity. }
    destruct (Hsite e (atom_of I j)) as [j' [Hj' [Ej' Aj']]]; auto.
    { unfold e. rewrite map_length, seq_length. auto. }
    { intros k Hk. rewrite He, Hc by auto. specialize (Hhalf _ (HL k Hk)). destruct (isin axes k) eqn:Ein.
      - apply isin_In in Ein. destruct (Hbond _ _ _ _ (proj1 Ht)) as [Hsh _]. specialize (Hsh k Ein). lia.
      - apply isin_false in Ein. destruct Ht as [_ Hmod]. destruct (Hmod k Hk) as [E|[E _]]; [|contradiction]. rewrite <- E. apply Bj; auto. }
    exists j'. split; auto. split; auto.
    assert (forall k, k < d -> nth k (nth j' I []) 0%Z = (nth k (nth i' I []) 0 + nth k n 0)%Z) as E.
    { intros k Hk. rewrite Ec', Ej', app_nth1 by (auto; unfold e; rewrite map_length, seq_length; auto). auto. }
    split; auto. apply Hconn. split; auto. split; auto.
    assert (cell_diff d (nth i' I []) (nth j' I []) [] = n) as ->.
    { apply (list_eq_nth _ _ 0%Z); [rewrite cell_diff_length; symmetry; eapply Htlen; eauto|]. intros k Hk. rewrite cell_diff_length in Hk. rewrite nth_cell_diff by auto. rewrite (E k Hk). destruct k; cbn; lia. }
    rewrite Ai', Aj'. apply Ht. }
  assert (forall i j n x, i < N -> j < N -> tor i j n x -> In x (d_distvals dt)) as Hknown.
  { intros i j n x Hi Hj Ht. destruct (Hmid i Hi) as [i' [Hi' H]]. destruct (H j n x Hj Ht) as [j' [_ [_ [Hc _]]]]. apply (bl_links _ _ _ _ _ _ _ G i' Hi') in Hc.
    unfold regular_links in Hc. apply in_map_iff in Hc. destruct Hc as [s0 [E Hc]]. apply filter_In in Hc. destruct Hc as [Hc _]. unfold slots in Hc. apply in_map_iff in Hc. destruct Hc as [c [<- Hc]].
    unfold valid_slots in Hc. apply filter_In in Hc. destruct Hc as [Hc _]. apply in_seq in Hc. injection E as _ <-. cbn. apply nth_In. apply (wf_di _ W); auto. lia. }
  assert (forall i J, i < N -> NoDup J -> (forall j, In j J -> j < N /\ exists n x, tor i j n x) -> length J <= d_cols dt) as Hcols.
  { intros i J Hi HJ1 HJ2. destruct (Hmid i Hi) as [i' [Hi' H]]. etransitivity; [|apply (regular_links_le dt i')].
    rewrite <- (map_length fst).
    apply (relation_length (fun j j' => j < N /\ j' < N /\ atom_of I j' = atom_of I j /\ exists n x, tor i j n x /\ forall k, k < d -> nth k (nth j' I []) 0%Z = (nth k (nth i' I []) 0 + nth k n 0)%Z)); auto.
    - intros j Hj. destruct (HJ2 j Hj) as [Lj [n [x Ht]]]. destruct (H j n x Lj Ht) as [j' [Lj' [Aj' [Hc E]]]]. exists j'. split; [split; [auto|split; [auto|split; [auto|eauto]]]|].
      apply in_map_iff. exists (j', x). split; auto. apply (bl_links _ _ _ _ _ _ _ G i' Hi'). auto.
    - intros j1 j2 y _ _ [L1 [Ly [A1 [n1 [x1 [Ht1 E1]]]]]] [L2 [_ [A2 [n2 [x2 [Ht2 E2]]]]]]. apply Hinj; auto; [congruence|]. intros k Hk.
      specialize (E1 k Hk). specialize (E2 k Hk). assert (nth k n1 0%Z = nth k n2 0%Z) as E by lia.
      destruct (Hcell j1 L1) as [B1 _]. destruct (Hcell j2 L2) as [B2 _]. specialize (B1 k Hk). specialize (B2 k Hk).
      destruct Ht1 as [_ Hmod1]. destruct Ht2 as [_ Hmod2].
      destruct (in_dec Nat.eq_dec k axes) as [Hin|Hin].
      + assert (nth k L 0 | nth k (nth j1 I []) 0 - (nth k (nth i I []) 0 + nth k n1 0))%Z as [q1 F1] by (destruct (Hmod1 k Hk) as [F|[_ F]]; auto; rewrite F; exists 0%Z; lia).
        assert (nth k L 0 | nth k (nth j2 I []) 0 - (nth k (nth i I []) 0 + nth k n2 0))%Z as [q2 F2] by (destruct (Hmod2 k Hk) as [F|[_ F]]; auto; rewrite F; exists 0%Z; lia).
        assert (q1 = q2) as -> by nia. lia.
      + destruct (Hmod1 k Hk) as [F1|[F1 _]]; [|contradiction]. destruct (Hmod2 k Hk) as [F2|[F2 _]]; [|contradiction]. lia. }
  (* entries *)
  assert (forall i l0 e, In (i, l0) pd -> In e l0 -> i < N /\ pn_idx e < N /\ length (pn_nvec e) = d /\ length (pn_axes e) <= d /\ wrapping d L axes (pn_nvec e) /\
    (forall k, k < d -> nth k (pn_nvec e) 0%Z <> 0%Z <-> In k (pn_axes e)) /\ tor i (pn_idx e) (cell_diff d (nth i I []) (nth (pn_idx e) I []) (pn_nvec e)) (pn_dist e)) as Hent.
  { intros i l0 e Hin He. destruct (T4 i l0 e Hin He) as [Him [Ht _]]. destruct (Htr _ _ Ht) as [Ln [La [Hw [Hiff _]]]].
    destruct (Hitor _ _ _ _ Hw Ln Him) as [Hi [Hj Htor]]. auto 8. }
  assert (fits d0 pd) as Hfits.
  { split; auto. intros i pn Hin. change (nsites d0) with N. change (d_cols d0) with (d_cols dt). assert (i < N) as Hi.
    { destruct pn as [|e pn]; [|apply (Hent i _ e Hin); left; auto]. exfalso. clear -Epd Hin. unfold compute_pneighbors in Epd.
      destruct (periodic_translation_vectors _ _ _ _); [|discriminate]. destruct (collect_translations _ _ _ _ _ _ _ _) as [raw|]; [|discriminate].
      revert pd Epd Hin. induction raw as [|[k v] raw IH]; intros pd E Hin; cbn in E; [injection E as <-; destruct Hin|].
      destruct (DataModel.get_neighbors d0 k None None false) as [ex|]; [|discriminate]. destruct (finish d0 raw) as [rest|]; [|discriminate].
      destruct (finish_site ex v) as [|e t] eqn:Ef; injection E as <-; [eapply IH; eauto|]. destruct Hin as [H|H]; [discriminate|]. eapply IH; eauto. }
    split; auto. destruct (Hlinks i Hi) as [_ [-> _]]. split.
    - rewrite <- (map_length fst (regular_links dt i)), <- (map_length pn_idx pn), <- app_length. apply (Hcols i); auto.
      + apply NoDup_app_intro; [apply (bl_links _ _ _ _ _ _ _ G i Hi)|apply (T2 i pn Hin)|]. intros j Hj Hj'.
        destruct (Hpd1 i pn j Hin Hj') as [_ [_ [_ Hn]]]. apply Hn. apply Hreg; auto. eexists. split; [apply Eget; auto|auto].
      + intros j Hj. apply in_app_or in Hj. destruct Hj as [Hj|Hj].
        * apply in_map_iff in Hj. destruct Hj as [[j' x] [Ej Hin']]. cbn in Ej. subst j'. apply (bl_links _ _ _ _ _ _ _ G i Hi) in Hin'. apply Hctor in Hin'. destruct Hin' as [_ [Hj [n [Ht _]]]]. split; auto. eauto.
        * destruct (Hpd1 i pn j Hin Hj) as [_ [Hj' [Ht _]]]. auto.
    - apply Forall_forall. intros e He. destruct (Hent i pn e Hin He) as [_ [E1 [E2 [E3 [_ [_ E4]]]]]]. unfold pn_ok. change (nsites d0) with N.
      change (d_dim d0) with (d_dim dt). rewrite Hdim. split; auto. split; [exact (Hknown _ _ _ _ Hi E1 E4)|]. split; [destruct E4 as [[_ [_ [_ [[z [-> _]] _]]]] _]; discriminate|]. auto. }
  assert (exists l' dt', set_periodic query argsort l (AxList axes) = (l', Ok tt) /\
    lt_structure l' = lt_structure l /\ lt_shape l' = lt_shape l /\ lt_primitive l' = lt_primitive l /\ (pd = [] \/ lt_axes l' = axes) /\
    lt_data l' = Some dt' /\ wf dt' /\ nsites dt' = N /\ d_indices dt' = I /\ d_positions dt' = P /\
    forall i, i < N -> regular_links dt' i = regular_links dt i /\ filter (fun s => s_per s) (slots dt' i) = map (pslot d) (given pd i)) as
    (l' & dt' & Eset & E1 & E2 & E3 & Eaxes & Edt' & W' & EN' & EI' & EP' & Hall).
  { assert (forall x, set_periodic query argsort l (AxList axes) = x <-> match pd with [] => (set_data l (Some d0), Ok tt) | _ => match DataModel.set_periodic d0 pd with None => (set_data (set_data l (Some d0)) (Some (written (remove_periodic d0) pd)), Raise OtherError)
        | Some d' => (mkLattice (lt_structure l) (Some d') (lt_shape l) (lt_pos l) axes (lt_primitive l), Ok tt) end end = x) as Esp.
    { intro x. unfold set_periodic. destruct (lt_shape l) as [sh|] eqn:Esh; [|congruence]. rewrite Edt, Ecall. cbn [set_data lt_structure]. rewrite Ean.
      unfold is_primitive in Epd |- *. cbn [lt_primitive set_data]. change (lt_basis (set_data l (Some d0))) with (lt_basis l). rewrite Eb, Epd. cbn [set_data lt_pos lt_shape lt_structure lt_primitive lt_axes lt_data]. rewrite Esh.
      destruct pd; tauto. }
    destruct pd as [|e pd'] eqn:Epd'.
    - exists (set_data l (Some d0)), d0. split; [apply Esp; reflexivity|]. do 4 (split; [auto|]). split; [reflexivity|]. split; auto. split; [reflexivity|]. split; [reflexivity|]. split; [reflexivity|].
      intros i Hi. destruct (Hlinks i Hi) as [_ [A1 A2]]. split; auto.
    - rewrite <- Epd' in *. destruct (C46_set_periodic d0 pd W0 Lay0 Hfits) as (dt' & Eset & W' & _ & En' & EI' & EP' & _ & Hall).
      exists (mkLattice (lt_structure l) (Some dt') (lt_shape l) (lt_pos l) axes (lt_primitive l)), dt'.
      split; [apply Esp; rewrite Eset; reflexivity|]. do 3 (split; [auto|]). split; [auto|]. split; [reflexivity|]. split; auto. split; [exact En'|]. split; [exact EI'|]. split; [exact EP'|].
      intros i Hi. destruct (Hall i Hi) as [A1 [A2 _]]. destruct (Hlinks i Hi) as [_ [A3 _]]. split; [congruence|]. rewrite A2. change (d_dim d0) with (d_dim dt). rewrite Hdim. reflexivity. }
  exists l', dt'. do 4 (split; [assumption|]).
  assert (forall i s, i < N -> In s (slots dt' i) -> s_per s = false -> connected_sites allowed I P i (s_nbr s) (s_dist s)) as Sreg.
  { intros i s0 Hi Hs0 Hp. destruct (Hall i Hi) as [A1 _]. apply (bl_links _ _ _ _ _ _ _ G i Hi). rewrite <- A1. unfold regular_links. apply in_map_iff. exists s0. split; auto. apply filter_In. rewrite Hp. auto. }
  assert (forall i s, i < N -> In s (slots dt' i) -> s_per s = true -> exists l0 e, In (i, l0) pd /\ In e l0 /\ s = pslot d e) as Sper.
  { intros i s0 Hi Hs0 Hp. destruct (Hall i Hi) as [_ A2]. assert (In s0 (filter (fun s => s_per s) (slots dt' i))) as Hin by (apply filter_In; auto).
    rewrite A2 in Hin. apply in_map_iff in Hin. destruct Hin as [e [E He]].
    unfold given in He. apply in_flat_map in He. destruct He as [[i' pn] [Hin He]]. cbn [fst snd] in He. destruct (Nat.eqb_spec i' i) as [->|]; [|destruct He].
    exists pn, e. auto. }
  split.
  { intros [i [s0 [Hi [Hs0 Hp]]]]. rewrite EN' in Hi. destruct (Sper i s0 Hi Hs0 Hp) as [l0 [e [Hin _]]]. destruct Eaxes as [E|E]; auto. rewrite E in Hin. destruct Hin. }
  split; [assumption|]. split; [assumption|]. split; [assumption|].
  assert (forall i j, i < N -> In j (map s_nbr (slots dt' i)) <-> j < N /\ exists n x, tor i j n x) as Sn.
  { intros i j Hi. split.
    - intro Hj. apply in_map_iff in Hj. destruct Hj as [s0 [<- Hs0]]. destruct (s_per s0) eqn:Ep.
      + destruct (Sper i s0 Hi Hs0 Ep) as [l0 [e [Hin [He ->]]]]. cbn [pslot s_nbr]. destruct (Hent i l0 e Hin He) as [_ [Hj [_ [_ [_ [_ Ht]]]]]]. eauto.
      + pose proof (Sreg i s0 Hi Hs0 Ep) as Hc. apply Hctor in Hc. destruct Hc as [_ [Hj [n [Ht _]]]]. eauto.
    - intros [Hj [n [x Ht]]]. destruct (Hall i Hi) as [A1 A2]. destruct (Hcases i j n x Hi Hj Ht) as [Hu|Hw].
      + assert (In (j, x) (regular_links dt' i)) as Hin by (rewrite A1; apply (bl_links _ _ _ _ _ _ _ G i Hi); apply Hctor; eauto).
        unfold regular_links in Hin. apply in_map_iff in Hin. destruct Hin as [s0 [E Hs0]]. apply filter_In in Hs0. apply in_map_iff. exists s0. split; [congruence|tauto].
      + destruct (Hpd2 i j n x Hi Hj Ht Hw) as [l0 [Hin Hj']]. apply in_map_iff in Hj'. destruct Hj' as [e [<- He]].
        assert (In (pslot d e) (filter (fun s => s_per s) (slots dt' i))) as Hin'.
        { rewrite A2. apply in_map. rewrite (given_in pd i l0); auto. }
        apply filter_In in Hin'. apply in_map_iff. exists (pslot d e). split; auto. apply Hin'. }
  assert (forall i, i < N -> NoDup (map s_nbr (slots dt' i))) as Snd.
  { intros i Hi. destruct (Hall i Hi) as [A1 A2]. apply (partition_NoDup s_nbr (fun s => s_per s)).
    - rewrite A2, map_map. change (fun x => s_nbr (pslot d x)) with pn_idx. destruct (in_dec Nat.eq_dec i (map fst pd)) as [Hin|Hin].
      + apply in_map_iff in Hin. destruct Hin as [[i' l0] [E Hin]]. cbn in E. subst i'. rewrite (given_in pd i l0 T1 Hin). apply (T2 i l0 Hin).
      + rewrite given_notin by auto. constructor.
    - assert (map s_nbr (filter (fun s => negb (s_per s)) (slots dt' i)) = map fst (regular_links dt' i)) as -> by (unfold regular_links; rewrite map_map; reflexivity).
      rewrite A1. apply (bl_links _ _ _ _ _ _ _ G i Hi).
    - intros x y Hx Hy Px Py E. destruct (Sper i x Hi Hx Px) as [l0 [e [Hin [He ->]]]]. pose proof (Sreg i y Hi Hy Py) as Hc. rewrite <- E in Hc. cbn [pslot s_nbr] in Hc.
      destruct (Hpd1 i l0 (pn_idx e) Hin (in_map _ _ _ He)) as [_ [_ [_ Hn]]]. apply Hn. eauto. }
  split.
  - constructor; rewrite ?EN', ?EI'; auto.
    intros i s0 Hi Hs0. destruct (s_per s0) eqn:Ep.
    + destruct (Sper i s0 Hi Hs0 Ep) as [l0 [e [Hin [He ->]]]]. cbn [pslot s_nbr s_nvec s_axes s_dist]. destruct (Hent i l0 e Hin He) as [_ [Hj [Ln [La [Hw [Hiff Ht]]]]]].
      eexists. split; [exact Ht|]. split; [|intros _; split; [exact Ln|]].
      * split; [discriminate|]. intro H. exfalso. destruct Hw as [[k [Hk Hne]] _]. apply Hne. specialize (H k Hk). rewrite nth_cell_diff in H by auto. lia.
      * intros k Hk. rewrite nth_cell_diff by auto. split; [lia|]. destruct Hw as [_ Hw]. destruct (Hw k Hk) as [E|[Hina E]]; auto. right. split; auto. split; auto.
        apply in_or_app. left. apply Hiff; auto. specialize (HL k Hk). lia.
    + pose proof (Sreg i s0 Hi Hs0 Ep) as Hc. apply Hctor in Hc. destruct Hc as [_ [Hj [n [Ht E]]]]. exists n. split; auto. split; [tauto|]. discriminate.
  - rewrite EN', EI'. intros Hfull i Bs Hi HB1 HB2. rewrite <- (map_length s_nbr). apply Nat.le_antisymm.
    + apply (relation_length (fun j bn => j < N /\ fst bn = atom_of I j /\ exists x, tor i j (snd bn) x)); auto.
      * intros j Hj. apply Sn in Hj; auto. destruct Hj as [Lj [n [x Ht]]]. exists (atom_of I j, n). split; [split; [auto|split; [auto|eauto]]|]. apply HB2. exists x. apply Ht.
      * intros j1 j2 [b n] _ _ [L1 [A1 [x1 [_ Hmod1]]]] [L2 [A2 [x2 [_ Hmod2]]]]. cbn [fst snd] in *. apply Hinj; auto; [congruence|]. intros k Hk.
        destruct (Hcell j1 L1) as [B1 _]. destruct (Hcell j2 L2) as [B2 _]. specialize (B1 k Hk). specialize (B2 k Hk).
        assert (nth k L 0 | nth k (nth j1 I []) 0 - (nth k (nth i I []) 0 + nth k n 0))%Z as [q1 F1] by (destruct (Hmod1 k Hk) as [F|[_ F]]; auto; rewrite F; exists 0%Z; lia).
        assert (nth k L 0 | nth k (nth j2 I []) 0 - (nth k (nth i I []) 0 + nth k n 0))%Z as [q2 F2] by (destruct (Hmod2 k Hk) as [F|[_ F]]; auto; rewrite F; exists 0%Z; lia).
        assert (q1 = q2) as -> by nia. lia.
    + apply (relation_length (fun bn j => j < N /\ fst bn = atom_of I j /\ exists x, tor i j (snd bn) x)); auto.
      * intros [b n] Hbn. apply HB2 in Hbn. destruct Hbn as [x Hbn]. pose proof Hbn as [_ [Hb' [Ln _]]].
        set (e := map (fun k => (nth k o 0 + (nth k (nth i I []) 0 + nth k n 0 - nth k o 0) mod nth k L 0)%Z) (seq 0 d)).
        assert (forall k, k < d -> nth k e 0%Z = (nth k o 0 + (nth k (nth i I []) 0 + nth k n 0 - nth k o 0) mod nth k L 0)%Z) as He.
        { intros k Hk. unfold e. rewrite (nth_map_in _ _ _ 0) by (rewrite seq_length; auto). rewrite seq_nth by auto. reflexivity. }
        assert (length e = d) as Le by (unfold e; rewrite map_length, seq_length; auto).
        destruct (Hsite e b Le) as [j [Hj [Ej Aj]]]; auto.
        { intros k Hk. rewrite He by auto. pose proof (HL k Hk). pose proof (Z.mod_pos_bound (nth k (nth i I []) 0 + nth k n 0 - nth k o 0)%Z (nth k L 0%Z) ltac:(lia)). lia. }
        assert (tor i j n x) as Ht.
        { split; [rewrite Ej, last_last, Nat2Z.id; exact Hbn|]. intros k Hk. right. split; auto. rewrite Ej, app_nth1, He by lia.
          pose proof (HL k Hk). set (z := (nth k (nth i I []) 0 + nth k n 0 - nth k o 0)%Z). exists (- (z / nth k L 0))%Z. pose proof (Z.div_mod z (nth k L 0%Z) ltac:(lia)). unfold z in *. lia. }
        exists j. split; [cbn [fst snd]; split; [auto|split; [auto|eauto]]|]. apply Sn; eauto.
      * intros [b1 n1] [b2 n2] j _ _ [Lj [A1 [x1 Ht1]]] [_ [A2 [x2 Ht2]]]. cbn [fst snd] in *. f_equal; [congruence|]. exact (Hnuniq i j n1 n2 x1 x2 Hi Lj Ht1 Ht2).
Qed.

(** The periodic argument of [build] is that of [set_periodic]. *)
Lemma build_periodic query argsort norms l sh primitive pos check mn callback axes l1 :
  build query argsort norms l sh primitive pos check mn None callback = (l1, Ok tt) ->
  build query argsort norms l sh primitive pos check mn (Some (AxList axes)) callback = set_periodic query argsort l1 (AxList axes).
Proof.
  unfold build. destruct (build_tables _ _ _ _ _ _ _ _ _ _) as [[[I P] rows]|e]; [|discriminate]. destruct (data_set _ _ _ _); [|discriminate].
  intro E. injection E as <-. reflexivity.
Qed.

Lemma lattice_point_cells d V r n n' : (forall k, k < d -> nth k n 0%Z = nth k n' 0%Z) -> same (lattice_point d V r n) (lattice_point d V r n').
Proof.
  intro H. split; [rewrite !lattice_point_length; auto|]. intro i. destruct (Nat.lt_ge_cases i d) as [Hi|Hi].
  - rewrite !nth_lattice_point by auto. rewrite (sum_ext d _ (fun k => entry V i k * inject_Z (nth k n' 0%Z))%Q); [reflexivity|]. intros k Hk. rewrite H by auto. reflexivity.
  - rewrite !nth_overflow by (rewrite lattice_point_length; auto). reflexivity.
Qed.

Theorem C90_built_block :
  forall query argsort norms s s' conns an r m cells l sh primitive pos check callback I P o L,
    correct_tree query -> is_argsort dleb argsort ->
    valid_basis (st_basis s) -> 1 <= b_dim (st_basis s) -> in_step s -> st_connections s = Some conns ->
    analyze query s = (s', Ok tt) -> st_analysis s' = Some an -> query_radius an = Some r -> lt_structure l = s' ->
    (forall a c, nth c (nth a conns []) 0 <= m) -> (exists a c, nth c (nth a conns []) 0 = m) ->
    get_neighbor_cells (st_basis s) (2 * m) true Qle_bool = Some cells ->
    let d := b_dim (st_basis s) in
    let V := b_mat (st_basis s) in
    let R := st_positions s in
    let allowed a c := among_first (nth c (nth a conns []) 0) (occurs d V R cells a c) in
    (* the sites: all atoms of a block of cells *)
    (primitive = true -> length norms = d) -> fitting d sh primitive pos -> incongruent d V R ->
    build_indices (st_basis s) norms R (AShape (build_shape (st_basis s) sh primitive pos)) primitive pos check callback = Ok (I, P) ->
    (forall k, k < d -> (1 <= nth k L 0)%Z) ->
    (forall t, In t I <-> exists n a, t = n ++ [Z.of_nat a] /\ length n = d /\ box d o L n /\ a < length R) ->
    (* the guards of C71 *)
    (exists values, length values <= 255 /\ forall a c x, a < length R -> c < length R -> allowed a c x -> In x values) ->
    ((exists i i', i < length P /\ i' < length P /\ fewer (connected_sites allowed I P) i i') \/
     (forall i j p, i <> j -> nth_error P i = Some p -> within P p (r * r)%Q j -> exists x, connected_sites allowed I P i j x)) ->
    (forall a c x, a < length R -> c < length R -> occurs d V R cells a c x -> dleb (Fin 6) x = true) ->
    crowd d V R (query_count an) r ->
    exists l' dt, build query argsort norms l sh primitive pos check None None callback = (l', Ok tt) /\
      lt_structure l' = s' /\ lt_primitive l' = Some primitive /\ lt_shape l' <> None /\ lt_data l' = Some dt /\
      d_indices dt = I /\ d_positions dt = P /\ block d V R allowed o L dt.
Proof.
  intros query argsort norms s s' conns an r m cells l sh primitive pos check callback I P o L Hq Harg Hb Hd Hs Ec Ha Ean Er El Hm1 Hm2 Ecells d V R allowed
    Hnorms Hfit Hinc EI HL HI Hval Hpad Hsep Hcrowd.
  assert (forall x, In x R -> length x = d) as HR by (intros x Hx; apply Hs; auto).
  assert (R <> []) as HRne.
  { destruct (analysed_table query s s' Hb Hd Hs Ha) as [conns' [cells' [_ [_ [H _]]]]]. exact H. }
  assert (I <> []) as HIne.
  { intro E. rewrite E in HI. apply (HI (map (fun k => nth k o 0%Z) (seq 0 d) ++ [Z.of_nat 0])). eexists _, 0. split; [reflexivity|]. split; [rewrite map_length, seq_length; auto|]. split; [|destruct R; [congruence|cbn; lia]].
    intros k Hk. rewrite (nth_map_in _ _ _ 0) by (rewrite seq_length; auto). rewrite seq_nth by auto. change (0 + k) with k. specialize (HL k Hk). lia. }
  destruct (C31_indices_and_positions_aligned _ _ _ _ _ _ _ _ _ _ Hb Hnorms HR EI) as [Hlen [Hal _]].
  pose proof (C33_no_site_twice _ _ _ _ _ _ _ _ _ _ Hb Hnorms HR EI) as HNI.
  (* the position of a site *)
  assert (forall i p, nth_error P i = Some p -> same p (lattice_point d V (nth (atom_of I i) R []) (nth i I [])) /\ atom_of I i < length R) as Hpos.
  { intros i p Hp. destruct (nth_error_lt I i) as [t Ht]; [rewrite Hlen; eapply nth_error_length_lt; eauto|]. destruct (Hal i t p Ht Hp) as [n [a [x [Et [Ln [Hx Hsame]]]]]].
    unfold atom_of. rewrite (nth_of_nth_error _ _ _ _ Ht), Et, last_last, Nat2Z.id, (nth_of_nth_error _ _ _ _ Hx). split; [|eapply nth_error_length_lt; eauto].
    destruct Hsame as [S1 S2]. assert (same (lattice_point d V x n) (lattice_point d V x (n ++ [Z.of_nat a]))) as [S3 S4] by (apply lattice_point_cells; intros k Hk; rewrite app_nth1 by (unfold d in Hk; lia); auto).
    split; [rewrite S1; auto|]. intro k. rewrite S2. apply S4. }
  assert (forall p, In p P -> at_most (query_count an) (within P p (r * r)%Q)) as Hroom.
  { intros p Hp l0 Hl1 Hl2. apply In_nth_error in Hp. destruct Hp as [i Hp]. destruct (Hpos i p Hp) as [Si Ai].
    assert (forall j, In j l0 -> exists q, nth_error P j = Some q /\ (sqdist p q <= r * r)%Q) as Hj by (intros j Hj; apply Hl2; auto).
    rewrite <- (map_length (fun j => (atom_of I j, cell_diff d (nth i I []) (nth j I []) [])) l0). apply (Hcrowd (atom_of I i)); auto.
    - apply NoDup_map_in; auto. intros j j' Hjl Hjl' E. injection E as E1 E2. destruct (Hj j Hjl) as [q [Hq1 _]]. destruct (Hj j' Hjl') as [q' [Hq2 _]].
      assert (j < length I) as Lj by (rewrite Hlen; eapply nth_error_length_lt; eauto). assert (j' < length I) as Lj' by (rewrite Hlen; eapply nth_error_length_lt; eauto).
      apply (proj1 (NoDup_nth I []) HNI); auto. assert (In (nth j I []) I) as G1 by (apply nth_In; auto). assert (In (nth j' I []) I) as G2 by (apply nth_In; auto).
      apply HI in G1. apply HI in G2. destruct G1 as [n1 [a1 [F1 [L1 _]]]]. destruct G2 as [n2 [a2 [F2 [L2 _]]]]. unfold atom_of in E1. rewrite F1, F2, !last_last, !Nat2Z.id in *. subst a2. f_equal.
      apply (list_eq_nth _ _ 0%Z); [congruence|]. intros k Hk. apply (f_equal (fun v => nth k v 0%Z)) in E2. rewrite !nth_cell_diff in E2 by lia. rewrite !app_nth1 in E2 by lia. lia.
    - intros b n' Hin. apply in_map_iff in Hin. destruct Hin as [j [E Hjl]]. injection E as <- <-. destruct (Hj j Hjl) as [q [Hq' Hle]]. destruct (Hpos j q Hq') as [Sj Aj].
      split; auto. split; [apply cell_diff_length|]. eapply Qle_trans; [|exact Hle]. apply Qle_lteq. right. rewrite <- (translated_distance d V _ _ _ _ [] p q (HR _ (nth_In _ _ Ai)) Si Sj).
      unfold sqdist. rewrite lattice_point_length. destruct Si as [Lp _]. rewrite lattice_point_length in Lp. rewrite Lp. apply sum_ext. intros k Hk. rewrite nth_lattice_point by auto.
      assert (sum_upto d (fun k0 => entry V k k0 * inject_Z (nth k0 [] 0%Z)) == 0)%Q as ->; [|ring].
      clear. induction d as [|e IH]; cbn [sum_upto]; [reflexivity|]. rewrite IH. destruct e; cbn; ring. }
  destruct (C71_build_connects_the_sites query argsort norms s s' conns an l sh primitive pos check callback I P r Hq Harg Hb Hd Hs Ec Ha Ean El Hnorms Hfit Hinc EI HIne Er Hroom)
    as [m' [cells' [Hm1' [Hm2' [Ecells' H]]]]].
  assert (m' = m) as -> by (destruct Hm2 as [a1 [c1 E1]]; destruct Hm2' as [a2 [c2 E2]]; specialize (Hm1' a1 c1); specialize (Hm1 a2 c2); lia).
  rewrite Ecells in Ecells'. injection Ecells' as <-. cbv zeta in H.
  destruct (H Hsep Hval Hpad) as (l1 & dt & Ebuild & Es & Eprim & Eshape & Edt & W & Lay & _ & Edim & EI1 & EP1 & Hreg & Hlinks). clear H.
  assert (block d V R allowed o L dt) as G.
  { constructor; auto; rewrite ?EI1, ?EP1; auto.
    - intros i Hi. unfold nsites in Hi. rewrite EI1, Hlen in Hi. destruct (nth_error_lt P i Hi) as [p Hp]. rewrite (nth_of_nth_error _ _ _ _ Hp). apply (Hpos i p Hp).
    - intros i Hi. rewrite regular_all by (intros; eapply Hreg; eauto). unfold nsites in Hi. rewrite EI1, Hlen in Hi. apply Hlinks. auto. }
  exists l1, dt. auto 10.
Qed.

Theorem C90_built_torus :
  forall query argsort norms s s' conns an r m cells l sh primitive pos check callback I P o L axes,
    correct_tree query -> is_argsort dleb argsort ->
    valid_basis (st_basis s) -> 1 <= b_dim (st_basis s) -> in_step s -> st_connections s = Some conns ->
    analyze query s = (s', Ok tt) -> st_analysis s' = Some an -> query_radius an = Some r -> lt_structure l = s' ->
    (forall a c, nth c (nth a conns []) 0 <= m) -> (exists a c, nth c (nth a conns []) 0 = m) ->
    get_neighbor_cells (st_basis s) (2 * m) true Qle_bool = Some cells ->
    let d := b_dim (st_basis s) in
    let V := b_mat (st_basis s) in
    let R := st_positions s in
    let allowed a c := among_first (nth c (nth a conns []) 0) (occurs d V R cells a c) in
    (* the sites: all atoms of a block of cells *)
    (primitive = true -> length norms = d) -> fitting d sh primitive pos -> incongruent d V R ->
    build_indices (st_basis s) norms R (AShape (build_shape (st_basis s) sh primitive pos)) primitive pos check callback = Ok (I, P) ->
    (forall k, k < d -> (1 <= nth k L 0)%Z) ->
    (forall t, In t I <-> exists n a, t = n ++ [Z.of_nat a] /\ length n = d /\ box d o L n /\ a < length R) ->
    (* the guards of C71 *)
    (exists values, length values <= 255 /\ forall a c x, a < length R -> c < length R -> allowed a c x -> In x values) ->
    ((exists i i', i < length P /\ i' < length P /\ fewer (connected_sites allowed I P) i i') \/
     (forall i j p, i <> j -> nth_error P i = Some p -> within P p (r * r)%Q j -> exists x, connected_sites allowed I P i j x)) ->
    (* the periodic axes and the bonds *)
    (primitive = true \/ axis_aligned d V) -> NoDup axes -> (forall k, In k axes -> k < d) ->
    (forall a b n x, bond d V R allowed a b n x -> short L axes n /\ (d <= 2 \/ along_two axes n)) ->
    (forall a c x, a < length R -> c < length R -> occurs d V R cells a c x -> dleb (Fin 6) x = true) ->
    crowd d V R (query_count an) r ->
    exists l' dt, build query argsort norms l sh primitive pos check None (Some (AxList axes)) callback = (l', Ok tt) /\
      lt_structure l' = s' /\ lt_data l' = Some dt /\ d_indices dt = I /\ d_positions dt = P /\
      ((exists i s, i < nsites dt /\ In s (slots dt i) /\ s_per s = true) -> lt_axes l' = axes) /\
      torus_block d V R allowed L axes dt /\
      ((forall k, k < d -> In k axes) -> forall i B, i < nsites dt -> NoDup B ->
        (forall b n, In (b, n) B <-> exists x, bond d V R allowed (atom_of I i) b n x) -> length (slots dt i) = length B).
Proof.
  intros query argsort norms s s' conns an r m cells l sh primitive pos check callback I P o L axes Hq Harg Hb Hd Hs Ec Ha Ean Er El Hm1 Hm2 Ecells d V R allowed
    Hnorms Hfit Hinc EI HL HI Hval Hpad Hpa HN Hax Hbond Hsep Hcrowd.
  destruct (C90_built_block query argsort norms s s' conns an r m cells l sh primitive pos check callback I P o L Hq Harg Hb Hd Hs Ec Ha Ean Er El Hm1 Hm2 Ecells
    Hnorms Hfit Hinc EI HL HI Hval Hpad Hsep Hcrowd) as (l1 & dt & Ebuild & Es & Eprim & Eshape & Edt & EI1 & EP1 & G).
  destruct (C90_torus query argsort s l1 conns an r m cells o L axes dt) as (l' & dt' & Eset & E1 & E2 & E3 & E4 & E5 & E6 & E7 & E8 & E9); auto; try (rewrite Es; auto).
  { destruct Hpa as [->|Hpa]; [left; exact Eprim|right; exact Hpa]. }
  exists l', dt'. rewrite (build_periodic _ _ _ _ _ _ _ _ _ _ axes _ Ebuild). rewrite E6, EI1 in *. rewrite E7, EP1. split; auto. split; [congruence|]. auto 7.
Qed.

(** A skew lattice, (5, 0) and (3, 4): each atom has six neighbours, two at the distance sqrt 20 and four at the distance 5. *)
Definition ex_skew : basis := mkBasis [[5; 3]; [0; 4]]%Q [[1#5; -3#20]; [0; 1#4]]%Q.
Definition skew_atom : structure :=
  Eval vm_compute in run_calls brute ex_skew [CAddAtom (Some [0; 0]%Q) (ex_atom "A") false 2].
Definition skew_indices : list (list Z) :=
  [[0; 0; 0]; [0; 1; 0]; [0; 2; 0]; [1; 0; 0]; [1; 1; 0]; [1; 2; 0]; [2; 0; 0]; [2; 1; 0]; [2; 2; 0]]%Z.
Definition skew_points : list (list Q) :=
  Eval vm_compute in match build_indices ex_skew [5; 5]%Q [[0; 0]]%Q (AShape (build_shape ex_skew (ASize [2; 2]%Q) true None)) true None true None with
  | Ok (_, P) => P | _ => [] end.

Definition skew_block : lattice :=
  Eval vm_compute in fst (build brute dist_argsort [5; 5]%Q (new_lattice skew_atom) (ASize [2; 2]%Q) true None true None None None).
Definition skew_torus : lattice := Eval vm_compute in fst (set_periodic brute dist_argsort skew_block (AxList [0; 1])).
Lemma build_skew_block :
  build brute dist_argsort [5; 5]%Q (new_lattice skew_atom) (ASize [2; 2]%Q) true None true None None None = (skew_block, Ok tt).
Proof. vm_compute. reflexivity. Qed.
Lemma set_skew_torus : set_periodic brute dist_argsort skew_block (AxList [0; 1]) = (skew_torus, Ok tt).
Proof. vm_compute. reflexivity. Qed.
Lemma build_skew_torus :
  build brute dist_argsort [5; 5]%Q (new_lattice skew_atom) (ASize [2; 2]%Q) true None true None (Some (AxList [0; 1])) None = (skew_torus, Ok tt).
Proof. vm_compute. reflexivity. Qed.

Lemma skew_square m1 m2 : (sqdist [0; 0] (lattice_point 2 [[5; 3]; [0; 4]] [0; 0] [m1; m2]) ==
  inject_Z ((5 * m1 + 3 * m2) * (5 * m1 + 3 * m2) + 16 * m2 * m2))%Q.
Proof.
  unfold sqdist, lattice_point, entry. cbn -[Qplus Qmult Qminus inject_Z Z.mul Z.add].
  rewrite !inject_Z_plus, !inject_Z_mult, !inject_Z_plus, !inject_Z_mult.
  change (inject_Z 5) with 5%Q. change (inject_Z 3) with 3%Q. change (inject_Z 16) with 16%Q. ring.
Qed.

Lemma skew_near m1 m2 : ((5 * m1 + 3 * m2) * (5 * m1 + 3 * m2) + 16 * m2 * m2 <= 29)%Z ->
  In [m1; m2] [[0; 0]; [1; 0]; [-1; 0]; [0; 1]; [0; -1]; [1; -1]; [-1; 1]]%Z.
Proof.
  intro H. assert (-1 <= m2 <= 1)%Z as B2 by nia.
  assert ((5 * m2 + 3 * m1) * (5 * m2 + 3 * m1) + 16 * m1 * m1 <= 29)%Z as H' by nia.
  assert (-1 <= m1 <= 1)%Z as B1 by nia.
  assert (m1 = -1 \/ m1 = 0 \/ m1 = 1)%Z as [-> | [-> | ->]] by lia; assert (m2 = -1 \/ m2 = 0 \/ m2 = 1)%Z as [-> | [-> | ->]] by lia; cbn in *; try lia; tauto.
Qed.

Example C90_built_torus_example :
  valid_basis ex_skew /\ in_step skew_atom /\ st_basis skew_atom = ex_skew /\ st_positions skew_atom = [[0; 0]]%Q /\
  st_connections skew_atom = Some [[2]] /\ incongruent 2 (b_mat ex_skew) [[0; 0]]%Q /\ fitting 2 (ASize [2; 2]%Q) true None /\
  exists s' an r cells, analyze brute skew_atom = (s', Ok tt) /\ st_analysis s' = Some an /\ query_radius an = Some r /\
    get_neighbor_cells ex_skew 4 true Qle_bool = Some cells /\
    build_indices ex_skew [5; 5]%Q [[0; 0]]%Q (AShape (build_shape ex_skew (ASize [2; 2]%Q) true None)) true None true None =
      Ok (skew_indices, skew_points) /\
    (forall t, In t skew_indices <-> exists n a, t = n ++ [Z.of_nat a] /\ length n = 2 /\ box 2 [0; 0]%Z [3; 3]%Z n /\ a < 1) /\
    let allowed a c := among_first (nth c (nth a [[2]] []) 0) (occurs 2 (b_mat ex_skew) [[0; 0]]%Q cells a c) in
    (forall a c x, a < 1 -> c < 1 -> allowed a c x <-> In x [Fin 4472136; Fin 5000000]) /\
    fewer (connected_sites allowed skew_indices skew_points) 0 4 /\
    (forall a b n x, bond 2 (b_mat ex_skew) [[0; 0]]%Q allowed a b n x -> short [3; 3]%Z [0; 1] n) /\
    (forall a c x, a < 1 -> c < 1 -> occurs 2 (b_mat ex_skew) [[0; 0]]%Q cells a c x -> dleb (Fin 6) x = true) /\
    crowd 2 (b_mat ex_skew) [[0; 0]]%Q (query_count an) r /\
    (exists l' dt, build brute dist_argsort [5; 5]%Q (new_lattice s') (ASize [2; 2]%Q) true None true None (Some (AxList [0; 1])) None = (l', Ok tt) /\
       lt_data l' = Some dt /\
       map (fun s => (s_nbr s, s_dist s, s_per s, s_nvec s)) (slots dt 0) =
         [(1, Fin 5000000, false, [0; 0]%Z); (3, Fin 5000000, false, [0; 0]%Z); (2, Fin 5000000, true, [0; 3]%Z);
          (5, Fin 4472136, true, [0; 3]%Z); (6, Fin 5000000, true, [3; 0]%Z); (7, Fin 4472136, true, [3; 0]%Z)]).
Proof.
  assert (valid_basis ex_skew) as HV by (apply inverse2_check; reflexivity). split; auto. split.
  { apply (reachable_in_step brute ex_skew). change skew_atom with (run_calls brute ex_skew [CAddAtom (Some [0; 0]%Q) (ex_atom "A") false 2]).
    unfold run_calls. cbn [fold_left]. repeat (apply r_call; [|intro; reflexivity || discriminate]). apply r_new. }
  do 3 (split; [reflexivity|]).
  split; [intros a c n Ha Hc _ _; cbn in Ha, Hc; lia|]. split; [split; [discriminate|reflexivity]|].
  eexists _, _, _, _. split; [vm_compute; reflexivity|]. split; [reflexivity|]. split; [vm_compute; reflexivity|]. split; [vm_compute; reflexivity|].
  split; [vm_compute; reflexivity|]. split.
  { intro t. split.
    - intro Ht. repeat (destruct Ht as [<-|Ht]; [match goal with |- exists n a, [?x; ?y; ?z] = _ /\ _ => exists [x; y], 0 end;
        split; [reflexivity|]; split; [reflexivity|]; split; [|lia]; intros [|[|k]] Hk; cbn; lia|]). destruct Ht.
    - intros [n [a [-> [Hn [Hb Ha]]]]]. destruct a; [|lia]. destruct n as [|n1 [|n2 [|? ?]]]; try discriminate.
      pose proof (Hb 0 ltac:(lia)) as B1. pose proof (Hb 1 ltac:(lia)) as B2. cbn in B1, B2.
      assert (n1 = 0 \/ n1 = 1 \/ n1 = 2)%Z as [-> | [-> | ->]] by lia; assert (n2 = 0 \/ n2 = 1 \/ n2 = 2)%Z as [-> | [-> | ->]] by lia; cbn; tauto. }
  match goal with |- context [occurs _ _ _ ?l] => set (cs := l) end. cbv zeta.
  match goal with |- ?A /\ _ => assert A as HA end.
  { intros a c x Ha Hc. destruct a, c; try lia.
    assert (forall r, In r [[0; 0]]%Q -> length r = b_dim ex_skew) as HR by (intros r [<-|[]]; reflexivity).
    pose proof (in_raw brute ex_skew [[0; 0]]%Q cs [[2]] brute_nearest HV ltac:(cbn; lia) HR ltac:(vm_compute; reflexivity) 0 0 x ltac:(cbn; lia) ltac:(cbn; lia)) as H.
    refine (iff_trans (iff_sym H) _).
    assert (dd_keys (entry2 [] (raw_dicts brute ex_skew [[0; 0]]%Q (max_connections [[2]]) cs) 0 0) = [Fin 4472136; Fin 5000000]) as ->
      by (vm_compute; reflexivity). tauto. }
  split; [exact HA|].
  set (allowed := fun a c => among_first (nth c (nth a [[2]] []) 0) (occurs 2 (b_mat ex_skew) [[0; 0]]%Q cs a c)) in *.
  change (forall a c x, a < 1 -> c < 1 -> allowed a c x <-> In x [Fin 4472136; Fin 5000000]) in HA.
  assert (forall j, atom_of skew_indices j = 0) as Hat.
  { intro j. do 9 (destruct j as [|j]; [reflexivity|]). unfold atom_of. rewrite nth_overflow by (cbn; lia). reflexivity. }
  split.
  { exists [1; 2; 3; 5; 6; 7]. split; [repeat constructor; cbn; intuition congruence|]. split.
    - assert (forall q z, In (Fin z) [Fin 4472136; Fin 5000000] -> site_distance skew_points 4 q (Fin z) -> q <> 4 ->
        exists x, connected_sites allowed skew_indices skew_points 4 q x) as Hq.
      { intros q z Hz Hq1 Hq4. exists (Fin z). split; auto. split; auto. rewrite !Hat. apply HA; auto. }
      intros j Hj. repeat (destruct Hj as [<-|Hj]; [match goal with |- exists x, connected_sites _ _ _ _ ?j x =>
          apply (Hq j (sqrt_micro (sqdist (nth 4 skew_points []) (nth j skew_points [])))); [vm_compute; auto| |lia];
          eexists _, _, _; split; [reflexivity|]; split; [reflexivity|]; split; [reflexivity|]; apply sqrt_micro_rounds; apply sqdist_nonneg end|]). destruct Hj.
    - intros L Hnd HL. apply (Nat.le_lt_trans _ (length [1; 3])); [|cbn; lia]. apply NoDup_incl_length; auto. intros j Hj.
      destruct (HL j Hj) as [x [Hx1 [[p [q [z [Hp [Hq [-> Hz]]]]]] Hx3]]]. rewrite !Hat in Hx3. apply HA in Hx3; [|lia|lia].
      rewrite (rounds_unique _ _ _ _ Hz (sqrt_micro_rounds _ (sqdist_nonneg _ _)) (Qeq_refl _)) in Hx3.
      injection Hp as <-. do 9 (destruct j as [|j]; [injection Hq as <-; vm_compute in Hx3; (exfalso; destruct Hx3 as [Hx3|[Hx3|[]]]; discriminate) || congruence || (cbn; tauto)|]).
      destruct j; discriminate. }
  split.
  { intros a b n x [Ha [Hb [Hn [[z [-> Hz]] Hx]]]]. cbn in Ha, Hb. destruct a, b; try lia. apply HA in Hx; [|lia|lia].
    destruct n as [|n1 [|n2 [|? ?]]]; try discriminate. cbn [nth] in Hz.
    apply (rounds_ext _ _ _ (skew_square n1 n2)) in Hz. destruct Hz as [_ [Hz _]].
    assert (In [n1; n2] [[0; 0]; [1; 0]; [-1; 0]; [0; 1]; [0; -1]; [1; -1]; [-1; 1]]%Z) as Hm.
    { apply skew_near. set (w := ((5 * n1 + 3 * n2) * (5 * n1 + 3 * n2) + 16 * n2 * n2)%Z) in *.
      assert (z <= 5000000)%Z as Hz5 by (destruct Hx as [E|[E|[]]]; injection E as <-; lia).
      assert (0 <= z)%Z as Hz0 by (destruct Hx as [E|[E|[]]]; injection E as <-; lia).
      destruct Hx as [E|[E|[]]]; injection E as <-;
        (apply Z.lt_succ_r; rewrite Zlt_Qlt; change (inject_Z (Z.succ 29)) with 30%Q; match type of Hz with (_ <= ?b)%Q => let b0 := eval vm_compute in b in change b with b0 in Hz end; lra). }
    intros k Hk. cbn in Hk. repeat (destruct Hm as [E|Hm]; [injection E as <- <-; destruct Hk as [<-|[<-|[]]]; cbn; lia|]). destruct Hm. }
  split; [apply (apart_checked 2 (b_mat ex_skew) [[0; 0]]%Q); vm_compute; reflexivity|]. split.
  { intros a B Ha Hnd HB. cbn in Ha. destruct a; [|lia].
    match goal with |- _ <= ?k => change k with (length (map (pair 0) [[0; 0]; [1; 0]; [-1; 0]; [0; 1]; [0; -1]; [1; -1]; [-1; 1]]%Z)) end.
    apply NoDup_incl_length; auto. intros [b n] Hbn. destruct (HB b n Hbn) as [Hb [Hn Hd]]. cbn in Hb. destruct b; [|lia].
    destruct n as [|n1 [|n2 [|? ?]]]; try discriminate. apply in_map. apply skew_near. cbn [nth] in Hd. change (b_mat ex_skew) with [[5; 3]; [0; 4]]%Q in Hd. rewrite skew_square in Hd.
    apply Z.lt_succ_r. rewrite Zlt_Qlt. eapply Qle_lt_trans; [exact Hd|]. vm_compute. reflexivity. }
  eexists _, _. split; [exact build_skew_torus|]. split; [reflexivity|]. vm_compute. reflexivity.
Qed.

(** The block of nine cells meets the hypotheses of [C90_torus]. *)
Example C90_example :
  exists l dt cells an r, build brute dist_argsort [5; 5]%Q (new_lattice skew_atom) (ASize [2; 2]%Q) true None true None None None = (l, Ok tt) /\
    analyze brute skew_atom = (lt_structure l, Ok tt) /\ st_analysis (lt_structure l) = Some an /\ query_radius an = Some r /\
    get_neighbor_cells ex_skew 4 true Qle_bool = Some cells /\ lt_data l = Some dt /\ lt_primitive l = Some true /\ lt_shape l <> None /\
    let allowed a c := among_first (nth c (nth a [[2]] []) 0) (occurs 2 (b_mat ex_skew) [[0; 0]]%Q cells a c) in
    block 2 (b_mat ex_skew) [[0; 0]]%Q allowed [0; 0]%Z [3; 3]%Z dt /\
    crowd 2 (b_mat ex_skew) [[0; 0]]%Q (query_count an) r /\
    (forall a b n x, bond 2 (b_mat ex_skew) [[0; 0]]%Q allowed a b n x -> short [3; 3]%Z [0; 1] n) /\
    exists l' dt', set_periodic brute dist_argsort l (AxList [0; 1]) = (l', Ok tt) /\ lt_data l' = Some dt' /\
      torus_block 2 (b_mat ex_skew) [[0; 0]]%Q allowed [3; 3]%Z [0; 1] dt' /\ map (fun i => length (slots dt' i)) (seq 0 9) = repeat 6 9.
Proof.
  destruct C90_built_torus_example as (HV & Hstep & _ & _ & Hconn & Hinc & Hfit & s' & an & r & cells & Ha & Ean & Er & Ecells & EI & HI & HA & Hf & Hb & Hsep & Hcr & _).
  assert (s' = skew_atom) as -> by (vm_compute in Ha; injection Ha as <-; reflexivity).
  set (allowed := fun a c => among_first (nth c (nth a [[2]] []) 0) (occurs 2 (b_mat ex_skew) [[0; 0]]%Q cells a c)) in *.
  assert (forall a c, nth c (nth a [[2]] []) 0 <= 2) as Hm1 by (intros [|[|a]] [|[|c]]; cbn; lia).
  assert (exists a c, nth c (nth a [[2]] []) 0 = 2) as Hm2 by (exists 0, 0; reflexivity).
  destruct (C90_built_block brute dist_argsort [5; 5]%Q skew_atom skew_atom [[2]] an r 2 cells (new_lattice skew_atom) (ASize [2; 2]%Q) true None true None
    skew_indices skew_points [0; 0]%Z [3; 3]%Z) as (l & dt & Eb & Es & Ep & Esh & Ed & _ & _ & Hblock); auto using dist_argsort_ok; try exact brute_nearest.
  { cbn; lia. }
  { intros [|[|k]] Hk; cbn in Hk |- *; lia. }
  { exists [Fin 4472136; Fin 5000000]. split; [cbn; lia|]. intros a c x H1 H2 H3. apply (HA a c x) in H3; auto. }
  { left. exists 0, 4. split; [cbn; lia|]. split; [cbn; lia|]. exact Hf. }
  exists l, dt, cells, an, r. split; auto. rewrite Es. do 7 (split; auto). cbv zeta. split; [exact Hblock|]. split; auto. split; auto.
  destruct (C90_torus brute dist_argsort skew_atom l [[2]] an r 2 cells [0; 0]%Z [3; 3]%Z [0; 1] dt) as (l' & dt' & Eset & _ & _ & _ & _ & Ed' & _ & _ & T & _);
    auto using dist_argsort_ok; try exact brute_nearest; try (rewrite Es; auto).
  { cbn; lia. }
  { intros [|[|k]] Hk; cbn in Hk |- *; lia. }
  { repeat constructor; cbn; intuition congruence. }
  { intros k [<-|[<-|[]]]; cbn; lia. }
  { intros a b n x H. split; [eapply Hb; eauto|left; cbn; lia]. }
  exists l', dt'. do 3 (split; auto).
  rewrite build_skew_block in Eb. injection Eb as <-. rewrite set_skew_torus in Eset. injection Eset as <-. injection Ed' as <-. vm_compute. reflexivity.
Qed.

(** [C90_torus] needs its hypothesis on the bonds: in the face-centered cubic lattice the bond (0, 1, -1) goes opposite ways
    along two axes of which none is the first.  In a periodic block of 3 x 3 x 3 cells, in the primitive frame, some sites have
    11 neighbours and not 12. *)
Definition ex_fcc : basis :=
  mkBasis [[0; 1; 1]; [1; 0; 1]; [1; 1; 0]]%Q [[-1#2; 1#2; 1#2]; [1#2; -1#2; 1#2]; [1#2; 1#2; -1#2]]%Q.
Definition fcc_atom : structure :=
  Eval vm_compute in run_calls brute ex_fcc [CAddAtom (Some [0; 0; 0]%Q) (ex_atom "A") false 1].
Definition fcc_bonds : list (list Z) :=
  [[1; 0; 0]; [-1; 0; 0]; [0; 1; 0]; [0; -1; 0]; [0; 0; 1]; [0; 0; -1];
   [1; -1; 0]; [-1; 1; 0]; [1; 0; -1]; [-1; 0; 1]; [0; 1; -1]; [0; -1; 1]]%Z.

Theorem C90_opposite_ways_refuted :
  exists l dt, build brute dist_argsort [1414#1000; 1414#1000; 1414#1000]%Q (new_lattice fcc_atom) (ASize [2; 2; 2]%Q) true None true None
      (Some (AxList [0; 1; 2])) None = (l, Ok tt) /\ lt_data l = Some dt /\
    (forall t, In t (d_indices dt) <-> exists n, t = n ++ [0%Z] /\ length n = 3 /\ box 3 [0; 0; 0]%Z [3; 3; 3]%Z n) /\
    (forall n, In n fcc_bonds -> pair_distance 3 (b_mat ex_fcc) [[0; 0; 0]]%Q 0 0 n (Fin 1414214)) /\
    nth 2 (d_indices dt) [] = [0; 0; 2; 0]%Z /\ length (slots dt 2) = 11 /\
    torus_bond 3 (b_mat ex_fcc) [[0; 0; 0]]%Q (fun _ _ x => x = Fin 1414214) [3; 3; 3]%Z [0; 1; 2] [0; 0; 2; 0]%Z [0; 2; 0; 0]%Z [0; -1; 1]%Z (Fin 1414214) /\
    exists j, nth j (d_indices dt) [] = [0; 2; 0; 0]%Z /\ ~ In j (map s_nbr (slots dt 2)).
Proof.
  assert (forall n, In n fcc_bonds -> pair_distance 3 (b_mat ex_fcc) [[0; 0; 0]]%Q 0 0 n (Fin 1414214)) as Hp.
  { intros n Hn. exists 1414214%Z. split; auto. change 1414214%Z with (sqrt_micro 2). unfold fcc_bonds in Hn.
    repeat (destruct Hn as [<-|Hn]; [eapply rounds_ext; [|apply sqrt_micro_rounds; lra]; vm_compute; reflexivity|]). destruct Hn. }
  eexists _, _. split; [vm_compute; reflexivity|]. split; [reflexivity|]. split.
  { intro t. split.
    - intro Ht. repeat (destruct Ht as [<-|Ht]; [match goal with |- exists n, [?x; ?y; ?z; ?w] = _ /\ _ => exists [x; y; z] end;
        split; [reflexivity|]; split; [reflexivity|]; intros [|[|[|k]]] Hk; cbn; lia|]). destruct Ht.
    - intros [n [-> [Hn Hb]]]. destruct n as [|n1 [|n2 [|n3 [|? ?]]]]; try discriminate.
      pose proof (Hb 0 ltac:(lia)) as B1. pose proof (Hb 1 ltac:(lia)) as B2. pose proof (Hb 2 ltac:(lia)) as B3. cbn in B1, B2, B3.
      assert (n1 = 0 \/ n1 = 1 \/ n1 = 2)%Z as [-> | [-> | ->]] by lia; assert (n2 = 0 \/ n2 = 1 \/ n2 = 2)%Z as [-> | [-> | ->]] by lia;
        assert (n3 = 0 \/ n3 = 1 \/ n3 = 2)%Z as [-> | [-> | ->]] by lia; cbn -[Z.add]; repeat (first [left; reflexivity|right]). }
  split; [exact Hp|]. split; [reflexivity|]. split; [vm_compute; reflexivity|]. split.
  { split; [|intros [|[|[|k]]] Hk; try lia; cbn [nth]; [left; reflexivity|right; split; [cbn; tauto|exists 1%Z; reflexivity]|right; split; [cbn; tauto|exists (-1)%Z; reflexivity]]].
    split; [cbn; lia|]. split; [cbn; lia|]. split; [reflexivity|]. split; auto. apply Hp. unfold fcc_bonds. cbn. tauto. }
  exists 6. split; [reflexivity|]. vm_compute. intuition discriminate.
Qed.

Print Assumptions C90_torus.
Print Assumptions C90_built_block.
Print Assumptions C90_built_torus.
Print Assumptions C90_opposite_ways_refuted.
