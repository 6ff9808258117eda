(** * Property C96 (lattpy/structure.py, lattice.py: the numbers of the distances of a structure and of a built lattice) *)
From Coq Require Import String List ZArith QArith Bool Arith Lia Lqa Permutation Sorting.Sorted.
From Verif Require Import Np NpFacts LinAlg LinFacts SpecUtils UtilsModel SpecBasis AtomModel BasisModel BasisProofs PropBasis SpatialModel SpecSpatial SpatialProofs SpecStructure ShapeModel StructureModel KDBrute KDProofs RoundFacts StructureFacts
  AnalyzeProofs PropAnalyze SpecNeighbors PropNeighbors SpecLattice DataModel SpecData DataFacts DataProofs LatticeModel LatticeExamples SpecGrid GridProofs
  StructureProofs PropStructure PropData SpecBuild BuildProofs PropBuild NeighborProofs RangeProofs PropBuilt SpecJoin SpecBlock BlockProofs PropBlock PropTorus SpecFinite SpecLinks PropFinite LinkModel PropLinks PropFailed.
Import ListNotations.
Open Scope nat_scope.
Open Scope list_scope.

(** ** The distances the data knows *)

Lemma link_known d i j x : wf_core d -> i < nsites d -> In (j, x) (links d i) -> exists k, k < d_invalid_distidx d /\ nth_error (d_distvals d) k = Some x.
Proof.
  intros W Hi H. unfold links in H. apply in_map_iff in H. destruct H as [c [E Hc]]. injection E as E1 E2.
  apply filter_In in Hc. destruct Hc as [Hc V]. apply in_seq in Hc. pose proof (wf_di _ W i c Hi ltac:(lia)) as Hl.
  unfold valid in V. apply Nat.ltb_lt in V. exists (di d i c). split; auto. rewrite <- E2. apply nth_error_nth'. auto.
Qed.

(** The distances of the data are those of its neighbours in increasing order, followed by infinity. *)
Theorem C96_distances :
  forall d, wf_core d -> all_used d ->
    exists D, d_distvals d = D ++ [Inf] /\ length D = d_invalid_distidx d /\ increasing dleb D /\ forall x, In x D <-> occurring d x.
Proof.
  intros d W U. pose proof (inf_last _ _ (wf_distvals _ W) (wf_invalid _ W)) as HL.
  destruct (exists_last (l := d_distvals d)) as [D [y E]]; [destruct (d_distvals d); discriminate|].
  assert (length D = d_invalid_distidx d) as LD by (rewrite E, app_length in HL; cbn in HL; lia).
  pose proof (wf_invalid _ W) as Hy. rewrite E, nth_error_app2 in Hy by lia. rewrite LD, Nat.sub_diag in Hy. injection Hy as ->.
  exists D. split; auto. split; auto.
  assert (increasing dleb D) as HD.
  { pose proof (wf_distvals _ W) as H. rewrite E in H. unfold increasing in *. clear - H. induction D as [|x D IH]; constructor.
    - apply IH. inversion H; auto.
    - cbn in H. inversion H as [|? ? _ F]; subst. rewrite Forall_app in F. apply F. }
  split; auto.
  assert (forall x, In x D -> x <> Inf) as HF.
  { intros x Hx ->. pose proof (wf_distvals _ W) as H. rewrite E in H. clear - H Hx. induction D as [|z D IH]; [destruct Hx|].
    cbn in H. inversion H as [|? ? H1 F]; subst. destruct Hx as [->|Hx]; [|apply IH; auto]. rewrite Forall_app in F. destruct F as [_ F]. inversion F as [|? ? [_ Hne] _]. congruence. }
  intro x. split.
  - intro Hx. apply U; [rewrite E; apply in_or_app; auto|auto].
  - intros [i [j [Hi Hj]]]. destruct (link_known d i j x W Hi Hj) as [k [Hk Ek]]. rewrite E, nth_error_app1 in Ek by lia. eapply nth_error_In; eauto.
Qed.

(** ** The numbers *)

Lemma below_position D k x : increasing dleb D -> nth_error D k = Some x -> forall y, In y (firstn k D) <-> In y D /\ shorter y x.
Proof.
  intros HD Hk y. split.
  - intro Hy. apply In_nth_error in Hy. destruct Hy as [n Hn]. assert (n < k) as Hnk by (apply nth_error_length_lt in Hn; rewrite firstn_length in Hn; lia).
    assert (nth_error D n = Some y) as Hn' by (rewrite <- (firstn_skipn k D), nth_error_app1 by (eapply nth_error_length_lt; eauto); auto).
    split; [eapply nth_error_In; eauto|]. exact (increasing_nth _ _ HD n k _ _ Hnk Hn' Hk).
  - intros [Hy [H1 H2]]. apply In_nth_error in Hy. destruct Hy as [n Hn].
    destruct (lt_eq_lt_dec n k) as [[Hlt|Heq]|Hgt].
    + eapply nth_error_In with (n := n). rewrite <- (firstn_skipn k D), nth_error_app1 in Hn; auto. rewrite firstn_length. apply nth_error_length_lt in Hk. lia.
    + subst. congruence.
    + destruct (increasing_nth _ _ HD k n _ _ Hgt Hk Hn) as [H3 H4]. exfalso. apply H2. destruct x, y; cbn in *; try congruence. apply Z.leb_le in H1, H3. f_equal. lia.
Qed.

Lemma same_position D D' k k' x : increasing dleb D -> increasing dleb D' -> nth_error D k = Some x -> nth_error D' k' = Some x ->
  (forall y, shorter y x -> In y D <-> In y D') -> k = k'.
Proof.
  intros H H' Hk Hk' Hs.
  assert (forall l, increasing dleb l -> NoDup l) as Hnd.
  { clear. intros l Hl. induction Hl as [|x l Hl IH F]; constructor; auto. intro Hx. rewrite Forall_forall in F. destruct (F x Hx). congruence. }
  assert (forall (l : list dist) n, NoDup l -> NoDup (firstn n l)) as Hf.
  { clear. intros l n Hl. revert n. induction Hl as [|x l Hx Hl IH]; intros [|n]; cbn; constructor; auto.
    intro H. apply Hx. rewrite <- (firstn_skipn n l). apply in_or_app. auto. }
  assert (length (firstn k D) = length (firstn k' D')) as E.
  { apply Nat.le_antisymm; apply NoDup_incl_length; auto; intros y Hy.
    - apply (below_position D k x H Hk) in Hy. apply (below_position D' k' x H' Hk'). split; [apply Hs|]; apply Hy.
    - apply (below_position D' k' x H' Hk') in Hy. apply (below_position D k x H Hk). split; [apply Hs|]; apply Hy. }
  rewrite !firstn_length in E. apply nth_error_length_lt in Hk, Hk'. lia.
Qed.

(** A site of a lattice cut out of the infinite one.  The distance with the number [k] of its atom either does not occur in the lattice
    and no neighbour at it was built, or it occurs and has a number [k'] in the lattice under which exactly the built ones are listed;
    the numbers agree if the same smaller distances occur in the lattice and at the atom. *)
Theorem C96_numbers :
  forall query s s' conns m cells l dt,
    correct_tree query -> valid_basis (st_basis s) -> 1 <= b_dim (st_basis s) -> in_step s ->
    st_connections s = Some conns -> analyze query s = (s', Ok tt) ->
    (forall a c, nth c (nth a conns []) 0 <= m) -> (exists a c, nth c (nth a conns []) 0 = m) ->
    get_neighbor_cells (st_basis s) (2 * m) true Qle_bool = Some cells ->
    let d := b_dim (st_basis s) in
    let V := b_mat (st_basis s) in
    let R := st_positions s in
    let allowed a c := among_first (nth c (nth a conns []) 0) (occurs d V R cells a c) in
    lt_structure l = s' -> lt_data l = Some dt -> finite_lattice d V R allowed dt -> all_used dt ->
    (forall b c n x, bond d V R allowed b c n x -> In n cells) ->
    let I := d_indices dt in
    forall i N a, i < nsites dt -> nth i I [] = N ++ [Z.of_nat a] ->
    exists Ds, increasing dleb Ds /\ (forall k, length Ds <= k -> StructureModel.get_neighbors (lt_structure l) N a k = Raise IndexError) /\
      forall k x, nth_error Ds k = Some x ->
        exists L, StructureModel.get_neighbors (lt_structure l) N a k = Ok L /\
          (~ occurring dt x -> forall j, j < nsites dt -> ~ In (nth j I []) L) /\
          (occurring dt x -> exists k' ns, neighbors l i (Some k') false = Some ns /\ NoDup ns /\
             (forall j, In j ns <-> j < nsites dt /\ In (nth j I []) L) /\
             ((forall y, shorter y x -> occurring dt y <-> In y Ds) -> k' = k)).
Proof.
  intros query s s' conns m cells l dt Hq Hb Hd Hs Ec Ha Hm1 Hm2 Ecells d V R allowed El Edt F U Hcells I i N a Hi Eidx.
  destruct (C91_neighbors query s s' conns m cells l dt Hq Hb Hd Hs Ec Ha Hm1 Hm2 Ecells El Edt F i N a Hi Eidx) as [Ds [Inc [Hover [Hin Hall]]]].
  destruct (Hall Hcells) as [_ [Hnum _]]. exists Ds. split; auto. split; [intros k0 Hk0; apply (Hover k0); auto|]. intros k x Hk.
  pose proof (fl_wf _ _ _ _ _ F) as W. destruct (C96_distances dt W U) as [D [ED [LD [IncD HD]]]].
  (* the list of the structure *)
  assert (exists L, StructureModel.get_neighbors (lt_structure l) N a k = Ok L) as [L EL].
  { apply (Hover k). eapply nth_error_length_lt; eauto. }
  exists L. split; auto. split.
  - intros Hno j Hj HjL. apply Hno. exists i, j. split; auto. apply (Hin j x). exists k, L. auto.
  - intros Ho. apply HD in Ho. apply In_nth_error in Ho. destruct Ho as [k' Hk'].
    assert (nth_error (d_distvals dt) k' = Some x) as Hk'' by (rewrite ED, nth_error_app1; auto; eapply nth_error_length_lt; eauto).
    destruct (Hnum k k' x Hk Hk'') as [L' [ns [EL' [Ens [Hnd Hj]]]]]. rewrite EL in EL'. injection EL' as <-.
    exists k', ns. split; auto. split; auto. split; auto. intro Hy. apply (same_position D Ds k' k x); auto. intros y Hlt. rewrite HD. auto.
Qed.

(** A build knows exactly the distances of the connected sites (hypotheses of C71). *)
Theorem C96_built :
  forall query argsort norms s s' conns an l sh primitive pos check callback I P r,
    correct_tree query -> is_argsort dleb argsort ->
    valid_basis (st_basis s) -> 1 <= b_dim (st_basis s) -> in_step s ->
    st_connections s = Some conns -> analyze query s = (s', Ok tt) -> st_analysis s' = Some an -> lt_structure l = s' ->
    let d := b_dim (st_basis s) in
    let V := b_mat (st_basis s) in
    let R := st_positions s in
    (primitive = true -> length norms = d) -> fitting d sh primitive pos -> incongruent d V R ->
    build_indices (st_basis s) norms R (AShape (build_shape (st_basis s) sh primitive pos)) primitive pos check callback = Ok (I, P) ->
    I <> [] ->
    query_radius an = Some r -> (forall p, In p P -> at_most (query_count an) (within P p (r * r)%Q)) ->
    exists m cells,
      (forall a c, nth c (nth a conns []) 0 <= m) /\ (exists a c, nth c (nth a conns []) 0 = m) /\
      get_neighbor_cells (st_basis s) (2 * m) true Qle_bool = Some cells /\
      let allowed a c := among_first (nth c (nth a conns []) 0) (occurs d V R cells a c) in
      let connected := connected_sites allowed I P in
      (forall a c x, a < length R -> c < length R -> occurs d V R cells a c x -> dleb (Fin 6) x = true) ->
      (exists values, length values <= 255 /\ forall a c x, a < length R -> c < length R -> allowed a c x -> In x values) ->
      ((exists i i', i < length P /\ i' < length P /\ fewer connected i i') \/
       (forall i j p, i <> j -> nth_error P i = Some p -> within P p (r * r)%Q j -> exists x, connected i j x)) ->
      exists l' dt D, build query argsort norms l sh primitive pos check None None callback = (l', Ok tt) /\
        lt_structure l' = s' /\ lt_data l' = Some dt /\ finite_lattice d V R allowed dt /\ all_used dt /\
        d_distvals dt = D ++ [Inf] /\ increasing dleb D /\ forall x, In x D <-> exists i j, i < length P /\ connected i j x.
Proof.
  intros query argsort norms s s' conns an l sh primitive pos check callback I P r Hq Harg Hb Hd Hs Ec Ha Ean El d V R Hnorms Hfit Hinc EI HIne Er Hroom.
  destruct (connect_sites query argsort norms s s' conns an _ primitive pos check callback I P r Hq Harg Hb Hd Hs Ec Ha Ean Hnorms Hinc EI HIne Er Hroom)
    as [m [cells [H1 [H2 [H3 H4]]]]].
  destruct (C91_built query argsort norms s s' conns an l sh primitive pos check callback I P r Hq Harg Hb Hd Hs Ec Ha Ean El Hnorms Hfit Hinc EI HIne Er Hroom)
    as [m' [cells' [H1' [H2' [H3' H5]]]]].
  assert (m' = m) as -> by (destruct H2 as [a1 [c1 E1]]; destruct H2' as [a2 [c2 E2]]; specialize (H1' a1 c1); specialize (H1 a2 c2); lia).
  rewrite H3 in H3'. injection H3' as <-.
  exists m, cells. split; auto. split; auto. split; auto. cbv zeta. intros Hsep Hval Hpad.
  destruct (H4 Hsep Hval Hpad) as [En [Ena [Eb [ER [T [dt [ET [Edt [Hst [Hwf [Edi [Edp Hlinks]]]]]]]]]]]].
  destruct (H5 Hsep Hval Hpad) as (l' & dt' & Ebuild & Es & Edt' & EI' & F).
  assert (dt' = dt) as ->.
  { assert (shape_ok (st_basis s) sh primitive pos = true) as Hshape by (apply fitting_ok; exact Hfit).
    revert Ebuild. unfold build, build_tables. change (lt_structure (set_data l None)) with (lt_structure l).
    rewrite El, En, Ena, Eb, ER, Hshape. cbn [negb]. unfold R in EI. rewrite EI, Ean, ET, Edt. intro E. injection E as <-.
    match type of Edt' with lt_data (update_shape ?l1) = _ => destruct (update_shape_same l1) as [_ [U2 _]] end. rewrite U2 in Edt'. injection Edt' as <-. reflexivity. }
  assert (all_used dt) as U.
  { intros x Hx Hne. destruct (st_values _ _ _ Hst x Hx) as [->|H]; [congruence|exact H]. }
  destruct (C96_distances dt Hwf U) as [D [ED [_ [IncD HD]]]].
  exists l', dt, D. do 7 (split; auto). intro x. rewrite HD. unfold occurring. unfold nsites. rewrite Edi.
  assert (forall y, In y R -> length y = d) as HR by (intros y Hy; apply Hs; auto).
  destruct (C31_indices_and_positions_aligned _ _ _ _ _ _ _ _ _ _ Hb Hnorms HR EI) as [Hlen _]. rewrite Hlen.
  split; intros [i [j [Hi Hj]]]; exists i, j; (split; [auto|]); apply (Hlinks i Hi); auto.
Qed.

Lemma skew_used dt : lt_data skew_block = Some dt -> all_used dt.
Proof.
  intros E x Hx Hne. injection E as <-. vm_compute in Hx. destruct Hx as [<-|[<-|[<-|[]]]]; [exists 4, 2|exists 4, 1|congruence]; (split; [vm_compute; lia|vm_compute; tauto]).
Qed.

(** The nine cells of [C91_example]: both distances of the atom occur, the numbers agree. *)
Example C96_numbers_example :
  exists l dt cells, analyze brute skew_atom = (lt_structure l, Ok tt) /\ get_neighbor_cells ex_skew 4 true Qle_bool = Some cells /\ lt_data l = Some dt /\
    let allowed a c := among_first (nth c (nth a [[2]] []) 0) (occurs 2 (b_mat ex_skew) [[0; 0]]%Q cells a c) in
    finite_lattice 2 (b_mat ex_skew) [[0; 0]]%Q allowed dt /\ all_used dt /\
    (forall a b n x, bond 2 (b_mat ex_skew) [[0; 0]]%Q allowed a b n x -> In n cells) /\
    (forall x, occurring dt x <-> In x [Fin 4472136; Fin 5000000]) /\
    StructureModel.get_neighbors (lt_structure l) [1; 1]%Z 0 0 = Ok [[0; 2; 0]; [2; 0; 0]]%Z /\
    neighbors l 4 (Some 0) false = Some [2; 6] /\ nth 2 (d_indices dt) [] = [0; 2; 0]%Z /\ nth 6 (d_indices dt) [] = [2; 0; 0]%Z.
Proof.
  destruct C91_example as (l & dt & cells & Eb & Ha & Ec & Edt & F & Hc & _ & _ & _ & Hg & _ & _ & ED & Hn & _).
  assert (l = skew_block) as E by (rewrite build_skew_block in Eb; congruence).
  assert (all_used dt) as U by (apply skew_used; rewrite <- E; exact Edt).
  exists l, dt, cells. split; [exact Ha|]. split; [exact Ec|]. split; [exact Edt|]. cbv zeta. split; [exact F|]. split; [exact U|]. split; [exact Hc|]. split.
  { destruct (C96_distances dt (fl_wf _ _ _ _ _ F) U) as [D [ED' [_ [_ HD]]]]. intro x. rewrite <- HD.
    assert (D = [Fin 4472136; Fin 5000000]) as ->; [|reflexivity].
    rewrite ED in ED'. change [Fin 4472136; Fin 5000000; Inf] with ([Fin 4472136; Fin 5000000] ++ [Inf]) in ED'. apply app_inj_tail in ED'. symmetry. apply ED'. }
  split; [exact Hg|]. split; [exact Hn|]. rewrite E in Edt. injection Edt as <-. split; reflexivity.
Qed.

(** The alternating chain of [C71_example]: one distance. *)
Example C96_built_example :
  exists l' dt,
    build brute dist_argsort [] (mkLattice (fst (analyze brute ab_chain)) None None None [] None) (ASize [1]%Q) false None true None None None = (l', Ok tt) /\
    lt_data l' = Some dt /\ all_used dt /\ d_distvals dt = [Fin 500000; Inf].
Proof.
  destruct C71_example as (HV & Hd & Hs & Ec & Hinc & s' & an & r & cells & Ha & Ean & Er & Hfit & EI & Ecells & Hroom & Hsep & HA & Hf & _).
  destruct (C96_built brute dist_argsort [] ab_chain s' _ an (mkLattice s' None None None [] None) (ASize [1]%Q) false None true None _ _ r
    brute_nearest dist_argsort_ok HV Hd Hs Ec Ha Ean eq_refl ltac:(discriminate) Hfit Hinc EI ltac:(discriminate) Er Hroom) as (m & cells' & Hm1 & Hm2 & Ecells' & H).
  assert (m = 1) as ->.
  { destruct Hm2 as [a [c Hm2]]. specialize (Hm1 0 1). cbn in Hm1. destruct a as [|[|[|a]]], c as [|[|[|c]]]; cbn in Hm2; lia. }
  cbn [Nat.mul Nat.add] in Ecells'. pose proof (eq_trans (eq_sym Ecells) Ecells') as E. injection E as <-.
  destruct H as (l' & dt & D & Eb & _ & Edt & F & U & ED & IncD & HD).
  - exact Hsep.
  - exists [Fin 500000]. split; [cbn; lia|]. intros a c x H1 H2 H3. apply HA in H3; auto. left. symmetry. apply H3.
  - left. exists 0, 1. split; [cbn; lia|]. split; [cbn; lia|]. exact Hf.
  - exists l', dt. split; [rewrite Ha; exact Eb|]. split; [exact Edt|]. split; [exact U|].
    assert (analyze brute ab_chain = (fst (analyze brute ab_chain), Ok tt)) as Ha' by (vm_compute; reflexivity).
    assert (s' = fst (analyze brute ab_chain)) as -> by (rewrite Ha; reflexivity). clear - Eb Edt.
    assert (lt_data (fst (build brute dist_argsort [] (mkLattice (fst (analyze brute ab_chain)) None None None [] None) (ASize [1]%Q) false None true None None None)) = Some dt) as E
      by (rewrite Eb; exact Edt).
    vm_compute in E. injection E as <-. reflexivity.
Qed.

(** A row of a rectangular lattice: the smaller distance of the structure does not occur, so the larger one has the number 1 in
    the structure and the number 0 in the lattice. *)
Definition ex_rectangle : basis := mkBasis [[2; 0]; [0; 1]]%Q [[1#2; 0]; [0; 1]]%Q.
Definition rectangle_atom : structure := Eval vm_compute in run_calls brute ex_rectangle [CAddAtom (Some [0; 0]%Q) (ex_atom "A") false 2].

Theorem C96_row_refuted :
  valid_basis ex_rectangle /\ analyze brute rectangle_atom = (rectangle_atom, Ok tt) /\
  exists l dt, build brute dist_argsort [2; 1]%Q (new_lattice rectangle_atom) (ASize [6; 0]%Q) false None true None None None = (l, Ok tt) /\
    lt_data l = Some dt /\ d_distvals dt = [Fin 2000000; Inf] /\ nth 1 (d_indices dt) [] = [1; 0; 0]%Z /\
    map (fun k => neighbors l 1 (Some k) false) [0; 1] = [Some [0; 2]; Some []] /\
    StructureModel.get_neighbors rectangle_atom [1; 0]%Z 0 0 = Ok [[1; -1; 0]; [1; 1; 0]]%Z /\
    StructureModel.get_neighbors rectangle_atom [1; 0]%Z 0 1 = Ok [[0; 0; 0]; [1; -2; 0]; [1; 2; 0]; [2; 0; 0]]%Z.
Proof.
  split; [apply inverse2_check; reflexivity|]. split; [vm_compute; reflexivity|]. eexists. eexists. split; [vm_compute; reflexivity|]. split; [reflexivity|].
  split; [reflexivity|]. split; [reflexivity|]. split; [vm_compute; reflexivity|]. split; vm_compute; reflexivity.
Qed.

(** Three atoms, of which only A and B (0.3 apart) and atoms C of different cells (1 apart) are connected: the only distance of C has the number 0
    in the structure and the number 1 in the lattice; there [nearest_neighbors] of C lists nothing. *)
Definition three_atoms : structure :=
  Eval vm_compute in run_calls brute ex_chain
    [CAddAtom (Some [0]%Q) (ex_atom "A") false 0; CAddAtom (Some [3#10]%Q) (ex_atom "B") false 0; CAddAtom (Some [5#10]%Q) (ex_atom "C") false 0;
     CAddConnection (RIndex 0) (RIndex 1) 1 false; CAddConnection (RIndex 2) (RIndex 2) 1 true].

Theorem C96_atoms_refuted :
  st_connections three_atoms = Some [[0; 1; 0]; [1; 0; 0]; [0; 0; 1]] /\ analyze brute three_atoms = (three_atoms, Ok tt) /\
  exists l dt, build brute dist_argsort [1]%Q (new_lattice three_atoms) (ASize [5#2]%Q) false None true None None None = (l, Ok tt) /\
    lt_data l = Some dt /\ all_used dt /\ d_distvals dt = [Fin 300000; Fin 1000000; Inf] /\ nth 5 (d_indices dt) [] = [1; 2]%Z /\
    nearest_neighbors l 5 false = Some [] /\ neighbors l 5 (Some 1) false = Some [2; 8] /\
    nth 2 (d_indices dt) [] = [0; 2]%Z /\ nth 8 (d_indices dt) [] = [2; 2]%Z /\
    StructureModel.get_neighbors three_atoms [1]%Z 2 0 = Ok [[0; 2]; [2; 2]]%Z /\ StructureModel.get_neighbors three_atoms [1]%Z 2 1 = Raise IndexError.
Proof.
  split; [reflexivity|]. split; [vm_compute; reflexivity|]. eexists. eexists. split; [vm_compute; reflexivity|]. split; [reflexivity|]. split.
  { intros x Hx Hne. vm_compute in Hx. destruct Hx as [<-|[<-|[<-|[]]]]; [exists 0, 1|exists 5, 2|congruence]; (split; [vm_compute; lia|vm_compute; tauto]). }
  split; [reflexivity|]. split; [reflexivity|]. split; [vm_compute; reflexivity|]. split; [vm_compute; reflexivity|]. split; [reflexivity|]. split; [reflexivity|].
  split; vm_compute; reflexivity.
Qed.

Print Assumptions C96_distances.
Print Assumptions C96_numbers.
Print Assumptions C96_built.
Print Assumptions C96_row_refuted.
Print Assumptions C96_atoms_refuted.
