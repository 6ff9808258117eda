(** * C53: what [build] leaves behind *)
From Coq Require Import String List ZArith QArith Bool Arith Lia.
From Verif Require Import Np NpFacts LinAlg LinFacts AtomModel BasisModel SpatialModel ShapeModel StructureModel DataModel KDBrute
  SpecUtils SpecBasis SpecBuild SpecData SpecStructure SpecLattice BasisProofs StructureFacts DataFacts DataProofs StructureProofs PropData PropStructure PropBuild
  LatticeModel LatticeExamples PropMinDist.
Import ListNotations.
Open Scope nat_scope.
Open Scope list_scope.

(** Some connection was registered. *)
Definition some_connection (s : structure) : Prop :=
  exists c row k, st_connections s = Some c /\ In row c /\ In k row /\ k <> 0.

(** The structure has been analysed. *)
Definition analysed (s : structure) : Prop := exists an, st_analysis s = Some an /\ an_base an <> [].

(** The lattice without its sites. *)
Definition cleared (l l' : lattice) : Prop :=
  lt_data l' = None /\ lt_structure l' = lt_structure l /\ lt_shape l' = lt_shape l /\ lt_pos l' = lt_pos l /\
  lt_axes l' = lt_axes l /\ lt_primitive l' = lt_primitive l.

Lemma cleared_set_data l : cleared l (set_data l None).
Proof. repeat split. Qed.

Lemma no_connections_spec s : no_connections s = false <-> st_connections s = None \/ some_connection s.
Proof.
  unfold no_connections, some_connection. destruct (st_connections s) as [c|]; [|split; auto].
  rewrite <- not_true_iff_false, forallb_forall. split.
  - intro H. right. exists c. clear -H. induction c as [|row c IH].
    + exfalso. apply H. intros x [].
    + destruct (forallb (Nat.eqb 0) row) eqn:E.
      * destruct IH as [r [k [_ [H1 H2]]]]; [|exists r, k; split; [reflexivity|split; [right|]; auto]; apply H2].
        intro H'. apply H. intros x [<-|Hx]; auto.
      * assert (exists k, In k row /\ k <> 0) as [k [H1 H2]].
        { clear -E. induction row as [|k row IH]; [discriminate|]. cbn [forallb] in E. destruct k as [|k].
          - destruct IH as [k [H1 H2]]; [exact E|]. exists k. split; [right|]; auto.
          - exists (S k). split; [left|]; auto. }
        exists row, k. split; auto. split; [left|]; auto.
  - intros [H|[c' [row [k [H [H1 [H2 H3]]]]]]]; [discriminate|]. injection H as <-. intro H'. specialize (H' row H1). rewrite forallb_forall in H'.
    specialize (H' k H2). apply Nat.eqb_eq in H'. congruence.
Qed.

Lemma not_analyzed_spec s : not_analyzed s = false <-> analysed s.
Proof.
  unfold not_analyzed, analysed. destruct (st_analysis s) as [an|].
  - destruct (Nat.eqb_spec (length (an_base an)) 0) as [E|E]; split; try discriminate.
    + intros [an' [H1 H2]]. injection H1 as <-. destruct (an_base an); [congruence|discriminate].
    + intros _. exists an. split; auto. intro H. rewrite H in E. apply E. reflexivity.
    + reflexivity.
  - split; [discriminate|]. intros [an [H _]]. discriminate.
Qed.

(** The checks at the start, in their order; none of them brings the old sites back. *)
Theorem C53_checks :
  forall query argsort norms l sh primitive pos check min_neighbors periodic callback,
    let s := lt_structure l in
    let r := build query argsort norms l sh primitive pos check min_neighbors periodic callback in
    (st_connections s <> None -> ~ some_connection s -> snd r = Raise NoConnectionsError /\ cleared l (fst r)) /\
    (st_connections s = None \/ some_connection s -> ~ analysed s -> snd r = Raise NotAnalyzedError /\ cleared l (fst r)) /\
    (forall size, st_connections s = None \/ some_connection s -> analysed s -> sh = ASize size ->
       length size <> b_dim (st_basis s) \/ (exists p, pos = Some p /\ length p <> length size) ->
       snd r = Raise ValueError /\ cleared l (fst r)).
Proof.
  intros query argsort norms l sh primitive pos check m periodic callback s r. unfold r, build.
  change (lt_structure (set_data l None)) with s. unfold build_tables. split; [|split].
  - intros H1 H2. destruct (no_connections s) eqn:E; [split; [reflexivity|apply cleared_set_data]|]. apply no_connections_spec in E. tauto.
  - intros H1 H2. apply no_connections_spec in H1. rewrite H1. destruct (not_analyzed s) eqn:E; [split; [reflexivity|apply cleared_set_data]|].
    apply not_analyzed_spec in E. tauto.
  - intros size H1 H2 -> H3. apply no_connections_spec in H1. apply not_analyzed_spec in H2. rewrite H1, H2.
    destruct (shape_ok (st_basis s) (ASize size) primitive pos) eqn:E; cbn [negb]; [|split; [reflexivity|apply cleared_set_data]].
    unfold shape_ok in E. apply andb_true_iff in E. destruct E as [E1 E2].
    assert (match pos with Some p => length p = length size | None => True end) as E3 by (destruct pos; [apply Nat.eqb_eq|]; auto).
    destruct H3 as [H3|[p [-> H3]]]; [|contradiction].
    destruct primitive.
    { cbn in E2. apply Nat.eqb_eq in E2. contradiction. }
    cbn [build_shape]. set (p := match pos with Some q => q | None => vzero (length size) end).
    assert (length p = length size) as Lp by (unfold p; destruct pos; [auto|apply repeat_length]).
    unfold build_indices, build_translation_vectors. cbn [shape_limits].
    assert (length (point_limits (box_corners size p)) = length size) as Ll.
    { assert (forall q, In q (box_corners size p) -> length q = length size) as Hq.
      { intros q Hq. unfold box_corners in Hq. apply in_map_iff in Hq. destruct Hq as [c [<- Hc]]. unfold vadd. rewrite LinFacts.map2_length.
        assert (length c = length size); [|unfold vec in *; lia]. clear -Hc. revert c Hc. induction size as [|x size IH]; cbn; intros c Hc.
        - destruct Hc as [<-|[]]. reflexivity.
        - rewrite ?app_nil_r in Hc. apply in_app_iff in Hc. destruct Hc as [Hc|Hc]; apply in_map_iff in Hc; destruct Hc as [c' [<- Hc']]; cbn; rewrite (IH c' Hc'); reflexivity. }
      destruct (box_corners size p) as [|q0 rest] eqn:Eb.
      - exfalso. unfold box_corners in Eb. apply map_eq_nil in Eb. clear -Eb. revert Eb. induction size as [|x size IH]; cbn; [discriminate|].
        intro Eb. apply app_eq_nil in Eb. destruct Eb as [Eb _]. apply map_eq_nil in Eb. auto.
      - unfold point_limits. rewrite map_length, seq_length. apply Hq. left; auto. }
    assert (length (vsub (map snd (point_limits (box_corners size p))) (map fst (point_limits (box_corners size p)))) = length size) as L2.
    { unfold vsub. rewrite LinFacts.map2_length, !map_length. unfold vec in *. lia. }
    rewrite L2. destruct (Nat.eqb_spec (length size) (b_dim (st_basis s))); [contradiction|]. cbn [negb].
    split; [reflexivity|apply cleared_set_data].
Qed.

(** Whatever goes wrong before the periodic boundary conditions: the sites are gone, the rest is as it was. *)
Theorem C53_failed_build :
  forall query argsort norms l sh primitive pos check min_neighbors callback l' e,
    build query argsort norms l sh primitive pos check min_neighbors None callback = (l', Raise e) ->
    cleared l l' /\ lt_num_sites l' = 0.
Proof.
  intros query argsort norms l sh primitive pos check m callback l' e. unfold build.
  destruct (build_tables _ _ _ _ _ _ _ _ _ _) as [[[I P] T]|e0].
  - destruct (data_set I P (map (map fst) T) (map (map snd) T)); [discriminate|]. intro H. injection H as <- _. split; [apply cleared_set_data|reflexivity].
  - intro H. injection H as <- _. split; [apply cleared_set_data|reflexivity].
Qed.

Lemma update_shape_same l : lt_structure (update_shape l) = lt_structure l /\ lt_data (update_shape l) = lt_data l /\
  lt_axes (update_shape l) = lt_axes l /\ lt_primitive (update_shape l) = lt_primitive l.
Proof. unfold update_shape. destruct (limits l); auto. Qed.

Lemma remove_periodic_sites d d' : call_remove_periodic d = Some d' -> d_indices d' = d_indices d /\ d_positions d' = d_positions d.
Proof. unfold call_remove_periodic. destruct (_ : bool); [|discriminate]. intro H. injection H as <-. split; reflexivity. Qed.

Lemma periodic_sites d pd d' : DataModel.set_periodic d pd = Some d' -> d_indices d' = d_indices d /\ d_positions d' = d_positions d.
Proof.
  unfold DataModel.set_periodic. destruct (call_remove_periodic d) as [d0|] eqn:E; [|discriminate].
  apply remove_periodic_sites in E. destruct E as [<- <-]. clear d. revert d0. induction pd as [|[i pn] pd IH]; intros d H; cbn [set_periodic_loop] in H.
  - injection H as <-. auto.
  - destruct (set_periodic_step d (i, pn)) as [d1|] eqn:E1; [|discriminate]. apply IH in H. destruct H as [-> ->].
    unfold set_periodic_step in E1. destruct (get_neighbors d i None (Some false) false); [|discriminate].
    repeat match type of E1 with match ?o with _ => _ end = _ => destruct o; [|discriminate] end. injection E1 as <-. auto.
Qed.

Lemma written_sites pd : forall d, d_indices (written d pd) = d_indices d /\ d_positions (written d pd) = d_positions d.
Proof.
  induction pd as [|[i pn] pd IH]; intro d; cbn [written]; auto. destruct (set_periodic_step d (i, pn)) as [d1|] eqn:E1; auto.
  destruct (IH d1) as [-> ->]. unfold set_periodic_step in E1. destruct (get_neighbors d i None (Some false) false); [|discriminate].
  repeat match type of E1 with match ?o with _ => _ end = _ => destruct o; [|discriminate] end. injection E1 as <-. auto.
Qed.

Lemma lattice_periodic_sites query argsort l axis :
  let l' := fst (set_periodic query argsort l axis) in
  lt_structure l' = lt_structure l /\ lt_indices l' = lt_indices l /\ lt_positions l' = lt_positions l /\ lt_primitive l' = lt_primitive l /\
  (lt_data l <> None -> lt_data l' <> None) /\ lt_shape l' = lt_shape l /\ lt_pos l' = lt_pos l.
Proof.
  unfold set_periodic. destruct (lt_shape l) eqn:Es; [|cbn; auto 10].
  destruct (lt_data l) as [d|] eqn:Ed; [|cbn; auto 10].
  destruct (call_remove_periodic d) as [d0|] eqn:E; [|cbn; rewrite Ed; auto 10]. apply remove_periodic_sites in E. destruct E as [E1 E2].
  assert (lt_indices l = d_indices d /\ lt_positions l = d_positions d) as [-> ->] by (unfold lt_indices, lt_positions; rewrite Ed; auto).
  assert (forall a, lt_indices (mkLattice (lt_structure l) (Some d0) (lt_shape l) (lt_pos l) a (lt_primitive l)) = d_indices d /\
     lt_positions (mkLattice (lt_structure l) (Some d0) (lt_shape l) (lt_pos l) a (lt_primitive l)) = d_positions d) as Hd by (intro a; cbn; auto).
  destruct (match axis with AxNone | AxBool false => None | AxBool true => Some (seq 0 (b_dim (lt_basis l))) | AxList a => Some a end) as [axes|];
    [|cbn [fst]; rewrite <- Es; repeat split; cbn; auto; discriminate].
  change (st_analysis (lt_structure (set_data l (Some d0)))) with (st_analysis (lt_structure l)).
  destruct (st_analysis (lt_structure l)) as [an|]; [|cbn [fst]; rewrite <- Es; repeat split; cbn; auto; discriminate].
  change (lt_basis (set_data l (Some d0))) with (lt_basis l). change (is_primitive (set_data l (Some d0))) with (is_primitive l).
  destruct (compute_pneighbors query argsort (lt_basis l) an (is_primitive l) axes d0) as [[|e pd]|];
    [cbn [fst]; rewrite <- Es; repeat split; cbn; auto; discriminate| |cbn [fst]; rewrite <- Es; repeat split; cbn; auto; discriminate].
  destruct (DataModel.set_periodic d0 (e :: pd)) as [d1|] eqn:E3.
  2:{ destruct (written_sites (e :: pd) (remove_periodic d0)) as [W1 W2]. cbn [fst]. rewrite <- Es. repeat split; try discriminate;
      unfold lt_indices, lt_positions; cbn [lt_data set_data]; [rewrite W1|rewrite W2]; cbn [remove_periodic d_indices d_positions]; auto. }
  apply periodic_sites in E3. destruct E3 as [E3 E4]. cbn [fst]. rewrite <- Es. repeat split; cbn; try discriminate; congruence.
Qed.

(** A successful build: as many indices as positions, and every position is the one of its index. *)
Theorem C53_successful_build :
  forall query argsort norms l sh primitive pos check min_neighbors periodic callback l',
    let b := lt_basis l in
    let R := st_positions (lt_structure l) in
    valid_basis b -> (primitive = true -> length norms = b_dim b) -> (forall r, In r R -> length r = b_dim b) ->
    build query argsort norms l sh primitive pos check min_neighbors periodic callback = (l', Ok tt) ->
    analysed (lt_structure l) /\ (st_connections (lt_structure l) = None \/ some_connection (lt_structure l)) /\
    lt_structure l' = lt_structure l /\ lt_primitive l' = Some primitive /\ lt_data l' <> None /\
    lt_num_sites l' = length (lt_positions l') /\
    (forall k s p, nth_error (lt_indices l') k = Some s -> nth_error (lt_positions l') k = Some p ->
       exists n a r, s = n ++ [Z.of_nat a] /\ length n = b_dim b /\ nth_error R a = Some r /\
         same p (lattice_point (b_dim b) (b_mat b) r n)) /\
    (min_neighbors = None -> forall I P,
       build_indices b norms R (AShape (build_shape b sh primitive pos)) primitive pos check callback = Ok (I, P) ->
       lt_indices l' = I /\ lt_positions l' = P).
Proof.
  intros query argsort norms l sh primitive pos check m periodic callback l' b R Hb Hn HR.
  unfold build. change (lt_structure (set_data l None)) with (lt_structure l).
  destruct (build_tables query argsort norms (lt_structure l) sh primitive pos check m callback) as [[[I P] T]|e0] eqn:Et; [|discriminate].
  destruct (data_set I P (map (map fst) T) (map (map snd) T)) as [d|] eqn:Ed; [|discriminate].
  intro H.
  unfold build_tables in Et. destruct (no_connections (lt_structure l)) eqn:E1; [discriminate|]. destruct (not_analyzed (lt_structure l)) eqn:E2; [discriminate|].
  apply no_connections_spec in E1. apply not_analyzed_spec in E2.
  destruct (negb _); [discriminate|]. fold (lt_basis l) in Et. fold b R in Et.
  destruct (build_indices b norms R (AShape (build_shape b sh primitive pos)) primitive pos check callback) as [[I0 P0]|e0] eqn:Eb; [|destruct (st_analysis (lt_structure l)); discriminate].
  destruct (st_analysis (lt_structure l)) as [an|]; [|discriminate].
  destruct (compute_neighbors query argsort an I0 P0) as [rows|]; [|discriminate].
  destruct (C31_indices_and_positions_aligned b norms R _ primitive pos check callback I0 P0 Hb Hn HR Eb) as [L0 [S0 _]].
  assert (length I = length P /\ (forall k s p, nth_error I k = Some s -> nth_error P k = Some p ->
       exists n a r, s = n ++ [Z.of_nat a] /\ length n = b_dim b /\ nth_error R a = Some r /\ same p (lattice_point (b_dim b) (b_mat b) r n)) /\
       (m = None -> I = I0 /\ P = P0)) as [LIP [Sk Hm]].
  { destruct m as [m|]; [|injection Et as -> -> _; auto]. unfold filter_dangling in Et.
    destruct (_ =? 0); [injection Et as -> -> _; auto; repeat split; auto; discriminate|]. destruct (_ =? length I0); [discriminate|].
    set (sites := where_ _) in Et. injection Et as <- <- _. rewrite (delete_kept [] sites I0), (delete_kept ([] : vec) sites P0), L0, !map_length. split; [reflexivity|]. split; [|discriminate].
    intros k s p Hs Hp. unfold vec in *. rewrite nth_error_map' in Hs. rewrite nth_error_map' in Hp. destruct (nth_error (kept_sites (length P0) sites) k) as [i|] eqn:Ei; [|discriminate].
    assert (i < length P0) as Hi by (apply nth_error_In in Ei; unfold kept_sites in Ei; apply filter_In in Ei; destruct Ei as [Ei _]; apply in_seq in Ei; lia).
    cbn in Hs, Hp. injection Hs as <-. injection Hp as <-. apply (S0 i); apply nth_error_nth'; auto. rewrite L0. auto. }
  assert (d_indices d = I /\ d_positions d = P) as [EI EP].
  { unfold data_set in Ed. destruct (UtilsModel.create_lookup_table2 _ _ _) as [? ?]. destruct (nat_max _); [|discriminate]. injection Ed as <-. auto. }
  set (l1 := mkLattice (lt_structure l) (Some d) (lt_shape (set_data l None)) (lt_pos (set_data l None)) (lt_axes (set_data l None)) (Some primitive)) in *.
  destruct (update_shape_same l1) as [U1 [U2 [_ U4]]].
  assert (lt_structure l' = lt_structure l /\ lt_indices l' = I /\ lt_positions l' = P /\ lt_primitive l' = Some primitive /\ lt_data l' <> None) as [F1 [F2 [F3 [F4 F5]]]].
  { assert (lt_structure (update_shape l1) = lt_structure l /\ lt_indices (update_shape l1) = I /\ lt_positions (update_shape l1) = P /\
      lt_primitive (update_shape l1) = Some primitive /\ lt_data (update_shape l1) <> None) as HU.
    { unfold lt_indices, lt_positions. rewrite U1, U2, U4. cbn. repeat split; auto. discriminate. }
    assert (l' = update_shape l1 \/ exists axis, l' = fst (set_periodic query argsort (update_shape l1) axis)) as [->|[axis ->]].
    { destruct periodic as [[|bb|a]|]; try (injection H as <-; left; reflexivity); right; eexists; rewrite H; reflexivity. }
    - exact HU.
    - destruct HU as [G1 [G2 [G3 [G4 G5]]]]. destruct (lattice_periodic_sites query argsort (update_shape l1) axis) as [K1 [K2 [K3 [K4 [K5 _]]]]].
      repeat split; try congruence; auto. }
  split; auto. split; auto. split; auto. split; auto. split; auto. split; [unfold lt_num_sites; congruence|]. split.
  - rewrite F2, F3. exact Sk.
  - intros Hm' I1 P1 E'. injection E' as <- <-. destruct (Hm Hm'). split; congruence.
Qed.

(** Periodic boundary conditions need sites: a lattice never built raises NotBuiltError, one whose last build failed
    (after a successful one) IndexError.  Nothing changes. *)
Theorem C53_periodic_needs_sites :
  forall query argsort norms l sh primitive pos check min_neighbors callback l' e axis,
    build query argsort norms l sh primitive pos check min_neighbors None callback = (l', Raise e) ->
    set_periodic query argsort l' axis = (l', Raise (match lt_shape l with None => NotBuiltError | Some _ => IndexError end)).
Proof.
  intros query argsort norms l sh primitive pos check m callback l' e axis H. apply C53_failed_build in H. destruct H as [[H1 [_ [H2 _]]] _].
  unfold set_periodic. rewrite H2, H1. destruct (lt_shape l); reflexivity.
Qed.

Example C53_periodic_needs_sites_example :
  (let l := fst (build brute dist_argsort [1]%Q chain5 (ASize [4; 4]%Q) false None true None None None) in
   lt_shape chain5 <> None /\ snd (set_periodic brute dist_argsort l (AxList [0])) = Raise IndexError) /\
  (let l := fst (build brute dist_argsort [1]%Q (new_lattice (new_structure ex_chain)) (ASize [4]%Q) false None true None None None) in
   snd (set_periodic brute dist_argsort l (AxList [0])) = Raise NotBuiltError).
Proof. vm_compute. repeat split; discriminate. Qed.

(** Building the chain of five sites again, now with a wrong dimension, and a chain that is not analysed. *)
Example C53_example :
  lt_num_sites chain5 = 5 /\ analysed (lt_structure chain5) /\ some_connection (lt_structure chain5) /\
  (let r := build brute dist_argsort [1]%Q chain5 (ASize [4; 4]%Q) false None true None None None in
   snd r = Raise ValueError /\ lt_num_sites (fst r) = 0 /\ lt_shape (fst r) = lt_shape chain5 /\ lt_shape chain5 <> None) /\
  (let r := build brute dist_argsort [1]%Q chain5 (ASize [2]%Q) false None true None (Some (AxBool true)) None in
   snd r = Ok tt /\ lt_num_sites (fst r) = 3) /\
  ~ analysed (new_structure ex_chain).
Proof.
  split; [reflexivity|]. split; [eexists; split; [reflexivity|discriminate]|]. split.
  { eexists _, _, _. split; [reflexivity|]. split; [left; reflexivity|]. split; [left; reflexivity|]. discriminate. }
  split; [vm_compute; repeat split; discriminate|]. split; [vm_compute; auto|]. intros [an [H _]]. discriminate.
Qed.

Print Assumptions C53_checks.
Print Assumptions C53_failed_build.
Print Assumptions C53_successful_build.
Print Assumptions C53_periodic_needs_sites.
