(** * Property C78 (lattpy/lattice.py: append and repeat on hypercubic lattices) *)
From Coq Require Import String List ZArith QArith Qabs Qround Bool Arith Lia Lqa Permutation Sorting.Sorted.
From Verif Require Import Np NpFacts LinAlg LinFacts SpecUtils UtilsModel SpecBasis AtomModel BasisModel BasisProofs PropBasis SpatialModel SpecSpatial SpatialProofs SpecStructure ShapeModel StructureModel KDBrute RoundFacts StructureFacts
  AnalyzeProofs PropAnalyze SpecNeighbors SpecLattice DataModel SpecData DataFacts DataProofs DataAppend LatticeModel LatticeExamples SpecGrid GridProofs PropMinDist RepeatProofs PropRepeat SpecSeam PropSeam SpecJoin JoinProofs BoxProofs
  StructureProofs PropStructure PropData SpecBuild ShapeProofs BuildProofs PropBuild NeighborProofs RangeProofs PropFailed PropBuilt PresetModel PropPrimitive PropGrid.
Import ListNotations.
Open Scope nat_scope.
Open Scope list_scope.

(** A lattice consisting of the cells [C] of a hypercubic lattice with the lattice constant [a], analysed for the
    nearest neighbours. *)
Record grid_lattice (d : nat) (a : Q) (za : Z) (r0 : list Q) (C : list Z -> Prop) (m : nat) (l : lattice) : Prop := {
  gl_built : built d l;
  gl_cubic : cubic_lattice d (b_mat (lt_basis l)) a;
  gl_radius : exists an r, st_analysis (lt_structure l) = Some an /\ query_radius an = Some r /\ (a * a <= r * r /\ r * r < 2 * (a * a))%Q;
  gl_data : exists dt, lt_data l = Some dt /\ grid_data d a za r0 C m dt }.

Lemma grid_lattice_ext d a za r0 C C' m l : (forall n, length n = d -> C n <-> C' n) -> grid_lattice d a za r0 C m l -> grid_lattice d a za r0 C' m l.
Proof.
  intros E [H1 H2 H3 [dt [H4 H5]]]. constructor; auto. exists dt. split; auto. eapply grid_data_ext; eauto.
Qed.

Lemma join_section ball argsort w l d ax side a za r0 C D m m' dt e E n :
  correct_ball ball -> is_argsort dleb argsort -> grid_lattice d a za r0 C m l -> lt_data l = Some dt -> grid_data d a za r0 D m' e -> ax < d -> (0 <= za)%Z ->
  extent (if (0 <? side)%Z then d_indices dt else d_indices e) ax E -> along d ax (if (0 <? side)%Z then E else - E)%Z n ->
  (forall c, length c = d -> C c -> moved_cells d n D c -> False) ->
  (forall c, length c = d -> joined_cells d n C D c -> degree_at_most d (joined_cells d n C D) c (Nat.max m m')) ->
  (exists c, length c = d /\ joined_cells d n C D c /\ degree_at_most d (joined_cells d n C D) c (Nat.max m m' - 1)) ->
  has_link d C \/ has_link d D ->
  exists l' d', append_section ball argsort w l (data_section e) ax side None false (is_primitive l) = Some l' /\
    lt_structure l' = lt_structure l /\ lt_primitive l' = lt_primitive l /\ lt_data l' = Some d' /\
    ((a * 1000000 <= inject_Z za)%Q -> grid_lattice d a za r0 (joined_cells d n C D) (Nat.max m m') l') /\
    ((inject_Z za < a * 1000000)%Q -> forall i, i < nsites d' -> forall j x, In (j, x) (links d' i) <->
       j < nsites d' /\ unit_step d (nth i (d_indices d') []) (nth j (d_indices d') []) /\ (i < nsites dt <-> j < nsites dt) /\ x = Fin za).
Proof.
  intros Hball Harg [B HV [an [r [Ean [Er Hr]]]] [dt' [Ed' Gd]]] Ed Ge Hax Hza Hext Hn Hdis Hdeg Hun Hlink. rewrite Ed in Ed'. injection Ed' as <-.
  apply along_unit in Hn.
  destruct (grid_join ball argsort w l d ax side E dt e an r a za r0 C D m m' n) as (l' & d' & A1 & A2 & A3 & A4 & A5 & A6 & A7); auto.
  exists l', d'. do 4 (split; auto). split; auto. intro Hle. specialize (A6 Hle).
  assert (lt_indices l = d_indices dt /\ lt_positions l = d_positions dt) as [EI EP] by (unfold lt_indices, lt_positions; rewrite Ed; auto).
  assert (lt_indices l' = d_indices d' /\ lt_positions l' = d_positions d') as [EI' EP'] by (unfold lt_indices, lt_positions; rewrite A4; auto).
  assert (lt_basis l' = lt_basis l) as Eb by (unfold lt_basis; rewrite A2; auto).
  destruct (append_section_sites _ _ _ _ _ _ _ _ _ _ _ A1 (bt_sites _ _ B)) as [_ [_ [Eax _]]].
  { cbn. pose proof (npos _ (gd_wf _ _ _ _ _ _ _ Ge)) as L. unfold vec, nsites in *. lia. }
  pose proof (gd_wf _ _ _ _ _ _ _ A6) as W. pose proof (gd_dim _ _ _ _ _ _ _ A6) as Dd.
  constructor.
  - constructor.
    + rewrite Eb. apply (bt_dim _ _ B).
    + rewrite Eb. apply (bt_basis _ _ B).
    + rewrite EI'. intros i Hi. rewrite <- Dd. apply (wf_indices _ W). auto.
    + rewrite EP'. intros p Hp. rewrite <- Dd. apply (wf_positions _ W). auto.
    + rewrite EI', EP'. pose proof (npos _ W) as L. unfold vec, nsites in *. lia.
    + rewrite Eax. apply (bt_axes _ _ B).
  - rewrite Eb. auto.
  - exists an, r. rewrite A2. auto.
  - exists d'. auto.
Qed.

(** ** C78: joining pieces *)

Theorem C78_append_pieces :
  forall ball argsort w l other d ax side a za r0 C D m m' dt e E n,
    correct_ball ball -> is_argsort dleb argsort ->
    grid_lattice d a za r0 C m l -> lt_data l = Some dt -> lt_data other = Some e -> grid_data d a za r0 D m' e -> ax < d -> (0 <= za)%Z ->
    extent (if (0 <? side)%Z then d_indices dt else d_indices e) ax E -> along d ax (if (0 <? side)%Z then E else - E)%Z n ->
    (forall c, length c = d -> C c -> moved_cells d n D c -> False) ->
    (forall c, length c = d -> joined_cells d n C D c -> degree_at_most d (joined_cells d n C D) c (Nat.max m m')) ->
    (exists c, length c = d /\ joined_cells d n C D c /\ degree_at_most d (joined_cells d n C D) c (Nat.max m m' - 1)) ->
    has_link d C \/ has_link d D ->
    exists l' d', append_lattice ball argsort w l other ax side None false = Some l' /\ lt_structure l' = lt_structure l /\ lt_data l' = Some d' /\
      ((a * 1000000 <= inject_Z za)%Q -> grid_lattice d a za r0 (joined_cells d n C D) (Nat.max m m') l') /\
      ((inject_Z za < a * 1000000)%Q -> forall i, i < nsites d' -> forall j x, In (j, x) (links d' i) <->
         j < nsites d' /\ unit_step d (nth i (d_indices d') []) (nth j (d_indices d') []) /\ (i < nsites dt <-> j < nsites dt) /\ x = Fin za).
Proof.
  intros. match goal with H : lt_data other = Some e |- _ => unfold append_lattice; rewrite H end.
  destruct (join_section ball argsort w l d ax side a za r0 C D m m' dt e E n) as (l' & d' & A1 & A2 & A3 & A4 & A5 & A6); auto.
  exists l', d'. auto.
Qed.

(** ** C78: boxes *)

Definition side_origin (d ax : nat) (side B : Z) (o o' : list Z) : Prop :=
  forall k, k < d -> nth k o' 0%Z = if (k =? ax) && negb (0 <? side)%Z then (nth k o 0 - B)%Z else nth k o 0%Z.

Lemma box_has_link d o L ax : (forall k, k < d -> (1 <= nth k L 0)%Z) -> ax < d -> (2 <= nth ax L 0)%Z -> has_link d (box d o L).
Proof.
  intros HL Hax H2. set (c := map (fun k => nth k o 0%Z) (seq 0 d)).
  assert (forall k, k < d -> nth k c 0%Z = nth k o 0%Z) as Hc.
  { intros k Hk. unfold c. rewrite (nth_map_in _ _ _ 0) by (rewrite seq_length; auto). rewrite seq_nth by auto. reflexivity. }
  exists c, (step_to d c ax 1). split; [unfold c; rewrite map_length, seq_length; auto|]. split; [apply step_to_length|]. split; [|split].
  - intros k Hk. rewrite Hc by auto. specialize (HL k Hk). lia.
  - intros k Hk. rewrite nth_step_to by auto. rewrite Hc by auto. specialize (HL k Hk). destruct (Nat.eqb_spec k ax) as [->|]; lia.
  - apply step_to_unit; auto.
Qed.

Lemma box_ext d o o' L L' : (forall k, k < d -> nth k o 0%Z = nth k o' 0%Z) -> (forall k, k < d -> nth k L 0%Z = nth k L' 0%Z) -> forall n, box d o L n <-> box d o' L' n.
Proof. intros Ho HL n. split; intros H k Hk; specialize (H k Hk); rewrite ?Ho, ?HL in *; auto; rewrite <- ?Ho, <- ?HL; auto. Qed.

Lemma join_boxes ball argsort w l d ax side a za r0 o o' L L' L'' B m m' dt e :
  correct_ball ball -> is_argsort dleb argsort -> grid_lattice d a za r0 (box d o L) m l -> lt_data l = Some dt -> grid_data d a za r0 (box d o L') m' e ->
  ax < d -> (a * 1000000 <= inject_Z za)%Q ->
  (forall k, k < d -> (1 <= nth k L 0)%Z) -> (1 <= B)%Z -> resized d ax B L L' -> (3 <= nth ax L 0 \/ 3 <= B)%Z ->
  resized d ax (nth ax L 0 + B)%Z L L'' -> side_origin d ax side B o o' ->
  exists l', append_section ball argsort w l (data_section e) ax side None false (is_primitive l) = Some l' /\
    lt_structure l' = lt_structure l /\ lt_primitive l' = lt_primitive l /\ grid_lattice d a za r0 (box d o' L'') (Nat.max m m') l'.
Proof.
  intros Hball Harg Gl Ed Ge Hax Hle HL HB HL' H3 HL'' Ho.
  assert (forall k, k < d -> (1 <= nth k L' 0)%Z) as HLp by (intros k Hk; rewrite HL' by auto; destruct (k =? ax); auto).
  assert (forall k, k < d -> (1 <= nth k L'' 0)%Z) as HLpp by (intros k Hk; rewrite HL'' by auto; pose proof (HL k Hk); pose proof (HL ax Hax); destruct (k =? ax); lia).
  assert (nth ax L' 0%Z = B) as EB by (rewrite HL', Nat.eqb_refl by auto; auto).
  assert (nth ax L'' 0%Z = (nth ax L 0 + B)%Z) as EAB by (rewrite HL'', Nat.eqb_refl by auto; auto).
  assert (3 <= nth ax L'' 0)%Z as H3' by (rewrite EAB; pose proof (HL ax Hax); lia).
  assert (grid_data d a za r0 (box d o L) m dt) as Gd by (destruct Gl as [_ _ _ [dt' [E' Gd]]]; congruence).
  assert (0 <= za)%Z as Hza.
  { destruct Gl as [_ [Ha _] _ _]. rewrite Zle_Qle. change (inject_Z 0) with 0%Q. lra. }
  set (A := nth ax L 0%Z) in *. pose proof (HL ax Hax) as HA. fold A in HA.
  set (t := unit d ax (if (0 <? side)%Z then A else - B)%Z).
  assert (forall k, k < d -> nth k t 0%Z = if k =? ax then (if (0 <? side)%Z then A else - B)%Z else 0%Z) as Ht by (intros k Hk; apply nth_unit; auto).
  assert (resized d ax A L'' L) as R1.
  { intros k Hk. rewrite HL'' by auto. destruct (Nat.eqb_spec k ax) as [->|]; auto. }
  assert (resized d ax B L'' L') as R2.
  { intros k Hk. rewrite HL', HL'' by auto. destruct (k =? ax); auto. }
  assert (resized d ax (A + B) L'' L'') as R3.
  { intros k Hk. destruct (Nat.eqb_spec k ax) as [->|]; auto. }
  assert (forall n, length n = d -> joined_cells d t (box d o L) (box d o L') n <-> box d o' L'' n) as HJ.
  { unfold side_origin in Ho. destruct (0 <? side)%Z; cbn [negb] in Ho.
    - intros n Ln. rewrite (joined_boxes d ax o o A B L'' L L' t); auto; try lia. apply box_ext; auto. intros k Hk. rewrite Ho, Bool.andb_false_r by auto. auto.
    - intros n Ln. apply (joined_boxes_left d ax o o' A B L'' L L' t); auto; try lia. intros k Hk. rewrite Ho, Bool.andb_true_r by auto. auto. }
  pose proof (box_columns _ _ _ _ _ _ _ _ HL Gd) as Hm. pose proof (box_columns _ _ _ _ _ _ _ _ HLp Ge) as Hm'.
  assert (box_degree d L'' <= Nat.max m m') as Hdeg.
  { destruct H3 as [H3|H3].
    - rewrite (resized_degree d ax (A + B) L L'') by (auto; lia). lia.
    - rewrite (resized_degree d ax (A + B) L' L''); auto; [lia| |lia|lia]. intros k Hk. rewrite HL'', HL' by auto. destruct (k =? ax); auto. }
  destruct (join_section ball argsort w l d ax side a za r0 (box d o L) (box d o L') m m' dt e (if (0 <? side)%Z then A else B) t) as (l' & d' & A1 & A2 & A3 & A4 & A5 & _); auto.
  - destruct (0 <? side)%Z.
    + apply (box_extent d o L); auto. apply (gd_cells _ _ _ _ _ _ _ Gd).
    + rewrite <- EB. apply (box_extent d o L'); auto. apply (gd_cells _ _ _ _ _ _ _ Ge).
  - unfold t. apply along_unit. destruct (0 <? side)%Z; auto.
  - intros c Lc HC [c' [Lc' [HD Hs]]]. specialize (HC ax Hax). specialize (HD ax Hax). rewrite EB in HD. rewrite Hs, Ht, Nat.eqb_refl in HC by auto. fold A in HC. destruct (0 <? side)%Z; lia.
  - intros c Lc Hc. apply HJ in Hc; auto. eapply degree_ext; [intros n Ln; symmetry; apply HJ; auto|]. eapply degree_mono; [apply box_degree_bound; auto|auto].
  - destruct (box_corner_bound d o' L'' ax) as [C1 [C2 C3]]; auto.
    set (c := map (fun k => nth k o' 0%Z) (seq 0 d)).
    assert (forall k, k < d -> nth k c 0%Z = nth k o' 0%Z) as Hc.
    { intros k Hk. unfold c. rewrite (nth_map_in _ _ _ 0) by (rewrite seq_length; auto). rewrite seq_nth by auto. reflexivity. }
    assert (length c = d) as Lc by (unfold c; rewrite map_length, seq_length; auto).
    exists c. split; auto. split.
    + apply HJ; auto. intros k Hk. rewrite Hc by auto. apply (C1 k Hk).
    + eapply degree_ext; [intros n Ln; symmetry; apply HJ; auto|]. eapply degree_mono with (k := box_degree d L'' - 1); [|lia].
      intros l0 H1 H2. apply C2; auto. intros q Hq. destruct (H2 q Hq) as [Q1 [Q2 Q3]]. split; auto. split; auto. eapply unit_step_ext; [| |exact Q3]; auto. intros; symmetry; auto.
  - destruct H3 as [H3|H3]; [left; apply (box_has_link d o L ax)|right; apply (box_has_link d o L' ax)]; auto; lia.
  - exists l'. do 3 (split; auto). eapply grid_lattice_ext; [exact HJ|]. auto.
Qed.

Theorem C78_append_boxes :
  forall ball argsort w l other d ax side a za r0 o o' L L' L'' B m m' e,
    correct_ball ball -> is_argsort dleb argsort ->
    grid_lattice d a za r0 (box d o L) m l -> lt_data other = Some e -> grid_data d a za r0 (box d o L') m' e ->
    ax < d -> (a * 1000000 <= inject_Z za)%Q ->
    (forall k, k < d -> (1 <= nth k L 0)%Z) -> (1 <= B)%Z -> resized d ax B L L' -> (3 <= nth ax L 0 \/ 3 <= B)%Z ->
    resized d ax (nth ax L 0 + B)%Z L L'' -> side_origin d ax side B o o' ->
    exists l', append_lattice ball argsort w l other ax side None false = Some l' /\ lt_structure l' = lt_structure l /\
      grid_lattice d a za r0 (box d o' L'') (Nat.max m m') l'.
Proof.
  intros ball argsort w l other d ax side a za r0 o o' L L' L'' B m m' e Hball Harg Gl Ee Ge Hax Hle HL HB HL' H3 HL'' Ho.
  pose proof Gl as [_ _ _ [dt [Ed _]]]. unfold append_lattice. rewrite Ee.
  destruct (join_boxes ball argsort w l d ax side a za r0 o o' L L' L'' B m m' dt e) as (l' & A1 & A2 & A3 & A4); auto.
  exists l'. auto.
Qed.

(** ** Built lattices *)

(** The data of the sites selected by [build_indices]. *)
Lemma piece_sites query argsort norms s s' sh primitive pos check callback I P a za r0 :
  correct_tree query -> is_argsort dleb argsort ->
  valid_basis (st_basis s) -> 1 <= b_dim (st_basis s) -> in_step s ->
  st_positions s = [r0] -> st_connections s = Some [[1]] -> analyze query s = (s', Ok tt) ->
  let d := b_dim (st_basis s) in
  cubic_lattice d (b_mat (st_basis s)) a -> rounds_to_micro (a * a)%Q za -> (6 <= za)%Z ->
  (primitive = true -> length norms = d) ->
  build_indices (st_basis s) norms (st_positions s) sh primitive pos check callback = Ok (I, P) ->
  I <> [] ->
  no_connections s' = false /\ not_analyzed s' = false /\ st_basis s' = st_basis s /\ st_positions s' = st_positions s /\
  exists an r T dt, st_analysis s' = Some an /\ query_radius an = Some r /\ (a * a <= r * r /\ r * r < 2 * (a * a))%Q /\
    compute_neighbors query argsort an I P = Some T /\ data_set I P (map (map fst) T) (map (map snd) T) = Some dt /\ stored d T dt /\
    d_indices dt = I /\ d_positions dt = P /\ exists m, grid_data d a za r0 (fun n => In (n ++ [0%Z]) I) m dt.
Proof.
  intros Hq Harg Hb Hd Hs HR Ec Ha d HV Hza H6 Hnorms EI HI.
  destruct (grid_sites query argsort norms s s' sh primitive pos check callback I P a za Hq Harg Hb Hd Hs ltac:(rewrite HR; auto) Ec Ha HV Hza H6 Hnorms EI HI)
    as (En & Ena & Eb & ER & an & r & T & dt & Ean & Er & Hr & ET & Edt & St & Hwf & Edi & Edp & Hlinks).
  do 4 (split; auto). exists an, r, T, dt. do 8 (split; auto). exists (d_cols dt).
  assert (length r0 = d) as Hr0 by (destruct Hs as [_ [Hs _]]; apply Hs; rewrite HR; left; auto).
  rewrite HR in EI. assert (forall r', In r' [r0] -> length r' = d) as HRl by (intros r' [<-|[]]; auto).
  destruct (C31_indices_and_positions_aligned _ _ _ _ _ _ _ _ _ _ Hb Hnorms HRl EI) as [Hlen [Hal _]]. fold d in Hal.
  assert (forall k i p, nth_error I k = Some i -> nth_error P k = Some p -> exists n, i = n ++ [0%Z] /\ length n = d /\ same p (lattice_point d (b_mat (st_basis s)) r0 n)) as Hsite.
  { intros k i p Hi Hp. destruct (Hal k i p Hi Hp) as [n [[|[|c]] [r' [-> [Hn [Hr' Hsame]]]]]]; cbn in Hr'; try discriminate.
    injection Hr' as <-. exists n. auto. }
  assert (nsites dt = length P) as HN by (unfold nsites; rewrite Edi; auto).
  constructor; auto.
  - apply (st_dim _ _ _ St).
  - apply (st_padding _ _ _ St).
  - intros x Hx. destruct (st_values _ _ _ St x Hx) as [->|[i [j [Hi Hj]]]]; [left; auto|right]. rewrite HN in Hi. apply (Hlinks i Hi) in Hj. apply Hj.
  - intros i Hi x Hx. apply (st_regular _ _ _ St i x Hi Hx).
  - rewrite Edi. apply (C33_no_site_twice _ _ _ _ _ _ _ _ _ _ Hb Hnorms HRl EI).
  - intro x. rewrite Edi. split.
    + intro Hx. destruct (In_nth_error _ _ Hx) as [k Hk]. destruct (nth_error_lt P k) as [p Hp]; [rewrite <- Hlen; apply nth_error_length_lt in Hk; auto|].
      destruct (Hsite k x p Hk Hp) as [n [-> [Ln _]]]. exists n. auto.
    + intros [n [-> [_ H]]]. auto.
  - intros k Hk. rewrite HN in Hk. rewrite Edi, Edp. destruct (nth_error_lt P k Hk) as [p Hp]. destruct (nth_error_lt I k) as [i Hi]; [lia|].
    destruct (Hsite k i p Hi Hp) as [n [-> [Ln [S1 S2]]]]. unfold vec in *. rewrite (nth_of_nth_error _ _ [] _ Hp), (nth_of_nth_error _ _ [] _ Hi).
    rewrite S1, lattice_point_length. split; auto. intros q Hq'. rewrite S2, nth_lattice_point by auto. rewrite (row_sum d _ a HV) by auto. rewrite app_nth1 by lia. reflexivity.
  - intros i Hi. rewrite HN in *. rewrite Edi. apply Hlinks. auto.
  - apply (st_packed _ _ _ St).
Qed.

(** A built lattice is a piece of the hypercubic lattice. *)
Theorem C78_built_piece :
  forall query argsort norms s s' l sh primitive pos check callback I P a za r0,
    correct_tree query -> is_argsort dleb argsort ->
    valid_basis (st_basis s) -> 1 <= b_dim (st_basis s) -> in_step s ->
    st_positions s = [r0] -> st_connections s = Some [[1]] -> analyze query s = (s', Ok tt) -> lt_structure l = s' ->
    let d := b_dim (st_basis s) in
    cubic_lattice d (b_mat (st_basis s)) a -> rounds_to_micro (a * a)%Q za -> (6 <= za)%Z -> (forall k, In k (lt_axes l) -> k < d) ->
    (primitive = true -> length norms = d) -> fitting d sh primitive pos ->
    build_indices (st_basis s) norms (st_positions s) (AShape (build_shape (st_basis s) sh primitive pos)) primitive pos check callback = Ok (I, P) ->
    I <> [] ->
    exists l' m, build query argsort norms l sh primitive pos check None None callback = (l', Ok tt) /\
      lt_structure l' = s' /\ grid_lattice d a za r0 (fun n => In (n ++ [0%Z]) I) m l'.
Proof.
  intros query argsort norms s s' l sh primitive pos check callback I P a za r0 Hq Harg Hb Hd Hs HR Ec Ha El d HV Hza H6 Hax Hnorms Hfit EI HI.
  destruct (piece_sites query argsort norms s s' _ primitive pos check callback I P a za r0 Hq Harg Hb Hd Hs HR Ec Ha HV Hza H6 Hnorms EI HI)
    as (En & Ena & Eb & ER & an & r & T & dt & Ean & Er & Hr & ET & Edt & St & Edi & Edp & m & G).
  set (l1 := mkLattice (lt_structure l) (Some dt) (lt_shape l) (lt_pos l) (lt_axes l) (Some primitive)).
  destruct (update_shape_same l1) as [U1 [U2 U3]].
  exists (update_shape l1), m. split; [|split].
  - assert (shape_ok (st_basis s) sh primitive pos = true) as Hshape by (apply fitting_ok; exact Hfit).
    unfold build, build_tables.
    change (lt_structure (set_data l None)) with (lt_structure l). unfold l1. rewrite El, En, Ena, Eb, ER, Hshape. cbn [negb].
    rewrite EI, Ean, ET, Edt. reflexivity.
  - rewrite U1. exact El.
  - change (lt_structure l1) with (lt_structure l) in U1. change (lt_data l1) with (Some dt) in U2. rewrite El in U1.
    assert (lt_basis (update_shape l1) = st_basis s) as Ebl by (unfold lt_basis; rewrite U1; auto).
    assert (lt_indices (update_shape l1) = I /\ lt_positions (update_shape l1) = P) as [EI' EP'] by (unfold lt_indices, lt_positions; rewrite U2; auto).
    pose proof (gd_wf _ _ _ _ _ _ _ G) as W. pose proof (gd_dim _ _ _ _ _ _ _ G) as Dd.
    unfold d in *. constructor.
    + constructor.
      * rewrite Ebl. auto.
      * rewrite Ebl. auto.
      * rewrite EI', <- Edi. intros i Hi. rewrite <- Dd. apply (wf_indices _ W). auto.
      * rewrite EP', <- Edp. intros p Hp. rewrite <- Dd. apply (wf_positions _ W). auto.
      * rewrite EI', EP', <- Edi, <- Edp. pose proof (npos _ W) as L. unfold vec, nsites in *. lia.
      * intros k Hk. apply Hax. destruct U3 as [U3 _]. rewrite U3 in Hk. exact Hk.
    + rewrite Ebl. auto.
    + exists an, r. rewrite U1. auto.
    + exists dt. auto.
Qed.

(** ** C78: repeating a box *)

Lemma assign_mask_none {A} (mask : list bool) (v : A) row : (forall c, c < length row -> nth c mask false = false) -> assign_mask mask v row = row.
Proof.
  revert row. induction mask as [|b mask IH]; intros [|x row] H; cbn; auto. pose proof (H 0 ltac:(cbn; lia)) as H0. cbn in H0. rewrite H0. f_equal. apply IH.
  intros c Hc. apply (H (S c)). cbn. lia.
Qed.

Lemma no_periodic_neighbors dt : wf dt -> (forall i, i < nsites dt -> forall s, In s (slots dt i) -> s_per s = false) -> d_neighbors (remove_periodic dt) = d_neighbors dt.
Proof.
  intros W H. cbn [remove_periodic d_neighbors]. pose proof (wf_pmask _ W) as [Lm Rm]. pose proof (wf_neighbors _ W) as [Ln Rn].
  assert (forall i c, i < nsites dt -> c < d_cols dt -> pm dt i c = false) as Hpm.
  { intros i c Hi Hc. destruct (pm dt i c) eqn:E; auto. pose proof (wf_pm _ W i c Hi Hc E) as Hv.
    rewrite <- E. symmetry. change (pm dt i c) with (s_per (slot_at dt i c)). rewrite <- (H i Hi (slot_at dt i c)); [rewrite (H i Hi (slot_at dt i c)); auto|];
      unfold slots; apply in_map; unfold valid_slots; apply filter_In; (split; [apply in_seq; lia|auto]). }
  apply (nth_ext _ _ [] []); [rewrite DataFacts.map2_length; lia|]. intros i Hi. rewrite DataFacts.map2_length in Hi. rewrite (nth_map2 _ _ _ _ [] []) by lia.
  apply assign_mask_none. intros c Hc. rewrite (Rn (nth i (d_neighbors dt) [])) in Hc by (apply nth_In; lia). apply (Hpm i c); lia.
Qed.

Lemma repeat_boxes ball argsort d ax side a za r0 o m e A : correct_ball ball -> is_argsort dleb argsort -> ax < d -> (a * 1000000 <= inject_Z za)%Q -> (0 <? side)%Z = true -> (3 <= A)%Z ->
  forall ws l L L0 Ln c, grid_lattice d a za r0 (box d o L) m l -> grid_data d a za r0 (box d o L0) m e ->
    (forall k, k < d -> (1 <= nth k L 0)%Z) -> nth ax L 0%Z = (c * A)%Z -> (1 <= c)%Z -> resized d ax A L L0 -> resized d ax ((c + Z.of_nat (length ws)) * A)%Z L Ln ->
    exists l', repeat_loop ball argsort ws l (data_section e) (data_section e) ax side None false = Some l' /\ lt_structure l' = lt_structure l /\
      grid_lattice d a za r0 (box d o Ln) m l'.
Proof.
  intros Hball Harg Hax Hle Hside HA. induction ws as [|w ws IH]; intros l L L0 Ln c Gl Ge HL Ec Hc R0 Rn; cbn [repeat_loop].
  - exists l. split; auto. split; auto. eapply grid_lattice_ext; [|exact Gl]. intros n _. apply box_ext; auto. intros k Hk. rewrite Rn by auto. destruct (Nat.eqb_spec k ax) as [->|]; auto. cbn [length]. rewrite Ec. f_equal. lia.
  - pose proof Gl as [_ _ _ [dt [Ed _]]].
    set (L1 := map (fun k => if k =? ax then ((c + 1) * A)%Z else nth k L 0%Z) (seq 0 d)).
    assert (forall k, k < d -> nth k L1 0%Z = if k =? ax then ((c + 1) * A)%Z else nth k L 0%Z) as H1.
    { intros k Hk. unfold L1. rewrite (nth_map_in _ _ _ 0) by (rewrite seq_length; auto). rewrite seq_nth by auto. reflexivity. }
    destruct (join_boxes ball argsort w l d ax side a za r0 o o L L0 L1 A m m dt e) as (l1 & A1 & A2 & A3 & A4); auto; try lia.
    + intros k Hk. rewrite H1 by auto. destruct (k =? ax); auto. rewrite Ec. ring.
    + intros k Hk. rewrite Hside. cbn [negb]. rewrite Bool.andb_false_r. auto.
    + rewrite A1. rewrite Nat.max_id in A4. destruct (IH l1 L1 L0 Ln (c + 1)%Z) as (l' & B1 & B2 & B3); auto.
      * intros k Hk. rewrite H1 by auto. specialize (HL k Hk). destruct (k =? ax); nia.
      * rewrite H1, Nat.eqb_refl by auto. auto.
      * lia.
      * intros k Hk. rewrite R0, H1 by auto. destruct (k =? ax); auto.
      * intros k Hk. rewrite Rn, H1 by auto. destruct (k =? ax); auto. cbn [length]. f_equal. lia.
      * exists l'. split; auto. split; [congruence|auto].
Qed.

Theorem C78_repeat_box :
  forall ball argsort ws l d ax side a za r0 o L Ln m,
    correct_ball ball -> is_argsort dleb argsort -> grid_lattice d a za r0 (box d o L) m l ->
    ax < d -> (a * 1000000 <= inject_Z za)%Q -> (0 < side)%Z -> (forall k, k < d -> (1 <= nth k L 0)%Z) -> (3 <= nth ax L 0)%Z ->
    resized d ax (Z.of_nat (1 + length ws) * nth ax L 0)%Z L Ln ->
    exists l', repeat_lattice ball argsort ws l ax side None false = Some l' /\ lt_structure l' = lt_structure l /\
      grid_lattice d a za r0 (box d o Ln) m l'.
Proof.
  intros ball argsort ws l d ax side a za r0 o L Ln m Hball Harg Gl Hax Hle Hside HL H3 Rn.
  pose proof Gl as [_ _ _ [dt [Ed Gd]]]. unfold repeat_lattice. rewrite Ed. cbv zeta.
  rewrite (no_periodic_neighbors dt (gd_wf _ _ _ _ _ _ _ Gd) (gd_regular _ _ _ _ _ _ _ Gd)). fold (data_section dt).
  apply (repeat_boxes ball argsort d ax side a za r0 o m dt (nth ax L 0%Z)) with (L := L) (L0 := L) (c := 1%Z); auto; try lia.
  - intros k Hk. destruct (Nat.eqb_spec k ax) as [->|]; auto.
  - intros k Hk. rewrite Rn by auto. destruct (k =? ax); auto. f_equal. lia.
Qed.

(** ** From finite_hypercubic to a repeated lattice *)

Lemma box_cells d s a : (0 < a)%Q -> (forall i, i < d -> (0 <= nth i s 0)%Q) -> forall i, i < d -> (1 <= Qfloor (nth i s 0 / a)%Q + 1)%Z.
Proof. intros Ha Hs i Hi. assert (0 <= Qfloor (nth i s 0 / a)%Q)%Z; [|lia]. apply floor_ge. change (inject_Z 0) with 0%Q. specialize (Hs i Hi). apply Qle_shift_div_l; lra. Qed.

(** The lattice of [finite_hypercubic] by size, its structure and its cells. *)
Lemma finite_box query argsort inv s a at_ za :
  let d := length s in
  let L := map (fun x => (Qfloor (x / a)%Q + 1)%Z) s in
  correct_tree query -> is_argsort dleb argsort -> 1 <= d -> valid_basis (hypercubic inv d a) -> (1#1000 < a)%Q ->
  rounds_to_micro (a * a)%Q za ->
  (forall i, i < d -> (0 <= nth i s 0 /\ nth i s 0 / a < inject_Z (2 ^ 62))%Q) ->
  exists st l m, finite_hypercubic query argsort inv (ASize s) a at_ 1 false None = Ok l /\
    st_basis st = hypercubic inv d a /\ st_positions st = [repeat 0%Q d] /\ st_connections st = Some [[1]] /\ in_step st /\
    analyze query st = (lt_structure l, Ok tt) /\
    build query argsort (repeat (Qabs a) d) (new_lattice (lt_structure l)) (ASize s) false None true None None None = (l, Ok tt) /\
    grid_lattice d a za (repeat 0%Q d) (box d (repeat 0%Z d) L) m l /\ forall k, k < d -> (1 <= nth k L 0)%Z.
Proof.
  intros d L Hq Harg Hd Hb Ha Hza Hrange.
  destruct (hypercubic_preset query inv d a at_ Hd Hb) as [st [st' [Hsb [Hsp [Hsc [Hst [Han Hpre]]]]]]].
  assert (0 < a)%Q as Ha0 by lra.
  pose proof (hypercubic_axis inv d a Ha0 Hb) as Hax. pose proof (hypercubic_dim inv d a) as Hbd.
  set (b := hypercubic inv d a) in *.
  assert (forall i, i < d -> (nth i (repeat (Qabs a) d) 0 == a)%Q) as Hcs.
  { intros i Hi. rewrite (nth_error_nth (repeat (Qabs a) d) i 0%Q (x := Qabs a)); [apply Qabs_pos; lra|]. apply nth_error_repeat. auto. }
  assert (6 <= za)%Z as H6.
  { destruct Hza as [Z0 [Hza _]]. cbv zeta in Hza. apply Znot_gt_le. intro G.
    assert (inject_Z za <= 5)%Q as G' by (change 5%Q with (inject_Z 5); rewrite <- Zle_Qle; lia).
    rewrite Zle_Qle in Z0. change (inject_Z 0) with 0%Q in Z0. nra. }
  assert (forall k, k < d -> nth k L 0%Z = (Qfloor (nth k s 0 / a)%Q + 1)%Z) as EL.
  { intros k Hk. unfold L. rewrite (nth_map_in _ _ _ 0%Q) by auto. reflexivity. }
  assert (forall k, k < d -> (1 <= nth k L 0)%Z) as HL.
  { intros k Hk. rewrite EL by auto. apply (box_cells d); auto. intros i Hi. apply Hrange. auto. }
  destruct (C72_box_sites b (repeat (Qabs a) d) (repeat (Qabs a) d) s Hax) as [I [P [EI [HN HI]]]].
  { lia. } { auto. } { rewrite Hbd. intros i Hi. rewrite (Hcs i Hi). split; auto. }
  rewrite Hbd in *.
  assert (forall n, length n = d -> In (n ++ [0%Z]) I <-> box d (repeat 0%Z d) L n) as HB.
  { intros n Ln. rewrite HI. assert (forall i, i < d -> (inject_Z (nth i n 0%Z) * nth i (repeat (Qabs a) d) 0 <= nth i s 0)%Q <-> (nth i n 0 < nth i L 0)%Z) as Hca.
    { intros i Hi. rewrite EL by auto. fold (Z.succ (Qfloor (nth i s 0 / a)%Q)). rewrite (Hcs i Hi), Z.lt_succ_r, floor_ge. split; intro H.
      - apply Qle_shift_div_l; lra.
      - apply (Qmult_le_compat_r _ _ a) in H; [|lra]. assert (nth i s 0 / a * a == nth i s 0)%Q as E' by (field; lra). lra. }
    unfold box. split.
    - intros [_ H] k Hk. destruct (H k Hk) as [K1 K2]. apply Hca in K2; auto. rewrite nth_repeat. lia.
    - intro H. split; auto. intros k Hk. specialize (H k Hk). rewrite nth_repeat in H. split; [lia|]. apply Hca; auto. lia. }
  assert (I <> []) as HI0.
  { intro E. assert (In (repeat 0%Z d ++ [0%Z]) I) as Hin; [|rewrite E in Hin; destruct Hin]. apply HB; [apply repeat_length|].
    intros k Hk. rewrite nth_repeat. specialize (HL k Hk). lia. }
  destruct (C78_built_piece query argsort (repeat (Qabs a) d) st st' (new_lattice st') (ASize s) false None true None I P a za (repeat 0%Q d)) as [l [m [E1 [E2 G]]]]; auto.
  - rewrite Hsb. auto.
  - rewrite Hsb. lia.
  - rewrite Hsb, Hbd. split; auto. intros i j Hi Hj. apply hypercubic_entry; auto.
  - intros k [].
  - discriminate.
  - rewrite Hsb, Hbd. split; [discriminate|]. intros _. reflexivity.
  - rewrite Hsb, Hsp. exact EI.
  - exists st, l, m. split; [unfold finite_hypercubic; fold d; fold b; rewrite Hpre, E1; reflexivity|]. rewrite E2. do 6 (split; auto). split; auto.
    rewrite Hsb, Hbd in G. eapply grid_lattice_ext; [|exact G]. exact HB.
Qed.

(** The lattice of [finite_hypercubic] by size: the box of all cells from the origin, as many as lattice constants fit. *)
Theorem C78_finite_hypercubic_box :
  forall query argsort inv s a at_ za,
    let d := length s in
    let L := map (fun x => (Qfloor (x / a)%Q + 1)%Z) s in
    correct_tree query -> is_argsort dleb argsort -> 1 <= d -> valid_basis (hypercubic inv d a) -> (1#1000 < a)%Q ->
    rounds_to_micro (a * a)%Q za ->
    (forall i, i < d -> (0 <= nth i s 0 /\ nth i s 0 / a < inject_Z (2 ^ 62))%Q) ->
    exists l m, finite_hypercubic query argsort inv (ASize s) a at_ 1 false None = Ok l /\
      grid_lattice d a za (repeat 0%Q d) (box d (repeat 0%Z d) L) m l /\ forall k, k < d -> (1 <= nth k L 0)%Z.
Proof.
  intros query argsort inv s a at_ za d L Hq Harg Hd Hb Ha Hza Hrange.
  destruct (finite_box query argsort inv s a at_ za Hq Harg Hd Hb Ha Hza Hrange) as (st & l & m & E & _ & _ & _ & _ & _ & _ & G). exists l, m. split; auto.
Qed.

Definition unit_square (s : list Q) : result lattice := finite_hypercubic brute dist_argsort diagonal_inverse (ASize s) 1 (ex_atom "A") 1 false None.

Lemma unit_square_box s : length s = 2 -> (forall i, i < 2 -> (0 <= nth i s 0 /\ nth i s 0 / 1 < inject_Z (2 ^ 62))%Q) ->
  exists l m, unit_square s = Ok l /\ grid_lattice 2 1 1000000 [0; 0]%Q (box 2 [0; 0]%Z (map (fun x => (Qfloor (x / 1)%Q + 1)%Z) s)) m l.
Proof.
  intros Ls Hs. destruct (C78_finite_hypercubic_box brute dist_argsort diagonal_inverse s 1 (ex_atom "A") 1000000) as [l [m [E [G _]]]].
  - exact brute_nearest.
  - exact dist_argsort_ok.
  - lia.
  - rewrite Ls. apply inverse2_check; reflexivity.
  - reflexivity.
  - change 1000000%Z with (sqrt_micro (1 * 1)). apply sqrt_micro_rounds. lra.
  - rewrite Ls. exact Hs.
  - rewrite Ls in G. exists l, m. split; [exact E|exact G].
Qed.

(** 5 x 2 sites, repeated twice: 15 x 2 sites; and 4 x 2 sites appended on the left. *)
Example C78_example :
  correct_ball brute_ball /\ is_argsort dleb dist_argsort /\
  (exists l m, unit_square [4; 1]%Q = Ok l /\ grid_lattice 2 1 1000000 [0; 0]%Q (box 2 [0; 0]%Z [5; 2]%Z) m l) /\
  (exists l m, unit_square [3; 1]%Q = Ok l /\ grid_lattice 2 1 1000000 [0; 0]%Q (box 2 [0; 0]%Z [4; 2]%Z) m l) /\
  resized 2 0 (Z.of_nat 3 * 5)%Z [5; 2]%Z [15; 2]%Z /\ resized 2 0 4 [5; 2]%Z [4; 2]%Z /\ resized 2 0 (5 + 4)%Z [5; 2]%Z [9; 2]%Z /\
  side_origin 2 0 (-1) 4 [0; 0]%Z [-4; 0]%Z /\
  match unit_square [4; 1]%Q, unit_square [3; 1]%Q with
  | Ok l, Ok l2 =>
    match repeat_lattice brute_ball dist_argsort [keep; keep] l 0 1 None false, append_lattice brute_ball dist_argsort keep l l2 0 (-1) None false with
    | Some l3, Some l4 => match lt_data l3, lt_data l4 with
      | Some dt3, Some dt4 => nsites dt3 = 30 /\ nth 9 (d_indices dt3) [] = [4; 1; 0]%Z /\ links dt3 9 = [(7, Fin 1000000); (8, Fin 1000000); (11, Fin 1000000)] /\
          nsites dt4 = 18 /\ nth 10 (d_indices dt4) [] = [-4; 0; 0]%Z /\ nth 16 (d_indices dt4) [] = [-1; 0; 0]%Z /\
          map fst (links dt4 0) = [1; 2; 16] /\ map fst (links dt4 16) = [14; 17; 0]
      | _, _ => False
      end
    | _, _ => False
    end
  | _, _ => False
  end.
Proof.
  split; [apply brute_ball_correct|]. split; [apply dist_argsort_ok|].
  split; [|split; [|split; [|split; [|split; [|split]]]]].
  - destruct (unit_square_box [4; 1]%Q) as [l [m [E G]]]; [reflexivity|intros [|[|i]] Hi; [| |lia]; vm_compute; split; congruence|]. exists l, m. split; [exact E|exact G].
  - destruct (unit_square_box [3; 1]%Q) as [l [m [E G]]]; [reflexivity|intros [|[|i]] Hi; [| |lia]; vm_compute; split; congruence|]. exists l, m. split; [exact E|exact G].
  - intros [|[|k]] Hk; try lia; reflexivity.
  - intros [|[|k]] Hk; try lia; reflexivity.
  - intros [|[|k]] Hk; try lia; reflexivity.
  - intros [|[|k]] Hk; try lia; reflexivity.
  - vm_compute. repeat split.
Qed.

Lemma degree_subset d (C C' : list Z -> Prop) n k : (forall m, length m = d -> C m -> C' m) -> degree_at_most d C' n k -> degree_at_most d C n k.
Proof. intros E H l H1 H2. apply H; auto. intros m Hm. destruct (H2 m Hm) as [A1 [A2 A3]]. split; auto. Qed.

(** 4 x 3 sites appended to 5 x 2 sites: not a box. *)
Example C78_pieces_example : exists l l2 m m' dt e,
  unit_square [4; 1]%Q = Ok l /\ unit_square [3; 2]%Q = Ok l2 /\
  grid_lattice 2 1 1000000 [0; 0]%Q (box 2 [0; 0]%Z [5; 2]%Z) m l /\ lt_data l = Some dt /\
  lt_data l2 = Some e /\ grid_data 2 1 1000000 [0; 0]%Q (box 2 [0; 0]%Z [4; 3]%Z) m' e /\
  extent (d_indices dt) 0 5 /\ along 2 0 5 [5; 0]%Z /\
  (forall c, length c = 2 -> box 2 [0; 0]%Z [5; 2]%Z c -> moved_cells 2 [5; 0]%Z (box 2 [0; 0]%Z [4; 3]%Z) c -> False) /\
  (let J := joined_cells 2 [5; 0]%Z (box 2 [0; 0]%Z [5; 2]%Z) (box 2 [0; 0]%Z [4; 3]%Z) in
   (forall c, length c = 2 -> J c -> degree_at_most 2 J c (Nat.max m m')) /\
   (exists c, length c = 2 /\ J c /\ degree_at_most 2 J c (Nat.max m m' - 1)) /\ J [8; 2]%Z /\ ~ J [4; 2]%Z) /\
  has_link 2 (box 2 [0; 0]%Z [5; 2]%Z) /\
  exists l' d', append_lattice brute_ball dist_argsort keep l l2 0 1 None false = Some l' /\ lt_data l' = Some d' /\ nsites d' = 22.
Proof.
  destruct (unit_square_box [4; 1]%Q) as [l [m [E G]]]; [reflexivity|intros [|[|i]] Hi; [| |lia]; vm_compute; split; congruence|].
  destruct (unit_square_box [3; 2]%Q) as [l2 [m' [E2 G2]]]; [reflexivity|intros [|[|i]] Hi; [| |lia]; vm_compute; split; congruence|].
  change (map _ _) with [5; 2]%Z in G. change (map _ _) with [4; 3]%Z in G2.
  pose proof G as [_ _ _ [dt [Ed Gd]]]. pose proof G2 as [_ _ _ [e [Ee Ge]]].
  assert (forall k, k < 2 -> (1 <= nth k [5; 2] 0)%Z) as H52 by (intros [|[|k]] Hk; cbn; lia).
  assert (forall k, k < 2 -> (1 <= nth k [4; 3] 0)%Z) as H43 by (intros [|[|k]] Hk; cbn; lia).
  assert (4 <= Nat.max m m') as Hm by (pose proof (box_columns _ _ _ _ _ _ _ _ H43 Ge) as H; vm_compute in H; lia).
  set (J := joined_cells 2 [5; 0]%Z (box 2 [0; 0]%Z [5; 2]%Z) (box 2 [0; 0]%Z [4; 3]%Z)).
  assert (forall c, length c = 2 -> J c -> box 2 [0; 0]%Z [9; 3]%Z c) as HJ.
  { intros c Lc [H|[c' [Lc' [H Hs]]]] [|[|k]] Hk; try lia.
    - specialize (H 0 Hk). cbn in *. lia.
    - specialize (H 1 Hk). cbn in *. lia.
    - specialize (H 0 Hk). rewrite Hs by auto. cbn in *. lia.
    - specialize (H 1 Hk). rewrite Hs by auto. cbn in *. lia. }
  exists l, l2, m, m', dt, e. split; auto. split; auto. split; auto. split; auto. split; auto. split; auto. split; [|split; [|split; [|split; [|split]]]].
  - apply (box_extent 2 [0; 0]%Z [5; 2]%Z); auto. apply (gd_cells _ _ _ _ _ _ _ Gd).
  - split; auto. intros [|[|k]] Hk; try lia; reflexivity.
  - intros c Lc HC [c' [Lc' [HD Hs]]]. specialize (HC 0 ltac:(lia)). specialize (HD 0 ltac:(lia)). rewrite Hs in HC by lia. cbn in *. lia.
  - fold J. cbv zeta. split; [|split; [|split]].
    + intros c Lc Hc. eapply degree_mono; [|exact Hm]. eapply degree_subset; [exact HJ|]. apply (box_degree_bound 2 [0; 0]%Z [9; 3]%Z). apply HJ; auto.
    + exists [0; 0]%Z. split; auto. split; [left; intros [|[|k]] Hk; cbn; lia|]. eapply degree_mono with (k := 3); [|lia]. eapply degree_subset; [exact HJ|].
      apply (box_corner_bound 2 [0; 0]%Z [9; 3]%Z 0); [|lia|cbn; lia]. intros [|[|k]] Hk; cbn; lia.
    + right. exists [3; 2]%Z. split; auto. split; intros [|[|k]] Hk; cbn; lia.
    + intros [H|[c' [Lc' [H Hs]]]]; [specialize (H 1 ltac:(lia)); cbn in H; lia|]. specialize (H 0 ltac:(lia)). specialize (Hs 0 ltac:(lia)). cbn in H, Hs. lia.
  - apply (box_has_link 2 [0; 0]%Z [5; 2]%Z 0); auto; cbn; lia.
  - clear -E E2. vm_compute in E. vm_compute in E2. injection E as <-. injection E2 as <-. eexists. eexists. split; [vm_compute; reflexivity|]. split; reflexivity.
Qed.

Print Assumptions C78_append_pieces.
Print Assumptions C78_append_boxes.
Print Assumptions C78_built_piece.
Print Assumptions C78_repeat_box.
Print Assumptions C78_finite_hypercubic_box.
