(** * Property C89 (lattpy/lattice.py: [set_periodic] called again) *)
From Coq Require Import String List ZArith QArith Bool Arith Lia.
From Verif Require Import Np NpFacts LinAlg LinFacts SpecUtils UtilsModel SpecBasis BasisModel BasisProofs PropBasis SpatialModel SpecSpatial SpecStructure ShapeModel StructureModel
  StructureFacts KDBrute SpecNeighbors SpecLattice DataModel SpecData DataFacts DataProofs DataOps LatticeModel LatticeFacts LatticeExamples PropBuild PropData PNeighborProofs PropMinDist RestoreProofs.
Import ListNotations.
Open Scope nat_scope.
Open Scope list_scope.

(** A lattice with well-formed data [dt]: every row lists regular neighbours, then periodic ones, then padding. *)
Record settled (l : lattice) (dt : data) : Prop := {
  se_data : lt_data l = Some dt;
  se_built : lt_shape l <> None;
  se_wf : wf dt;
  se_layered : layered dt;
  se_padded : padded dt;
  se_basis : valid_basis (lt_basis l);
  se_dim : d_dim dt = b_dim (lt_basis l) }.

(** The lattice after calls of [set_periodic], successful or not. *)
Definition after (query : kd_tree) (argsort : list dist -> list nat) (l : lattice) (xs : list axis_arg) : lattice :=
  fold_left (fun l x => fst (set_periodic query argsort l x)) xs l.

(** The axes a call asks for. *)
Definition asked (d : nat) (x : axis_arg) : list nat :=
  match x with AxNone | AxBool false => [] | AxBool true => seq 0 d | AxList axes => axes end.

(** The lattices differ in the periodic axes and the data at most. *)
Definition same_rest (l l' : lattice) : Prop :=
  lt_structure l' = lt_structure l /\ lt_shape l' = lt_shape l /\ lt_pos l' = lt_pos l /\ lt_primitive l' = lt_primitive l.

(** The call asks for periodic axes. *)
Definition asks (x : axis_arg) : Prop := match x with AxNone | AxBool false => False | _ => True end.

(** What a call does depends on the data without periodic neighbours only. *)
Lemma set_periodic_from query argsort l l' d0 y :
  plain d0 -> valid_basis (lt_basis l) -> d_dim d0 = b_dim (lt_basis l) -> same_rest l l' -> lt_shape l <> None ->
  (exists d, lt_data l = Some d /\ call_remove_periodic d = Some d0) -> (exists d, lt_data l' = Some d /\ call_remove_periodic d = Some d0) ->
  let a := set_periodic query argsort l y in let b := set_periodic query argsort l' y in
  snd a = snd b /\ lt_data (fst a) = lt_data (fst b) /\ same_rest l (fst a) /\ same_rest l (fst b) /\
  (exists d, lt_data (fst a) = Some d /\ call_remove_periodic d = Some d0) /\
  ((lt_axes (fst a) = asked (b_dim (lt_basis l)) y /\ lt_axes (fst b) = asked (b_dim (lt_basis l)) y) \/
   (asks y /\ lt_axes (fst a) = lt_axes l /\ lt_axes (fst b) = lt_axes l' /\ (snd a = Ok tt -> lt_data (fst a) = Some d0))) /\
  (~ asks y -> snd a = Ok tt /\ lt_data (fst a) = Some d0 /\ lt_axes (fst a) = []).
Proof.
  intros PL Hb Hdim [S1 [S2 [S3 S4]]] Hsh [d [Ed Rd]] [d' [Ed' Rd']]. cbv zeta. unfold set_periodic.
  destruct l as [st dat sh pos ax prim], l' as [st' dat' sh' pos' ax' prim']. cbn [lt_structure lt_shape lt_pos lt_primitive lt_data lt_axes] in *. subst st' sh' pos' prim' dat dat'.
  destruct sh as [sh|]; [|congruence]. rewrite Rd, Rd'.
  pose proof (extends_removed d0 d0 PL (plain_extends d0 PL)) as R0.
  unfold set_data, lt_basis, is_primitive in *. cbn [lt_structure lt_shape lt_pos lt_primitive lt_data lt_axes] in *.
  assert (forall axes, asks y -> asked (b_dim (st_basis st)) y = axes ->
    let f ax : lattice * result unit := match st_analysis st with
        | None => (mkLattice st (Some d0) (Some sh) pos ax prim, Raise TypeError)
        | Some an => match compute_pneighbors query argsort (st_basis st) an (match prim with Some true => true | _ => false end) axes d0 with
          | None => (mkLattice st (Some d0) (Some sh) pos ax prim, Raise OtherError)
          | Some [] => (mkLattice st (Some d0) (Some sh) pos ax prim, Ok tt)
          | Some ((_ :: _) as pd) => match DataModel.set_periodic d0 pd with
              | None => (mkLattice st (Some (written (remove_periodic d0) pd)) (Some sh) pos ax prim, Raise OtherError)
              | Some d' => (mkLattice st (Some d') (Some sh) pos axes prim, Ok tt) end end end in
    let a := f ax in let b := f ax' in
    snd a = snd b /\ lt_data (fst a) = lt_data (fst b) /\ same_rest (mkLattice st (Some d) (Some sh) pos ax prim) (fst a) /\
    same_rest (mkLattice st (Some d) (Some sh) pos ax prim) (fst b) /\
    (exists d, lt_data (fst a) = Some d /\ call_remove_periodic d = Some d0) /\
    ((lt_axes (fst a) = asked (b_dim (st_basis st)) y /\ lt_axes (fst b) = asked (b_dim (st_basis st)) y) \/
     (asks y /\ lt_axes (fst a) = ax /\ lt_axes (fst b) = ax' /\ (snd a = Ok tt -> lt_data (fst a) = Some d0))) /\
    (~ asks y -> snd a = Ok tt /\ lt_data (fst a) = Some d0 /\ lt_axes (fst a) = [])) as Hmain.
  { intros axes Hask Easked. cbv zeta.
    assert (forall r : result unit, let a := (mkLattice st (Some d0) (Some sh) pos ax prim, r) in let b := (mkLattice st (Some d0) (Some sh) pos ax' prim, r) in
      snd a = snd b /\ lt_data (fst a) = lt_data (fst b) /\ same_rest (mkLattice st (Some d) (Some sh) pos ax prim) (fst a) /\
      same_rest (mkLattice st (Some d) (Some sh) pos ax prim) (fst b) /\
      (exists d, lt_data (fst a) = Some d /\ call_remove_periodic d = Some d0) /\
      ((lt_axes (fst a) = asked (b_dim (st_basis st)) y /\ lt_axes (fst b) = asked (b_dim (st_basis st)) y) \/
       (asks y /\ lt_axes (fst a) = ax /\ lt_axes (fst b) = ax' /\ (snd a = Ok tt -> lt_data (fst a) = Some d0))) /\
      (~ asks y -> snd a = Ok tt /\ lt_data (fst a) = Some d0 /\ lt_axes (fst a) = [])) as Hsame.
    { intro r. cbn. split; auto. split; auto. split; [repeat split|]. split; [repeat split|]. split; [eauto|]. split; [right; auto|]. tauto. }
    destruct (st_analysis st) as [an|]; [|apply Hsame].
    destruct (compute_pneighbors query argsort (st_basis st) an _ axes d0) as [[|e pd]|] eqn:Epd; [apply Hsame| |apply Hsame].
    destruct (DataModel.set_periodic d0 (e :: pd)) as [d1|] eqn:E1; [|].
    2:{ cbn [fst snd lt_data lt_axes]. split; auto. split; auto. split; [repeat split|]. split; [repeat split|]. split; [|split; [right; split; auto; split; auto; split; auto; discriminate|tauto]].
        eexists. split; [reflexivity|]. apply extends_removed; auto.
        assert (remove_periodic d0 = d0) as ->.
        { unfold call_remove_periodic in R0. destruct (_ =? _) in R0; [congruence|discriminate]. }
        apply written_extends; auto; [apply plain_extends; auto|]. rewrite Hdim. exact (pneighbors_length _ _ _ _ _ _ _ _ Hb Epd). }
    cbn [fst snd lt_data lt_axes]. split; auto. split; auto. split; [repeat split|]. split; [repeat split|]. split; [|split; [auto|tauto]].
    exists d1. split; auto. apply extends_removed; auto. unfold DataModel.set_periodic in E1. rewrite R0 in E1.
    apply (loop_extends d0 (e :: pd) d0 d1 PL (plain_extends d0 PL)); auto. rewrite Hdim. exact (pneighbors_length _ _ _ _ _ _ _ _ Hb Epd). }
  assert (forall ax0, lt_axes (mkLattice st (Some d0) (Some sh) pos ax0 prim) = ax0) as _ by reflexivity.
  assert (let a := (mkLattice st (Some d0) (Some sh) pos [] prim, Ok tt) in
    snd a = snd a /\ lt_data (fst a) = lt_data (fst a) /\ same_rest (mkLattice st (Some d) (Some sh) pos ax prim) (fst a) /\
    same_rest (mkLattice st (Some d) (Some sh) pos ax prim) (fst a) /\
    (exists d, lt_data (fst a) = Some d /\ call_remove_periodic d = Some d0) /\
    lt_axes (fst a) = [] /\ snd a = Ok tt /\ lt_data (fst a) = Some d0) as Hnone.
  { cbn. split; auto. split; auto. split; [repeat split|]. split; [repeat split|]. split; [eauto|]. auto. }
  destruct y as [|[|]|axes].
  - destruct Hnone as (N1 & N2 & N3 & N4 & N5 & N6 & N7 & N8). repeat (split; [assumption|]). cbn [asked]. auto.
  - apply (Hmain (seq 0 (b_dim (st_basis st))) I eq_refl).
  - destruct Hnone as (N1 & N2 & N3 & N4 & N5 & N6 & N7 & N8). repeat (split; [assumption|]). cbn [asked]. auto.
  - apply (Hmain axes I eq_refl).
Qed.

Lemma same_rest_refl l : same_rest l l.
Proof. repeat split. Qed.

Lemma after_base query argsort xs : forall l d0, plain d0 -> valid_basis (lt_basis l) -> d_dim d0 = b_dim (lt_basis l) -> lt_shape l <> None ->
  (exists d, lt_data l = Some d /\ call_remove_periodic d = Some d0) ->
  same_rest l (after query argsort l xs) /\ exists d, lt_data (after query argsort l xs) = Some d /\ call_remove_periodic d = Some d0.
Proof.
  unfold after. induction xs as [|x xs IH]; intros l d0 PL Hb Hdim Hsh Hd; cbn [fold_left]; [split; auto; apply same_rest_refl|].
  destruct (set_periodic_from query argsort l l d0 x PL Hb Hdim (same_rest_refl l) Hsh Hd Hd) as (_ & _ & R & _ & D & _).
  set (l1 := fst (set_periodic query argsort l x)) in *. clearbody l1.
  destruct R as [R1 [R2 [R3 R4]]]. assert (lt_basis l1 = lt_basis l) as Eb by (unfold lt_basis; rewrite R1; auto).
  destruct (IH l1 d0 PL) as [[Q1 [Q2 [Q3 Q4]]] D']; rewrite ?Eb; auto; [rewrite R2; auto|]. split; auto.
  unfold same_rest. rewrite Q1, Q2, Q3, Q4. auto.
Qed.

(** ** C89 *)

(** Only the last call counts: after any calls, successful or not, a further call gives the result and the data it would have
    given at once.  The periodic axes are those of the last call, too, unless it finds no periodic neighbours (or
    fails): then they stay. *)
Theorem C89_last_call :
  forall query argsort l dt xs y,
    settled l dt -> let lk := after query argsort l xs in
    let again := set_periodic query argsort lk y in
    let once := set_periodic query argsort l y in
    snd again = snd once /\ lt_data (fst again) = lt_data (fst once) /\ same_rest l (fst again) /\
    ((lt_axes (fst again) = asked (b_dim (lt_basis l)) y /\ lt_axes (fst once) = asked (b_dim (lt_basis l)) y) \/
     (asks y /\ lt_axes (fst again) = lt_axes lk /\ lt_axes (fst once) = lt_axes l /\
      (snd again = Ok tt -> exists d', lt_data (fst again) = Some d' /\ forall i, i < nsites d' -> get_neighbors d' i None (Some true) false = Some []))).
Proof.
  intros query argsort l dt xs y S lk again once. destruct (removed_plain dt (se_wf _ _ S) (se_layered _ _ S) (se_padded _ _ S)) as [R0 PL].
  assert (exists d, lt_data l = Some d /\ call_remove_periodic d = Some (remove_periodic dt)) as D by (exists dt; split; [apply S|auto]).
  destruct (after_base query argsort xs l _ PL (se_basis _ _ S) (se_dim _ _ S) (se_built _ _ S) D) as [Rest Dk]. fold lk in Rest, Dk. clearbody lk.
  destruct Rest as [R1 [R2 [R3 R4]]]. assert (lt_basis lk = lt_basis l) as Eb by (unfold lt_basis; rewrite R1; auto).
  destruct (set_periodic_from query argsort lk l (remove_periodic dt) y) as (E1 & E2 & E3 & E4 & E5 & E6 & E7); auto.
  - rewrite Eb. apply S.
  - rewrite Eb. apply (se_dim _ _ S).
  - unfold same_rest. auto.
  - rewrite R2. apply S.
  - split; auto. split; auto. split.
    + destruct E3 as [Q1 [Q2 [Q3 Q4]]]. unfold same_rest, again. rewrite Q1, Q2, Q3, Q4. auto.
    + rewrite Eb in E6. destruct E6 as [E6|[A1 [A2 [A3 A4]]]]; [left; auto|right]. split; auto. split; auto. split; auto.
      intro Hok. exists (remove_periodic dt). split; auto. intros i Hi. apply (C46_remove_periodic dt i (se_wf _ _ S) Hi).
Qed.

(** [set_periodic(None)] and [set_periodic(False)] undo all calls: the regular neighbours are as before, there are no
    periodic ones and no periodic axes. *)
Theorem C89_reset :
  forall query argsort l dt xs y,
    settled l dt -> let lk := after query argsort l xs in
    y = AxNone \/ y = AxBool false ->
    exists l0 d0, set_periodic query argsort lk y = (l0, Ok tt) /\ same_rest l l0 /\ lt_axes l0 = [] /\ lt_data l0 = Some d0 /\
      d_indices d0 = d_indices dt /\ d_positions d0 = d_positions dt /\
      (forall i, i < nsites dt -> links d0 i = regular_links dt i /\ get_neighbors d0 i None (Some true) false = Some []) /\
      (* without periodic neighbours at the start, the tables are as at the start *)
      ((forall i c, i < nsites dt -> c < d_cols dt -> pm dt i c = false) ->
       d_neighbors d0 = d_neighbors dt /\ d_distances d0 = d_distances dt /\ d_pmask d0 = d_pmask dt).
Proof.
  intros query argsort l dt xs y S lk Hy. destruct (removed_plain dt (se_wf _ _ S) (se_layered _ _ S) (se_padded _ _ S)) as [R0 PL].
  assert (exists d, lt_data l = Some d /\ call_remove_periodic d = Some (remove_periodic dt)) as D by (exists dt; split; [apply S|auto]).
  destruct (after_base query argsort xs l _ PL (se_basis _ _ S) (se_dim _ _ S) (se_built _ _ S) D) as [Rest Dk]. fold lk in Rest, Dk. clearbody lk.
  destruct Rest as [R1 [R2 [R3 R4]]]. assert (lt_basis lk = lt_basis l) as Eb by (unfold lt_basis; rewrite R1; auto).
  destruct (set_periodic_from query argsort lk lk (remove_periodic dt) y) as (_ & _ & E3 & _ & _ & _ & E7); auto.
  - rewrite Eb. apply S.
  - rewrite Eb. apply (se_dim _ _ S).
  - apply same_rest_refl.
  - rewrite R2. apply S.
  - destruct E7 as [E7 [E8 E9]]; [destruct Hy; subst y; cbn; auto|]. destruct (set_periodic query argsort lk y) as [l0 r]. cbn [fst snd] in *. subst r.
    exists l0, (remove_periodic dt). split; auto. split.
    { destruct E3 as [Q1 [Q2 [Q3 Q4]]]. unfold same_rest. rewrite Q1, Q2, Q3, Q4. auto. }
    split; auto. split; auto. split; auto. split; auto. split.
    { intros i Hi. destruct (C46_remove_periodic dt i (se_wf _ _ S) Hi) as [_ H]. exact H. }
    intro Hpm. pose proof (se_wf _ _ S) as W. destruct (remove_periodic_spec dt W) as [W0 H0].
    split; [|split].
    + apply (rect_ext 0 (nsites dt) (d_cols dt)); [apply W0|apply W|]. intros i c Hi Hc. destruct (H0 i c Hi Hc) as [H _]. rewrite Hpm in H by auto. exact H.
    + apply (rect_ext 0 (nsites dt) (d_cols dt)); [apply W0|apply W|]. intros i c Hi Hc. destruct (H0 i c Hi Hc) as [_ [H _]]. rewrite Hpm in H by auto. exact H.
    + apply (rect_ext false (nsites dt) (d_cols dt)); [apply W0|apply W|]. intros i c Hi Hc. destruct (H0 i c Hi Hc) as [_ [_ [_ [H _]]]].
      transitivity (pm dt i c); auto. rewrite Hpm by auto. exact H.
Qed.

(** ** Examples *)

(** A strip of 5 x 2 sites. *)
Definition strip10 : lattice :=
  Eval vm_compute in fst (build brute dist_argsort [1; 1]%Q (new_lattice square_atom) (ASize [4; 1]%Q) false None true None None None).
Definition strip10_data : data := Eval vm_compute in match lt_data strip10 with Some d => d | None => chain5_data end.

Definition layered_check (d : data) : bool :=
  forallb (fun i => existsb (fun m => existsb (fun r => (r <=? m) &&
    forallb (fun c => Bool.eqb (valid d i c) (c <? m) && Bool.eqb (pm d i c) ((r <=? c) && (c <? m))) (seq 0 (d_cols d)))
    (seq 0 (S (d_cols d)))) (seq 0 (S (d_cols d)))) (seq 0 (nsites d)).

Lemma layered_checked d : layered_check d = true -> layered d.
Proof.
  intros H i Hi. unfold layered_check in H. rewrite forallb_forall in H. specialize (H i ltac:(apply in_seq; lia)).
  apply existsb_exists in H. destruct H as [m [Hm H]]. apply existsb_exists in H. destruct H as [r [Hr H]]. apply in_seq in Hm. apply andb_true_iff in H.
  destruct H as [H1 H2]. apply Nat.leb_le in H1. exists r, m. split; auto. split; [lia|]. intros c Hc. rewrite forallb_forall in H2.
  specialize (H2 c ltac:(apply in_seq; lia)). apply andb_true_iff in H2. destruct H2 as [A B]. apply eqb_prop in A. apply eqb_prop in B. auto.
Qed.

Lemma strip10_settled : settled strip10 strip10_data.
Proof.
  constructor; try (vm_compute; reflexivity); try discriminate.
  - apply wf_checked. vm_compute. reflexivity.
  - apply layered_checked. vm_compute. reflexivity.
  - apply padded_checked. vm_compute. reflexivity.
  - apply inverse2_check; reflexivity.
Qed.

Example C89_example :
  settled strip10 strip10_data /\
  exists l1 l0 d1 d0,
    set_periodic brute dist_argsort strip10 (AxList [0]) = (l1, Ok tt) /\ after brute dist_argsort strip10 [AxList [2]; AxList [0]] = l1 /\
    lt_axes l1 = [0] /\ lt_data l1 = Some d1 /\ get_neighbors d1 0 None (Some true) false = Some [8] /\
    set_periodic brute dist_argsort l1 AxNone = (l0, Ok tt) /\ lt_axes l0 = [] /\ lt_data l0 = Some d0 /\
    get_neighbors d0 0 None None false = get_neighbors strip10_data 0 None None false /\ d_neighbors d0 = d_neighbors strip10_data.
Proof.
  split; [exact strip10_settled|]. eexists _, _, _, _. split; [vm_compute; reflexivity|].
  repeat (split; [vm_compute; reflexivity|]). vm_compute. reflexivity.
Qed.

(** The periodic axes may be stale: after a second call that finds no periodic neighbours the first axis is still
    listed, though no neighbour is periodic, and the shortest distances still go around. *)
Theorem C89_stale_axes_refuted :
  exists l1 l2 d2, set_periodic brute dist_argsort strip10 (AxList [0]) = (l1, Ok tt) /\
    set_periodic brute dist_argsort l1 (AxList [1]) = (l2, Ok tt) /\
    lt_axes l2 = [0] /\ lt_data l2 = Some d2 /\ existsb (existsb (fun b => b)) (d_pmask d2) = false /\
    exists once a b, set_periodic brute dist_argsort strip10 (AxList [1]) = (once, Ok tt) /\ lt_axes once = [] /\
      minimum_distances2 once 0 = Some a /\ minimum_distances2 l2 0 = Some b /\
      (nth 8 a 0 == 16)%Q /\ (nth 8 b 0 == 1)%Q.
Proof.
  eexists _, _, _. split; [vm_compute; reflexivity|]. split; [vm_compute; reflexivity|]. split; [reflexivity|]. split; [reflexivity|]. split; [vm_compute; reflexivity|].
  eexists _, _, _. split; [vm_compute; reflexivity|]. split; [reflexivity|]. split; [vm_compute; reflexivity|]. split; [vm_compute; reflexivity|].
  split; vm_compute; reflexivity.
Qed.

(** A call that fails has removed the periodic neighbours, but not the periodic axes. *)
Theorem C89_failed_call_refuted :
  exists l1 l2 d2 e, set_periodic brute dist_argsort strip10 (AxList [0]) = (l1, Ok tt) /\
    set_periodic brute dist_argsort l1 (AxList [2]) = (l2, Raise e) /\
    lt_axes l2 = [0] /\ lt_data l2 = Some d2 /\ existsb (existsb (fun b => b)) (d_pmask d2) = false.
Proof.
  eexists _, _, _, _. split; [vm_compute; reflexivity|]. split; [vm_compute; reflexivity|]. split; [reflexivity|]. split; [reflexivity|]. vm_compute. reflexivity.
Qed.

Print Assumptions C89_last_call.
Print Assumptions C89_reset.
Print Assumptions C89_stale_axes_refuted.
Print Assumptions C89_failed_call_refuted.
