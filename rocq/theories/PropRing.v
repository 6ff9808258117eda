(** * Property C112 (lattpy/lattice.py: build; lattices with one atom and nearest neighbours, open and periodic) *)
From Coq Require Import String List ZArith QArith Qabs Bool Arith Lia Lqa Permutation Sorting.Sorted.
From Verif Require Import Np NpFacts LinAlg LinFacts SpecUtils UtilsModel UtilsProofs SpecBasis AtomModel BasisModel BasisProofs
  NeighborCellProofs PropBasis SpatialModel SpecSpatial SpatialProofs KDProofs SpecStructure SpecBuild ShapeModel ShapeProofs PropShape PropSpatial StructureModel KDBrute RoundFacts StructureFacts
  DataModel SpecData DataFacts DataProofs PropData AnalyzeProofs StructureProofs PropStructure PropAnalyze FilterProofs SpecNeighbors
  NeighborProofs RadiusProofs RangeProofs PropNeighbors BuiltProofs BuildProofs PropBuild LatticeModel LatticeExamples PropFailed SpecGrid GridProofs SpecJoin SpecLattice SpecBlock
  PropBuilt PropBlock PropReciprocal PresetModel PropPreset PropPrimitive PropGrid SpecShell ShellProofs PropShell PropForm PropFormBuilt HoneycombModel PropHoneycomb PropHoneyBuilt.
Import ListNotations.
Open Scope nat_scope.
Open Scope list_scope.

(** The vectors to the cells of [near] all round to [k] units of 1e-6; every other lattice vector is longer than 1.1 times this. *)
Definition nearest_ring (d : nat) (V : list (list Q)) (near : list (list Z)) (k : Z) : Prop :=
  near <> [] /\ NoDup near /\ (6 <= k)%Z /\
  (forall n, In n near -> length n = d /\ rounds_to_micro (cell_sq d V n) k) /\
  (forall n, length n = d -> n <> repeat 0%Z d -> ~ In n near -> ((11#10) * inject_Z k * ((11#10) * inject_Z k) < cell_sq d V n * 1000000000000)%Q).

(** The cell [n], brought back into the block along the periodic axes. *)
Definition wrapped_cell (d : nat) (axes : list nat) (o L n : list Z) : list Z :=
  map (fun k => if existsb (Nat.eqb k) axes then (nth k o 0 + (nth k n 0 - nth k o 0) mod nth k L 0)%Z else nth k n 0%Z) (seq 0 d).

Lemma wrapped_cell_nth d axes o L n c : c < d -> nth c (wrapped_cell d axes o L n) 0%Z =
  if existsb (Nat.eqb c) axes then (nth c o 0 + (nth c n 0 - nth c o 0) mod nth c L 0)%Z else nth c n 0%Z.
Proof.
  intro H. unfold wrapped_cell. set (f := fun k => _). rewrite (nth_indep _ 0%Z (f 0)) by (rewrite map_length, seq_length; auto).
  rewrite map_nth, seq_nth by auto. reflexivity.
Qed.

Lemma nth_zadd (n m : list Z) c : length n = length m -> nth c (map2 Z.add n m) 0%Z = (nth c m 0 + nth c n 0)%Z.
Proof. revert m c. induction n as [|x n IH]; intros [|y m] c H; try discriminate H; destruct c as [|c]; cbn; auto; lia. Qed.

Section Ring.
  Variables (d : nat) (V : list (list Q)) (near : list (list Z)) (k : Z) (r0 : list Q).
  Hypothesis Hring : nearest_ring d V near k.
  Hypothesis Hr0 : length r0 = d.
  Let D n := sqdist r0 (lattice_point d V r0 n).

  Lemma ring_own n : (D n == cell_sq d V n)%Q.
  Proof. apply own_distance. auto. Qed.

  Lemma ring_cases n : length n = d ->
    n = repeat 0%Z d /\ (D n == 0)%Q \/ In n near /\ rounds_to_micro (D n) k /\ n <> repeat 0%Z d \/
    ~ In n near /\ n <> repeat 0%Z d /\ ((11#10) * inject_Z k * ((11#10) * inject_Z k) < D n * 1000000000000)%Q.
  Proof.
    intro Hn. destruct Hring as (_ & _ & Hk & Hin & Hout).
    destruct (list_eq_dec Z.eq_dec n (repeat 0%Z d)) as [->|Hz]; [left; split; auto; rewrite ring_own; apply cell_sq_zero|right].
    destruct (in_dec (list_eq_dec Z.eq_dec) n near) as [Hi|Hi]; [left|right].
    - split; auto. split; auto. eapply rounds_ext; [symmetry; apply ring_own|]. apply Hin. auto.
    - split; auto. split; auto. rewrite ring_own. auto.
  Qed.

  Lemma beyond n w : ((11#10) * inject_Z k * ((11#10) * inject_Z k) < D n * 1000000000000)%Q -> rounds_to_micro (D n) w -> (k < w)%Z.
  Proof.
    intros H [H0 [H1 _]]. cbv zeta in H1. destruct Hring as (_ & _ & Hk & _). apply Znot_ge_lt. intro G.
    assert (inject_Z w <= inject_Z k)%Q as G' by (rewrite <- Zle_Qle; lia). assert (0 <= inject_Z w)%Q as W0 by (change 0%Q with (inject_Z 0); rewrite <- Zle_Qle; auto).
    assert (6 <= inject_Z k)%Q as K by (change 6%Q with (inject_Z 6); rewrite <- Zle_Qle; auto).
    set (x := inject_Z k) in *. set (y := inject_Z w) in *. change (1000000000000 # 1)%Q with 1000000000000%Q in H1. nra.
  Qed.

  Lemma ring_radius r n : (r == (inject_Z k + (1#10) * inject_Z k) * (1#1000000))%Q -> (D n <= r * r)%Q -> length n = d ->
    n = repeat 0%Z d \/ In n near.
  Proof.
    intros E Hle Hn. rewrite E in Hle. destruct (ring_cases n Hn) as [[C _]|[[C _]|[_ [_ C]]]]; auto. exfalso. lra.
  Qed.

  (** The neighbours in the infinite lattice. *)
  Lemma ring_first n w : (away d V [r0] 0 0 n w /\ exists i, i < 1 /\ ranked (distance_between d V [r0] 0 0) i w) <-> w = k /\ In n near.
  Proof.
    assert (forall n w, away d V [r0] 0 0 n w -> w = 0%Z \/ w = k /\ In n near \/ (k < w)%Z) as Hcase.
    { intros m y [Hm Hy]. cbn [nth] in Hy. fold (D m) in Hy. destruct (ring_cases m Hm) as [[_ C]|[[C [C' _]]|[_ [_ C]]]].
      - left. eapply rounds_zero; eauto.
      - right. left. split; auto. eapply rounds_unique; [exact Hy|exact C'|reflexivity].
      - right. right. eapply beyond; eauto. }
    assert (forall n, In n near -> away d V [r0] 0 0 n k) as Hin.
    { intros m Hm. destruct Hring as (_ & _ & _ & Hin & _). destruct (Hin m Hm) as [Hl Hr]. split; auto. cbn [nth]. eapply rounds_ext; [symmetry; apply ring_own|exact Hr]. }
    destruct Hring as (Hne & _ & Hk & _). assert (exists m, In m near) as [n0 Hn0] by (destruct near as [|m]; [contradiction|exists m; left; auto]).
    split.
    - intros [Haw [i [Hi [[Hnz _] [L [_ [HL HLi]]]]]]]. assert (i = 0) as -> by lia. destruct L; [|discriminate].
      destruct (Hcase n w Haw) as [C|[C|C]]; [contradiction|auto|]. exfalso. apply (proj2 (HL k)). split; auto. split; [lia|]. exists n0. auto.
    - intros [-> Hn]. split; auto. exists 0. split; auto. split; [split; [lia|exists n; auto]|]. exists []. split; [constructor|]. split; auto. intro y. split; [intros []|].
      intros [[Hy [m Hm]] Hlt]. destruct (Hcase m y Hm) as [C|[[-> _]|C]]; [contradiction| |]; lia.
  Qed.
End Ring.

(** What the analysis yields: the only distance, the search radius and the number of points asked for. *)
Lemma ring_analysed query b r0 near k s s' :
  correct_tree query -> valid_basis b -> 1 <= b_dim b -> in_step s -> st_basis s = b -> st_positions s = [r0] -> length r0 = b_dim b ->
  st_connections s = Some [[1]] -> analyze query s = (s', Ok tt) ->
  nearest_ring (b_dim b) (b_mat b) near k -> (forall n, In n near -> in_reach (b_dim b) (b_mat b) 1 n) ->
  exists an r cells, st_analysis s' = Some an /\ query_radius an = Some r /\ (r == (inject_Z k + (1#10) * inject_Z k) * (1#1000000))%Q /\
    get_neighbor_cells b (2 * 1) true Qle_bool = Some cells /\
    (forall z, among_first 1 (occurs (b_dim b) (b_mat b) [r0] cells 0 0) z <-> z = Fin k) /\
    (forall w, occurs (b_dim b) (b_mat b) [r0] cells 0 0 (Fin w) -> (k <= w)%Z) /\ S (length near) <= query_count an.
Proof.
  intros Hq Hb Hd Hst Eb ER Hr0 Ec Han Hring Hreach. set (d := b_dim b) in *. set (V := b_mat b) in *.
  pose proof Hring as (Hne & HN & Hk & Hin & _). assert (exists m, In m near) as [n0 Hn0] by (destruct near as [|m]; [contradiction|exists m; left; auto]).
  assert (exists an, st_analysis s' = Some an) as [an Ean].
  { destruct (analysed_table query s s') as [conns' [cells [_ [_ [_ [_ [_ [_ [_ Es]]]]]]]]]; auto; [rewrite Eb; auto|rewrite Eb; auto|]. rewrite Es. cbn. eauto. }
  destruct (C70_search_range query s s' _ an Hq ltac:(rewrite Eb; auto) ltac:(rewrite Eb; auto) Hst Ec Han Ean) as [m [cells [Hm1 [Hm2 [Ecells [Hrad [Hdef [found [Hf1 [Hf2 Hf3]]]]]]]]]].
  rewrite Eb, ER in Hrad, Hdef, Hf3. rewrite Eb in Ecells. fold d V in Hrad, Hdef, Hf3.
  assert (m = 1) as ->.
  { destruct Hm2 as [x [y E]]. pose proof (Hm1 0 0) as X. cbn in X. destruct x as [|[|x]], y as [|[|y]]; cbn in E; lia. }
  assert (forall n, In n cells <-> in_reach d V 1 n) as Hcells by (intro n; apply (reach_cells b 1 cells Hb Hd Ecells)).
  assert (forall n, In n cells -> length n = d) as Hcl by (intros n H; apply Hcells in H; apply H).
  assert (forall z, among_first 1 (occurs d V [r0] cells 0 0) z <-> z = Fin k) as Hfirst.
  { intro z. pose proof (first_distances query b [r0] 1 Hq Hb Hd ltac:(intros r' [<-|[]]; auto) cells Ecells 0 0 1 ltac:(cbn; lia) ltac:(cbn; lia)) as G.
    fold d V in G. specialize (G ltac:(intros n w i E1 E2 E3; apply Hcells, Hreach; apply (proj1 (ring_first d V near k r0 Hring Hr0 n w)); eauto)).
    split.
    - intro H. assert (exists w, z = Fin w) as [w ->].
      { destruct H as [L [_ [HL [i [_ Ei]]]]]. apply nth_error_In, HL in Ei. destruct Ei as [_ [n [_ [w [-> _]]]]]. eauto. }
      apply G in H. destruct H as [i [Hi Hr]]. pose proof Hr as [[_ [n Hn]] _]. f_equal. apply (proj1 (ring_first d V near k r0 Hring Hr0 n w)). eauto.
    - intros ->. apply G. apply (proj2 (ring_first d V near k r0 Hring Hr0 n0 k)). auto. }
  assert (forall w, occurs d V [r0] cells 0 0 (Fin w) -> (k <= w)%Z) as Hleast.
  { intros w [Hnz [n [Hn [w' [E Hw]]]]]. injection E as <-. cbn [nth] in Hw. destruct (ring_cases d V near k r0 Hring Hr0 n (Hcl n Hn)) as [[_ C]|[[_ [C _]]|[_ [_ C]]]].
    - exfalso. apply Hnz. f_equal. eapply rounds_zero; eauto.
    - assert (w = k) by (eapply rounds_unique; [exact Hw|exact C|reflexivity]). lia.
    - assert (k < w)%Z by (eapply (beyond d V near k r0); eauto). lia. }
  assert (forall n, In n near -> rounds_to_micro (sqdist r0 (lattice_point d V r0 n)) k) as Hnk.
  { intros n Hn. destruct (Hin n Hn) as [_ H]. eapply rounds_ext; [symmetry; apply ring_own; auto|exact H]. }
  assert (occurs d V [r0] cells 0 0 (Fin k)) as Hocc.
  { split; [intro E; injection E; lia|]. exists n0. split; [apply Hcells; auto|]. exists k. cbn [nth]. auto. }
  destruct (query_radius an) as [r|] eqn:Er.
  2:{ exfalso. apply Hdef; auto. intros x y Hx Hy. cbn [length] in Hx, Hy. assert (x = 0) as -> by lia. assert (y = 0) as -> by lia.
      exists [Fin k]. split; [repeat constructor; auto|]. split; auto. intros z [<-|[]]. auto. }
  exists an, r, cells. split; [exact Ean|]. split; [exact Er|]. split.
  { destruct (Hrad r eq_refl) as [mx [mn [E [Hmx [Hmx' [Hmn Hmn']]]]]].
    assert (mx = k) as ->.
    { assert (k <= mx)%Z as X by (apply (Hmx' 0 0); [cbn; lia|cbn; lia|apply Hfirst; auto]).
      destruct Hmx as [->|[x [y [Hx [Hy Hxy]]]]]; [lia|]. cbn [length] in Hx, Hy. assert (x = 0) as -> by lia. assert (y = 0) as -> by lia.
      apply Hfirst in Hxy. injection Hxy. auto. }
    assert (mn = k) as ->.
    { assert (mn <= k)%Z as X by (apply (Hmn' 0 0); [cbn; lia|cbn; lia|exact Hocc]).
      destruct Hmn as [x [y [Hx [Hy Hxy]]]]. cbn [length] in Hx, Hy. assert (x = 0) as -> by lia. assert (y = 0) as -> by lia. apply Hleast in Hxy; auto. lia. }
    exact E. }
  split; [exact Ecells|]. split; [exact Hfirst|]. split; [exact Hleast|].
  rewrite Hf2. apply le_n_S. rewrite <- (map_length (fun c => (0, 0, c)) near). apply NoDup_incl_length.
  - apply NoDup_map_in; auto. congruence.
  - intros u Hu. apply in_map_iff in Hu. destruct Hu as [c [<- Hc]]. apply Hf3. split; [cbn; lia|]. split; [cbn; lia|]. split; [apply Hcells; auto|].
    exists (Fin k). split; [exists k; split; auto; cbn [nth]; auto|]. apply Hfirst. reflexivity.
Qed.

(** The sites of a lattice with one atom: positions, distances, who is within the search radius. *)
Lemma ring_sites b norms r0 near k I P sh primitive pos check callback r :
  valid_basis b -> length r0 = b_dim b -> nearest_ring (b_dim b) (b_mat b) near k ->
  (r == (inject_Z k + (1#10) * inject_Z k) * (1#1000000))%Q ->
  (primitive = true -> length norms = b_dim b) -> build_indices b norms [r0] sh primitive pos check callback = Ok (I, P) ->
  length I = length P /\ NoDup I /\
  (forall i t, nth_error I i = Some t -> exists n p, t = n ++ [0%Z] /\ length n = b_dim b /\ nth_error P i = Some p /\ same p (lattice_point (b_dim b) (b_mat b) r0 n)) /\
  (forall i j n m p t, nth_error I i = Some (n ++ [0%Z]) -> nth_error I j = Some (m ++ [0%Z]) -> nth_error P i = Some p -> nth_error P j = Some t ->
     length (map2 Z.sub m n) = b_dim b /\ (sqdist p t == sqdist r0 (lattice_point (b_dim b) (b_mat b) r0 (map2 Z.sub m n)))%Q) /\
  (forall i n p j, nth_error I i = Some (n ++ [0%Z]) -> nth_error P i = Some p -> within P p (r * r)%Q j ->
     j = i \/ exists c, In c near /\ nth_error I j = Some (map2 Z.add c n ++ [0%Z])).
Proof.
  intros Hb Hr0 Hring Er Hnorms EI. set (d := b_dim b) in *. set (V := b_mat b) in *.
  assert (forall r, In r [r0] -> length r = d) as HRl by (intros r' [<-|[]]; auto).
  destruct (C31_indices_and_positions_aligned _ _ _ _ _ _ _ _ _ _ Hb Hnorms HRl EI) as [Hlen [Hal _]]. fold d V in Hal.
  pose proof (C33_no_site_twice _ _ _ _ _ _ _ _ _ _ Hb Hnorms HRl EI) as HNI.
  split; auto. split; auto.
  assert (forall i t, nth_error I i = Some t -> exists n p, t = n ++ [0%Z] /\ length n = d /\ nth_error P i = Some p /\ same p (lattice_point d V r0 n)) as Hsite.
  { intros i t Ht. destruct (nth_error_lt P i) as [p Hp]; [rewrite <- Hlen; eapply nth_error_length_lt; eauto|].
    destruct (Hal i t p Ht Hp) as [n [x [r' [-> [Hn [Hr' Hsame]]]]]]. destruct x as [|x]; [|destruct x; discriminate Hr']. injection Hr' as <-. exists n, p. auto. }
  split; auto.
  assert (forall i j n m p t, nth_error I i = Some (n ++ [0%Z]) -> nth_error I j = Some (m ++ [0%Z]) -> nth_error P i = Some p -> nth_error P j = Some t ->
     length n = d /\ length m = d /\ length (map2 Z.sub m n) = d /\ (sqdist p t == sqdist r0 (lattice_point d V r0 (map2 Z.sub m n)))%Q) as Hsq.
  { intros i j n m p t Hi Hj Hp Ht. destruct (Hsite i _ Hi) as (n' & p' & E1 & Hn & E2 & S1). destruct (Hsite j _ Hj) as (m' & t' & E3 & Hm & E4 & S2).
    apply app_inj_tail in E1. destruct E1 as [<- _]. apply app_inj_tail in E3. destruct E3 as [<- _].
    assert (p' = p) as -> by (assert (Some p' = Some p) as X by (etransitivity; [symmetry; exact E2|exact Hp]); injection X; auto).
    assert (t' = t) as -> by (assert (Some t' = Some t) as X by (etransitivity; [symmetry; exact E4|exact Ht]); injection X; auto).
    split; auto. split; auto. split; [rewrite map2_length; lia|].
    rewrite (sqdist_veq p t _ _ (proj1 (same_veq _ _) S1) (proj1 (same_veq _ _) S2)). apply two_points; auto. }
  split; [intros i j n m p t Hi Hj Hp Ht; apply (Hsq i j n m p t Hi Hj Hp Ht)|].
  intros i n p j Hi Hp [t [Ht Hle]]. destruct (nth_error_lt I j) as [u Hu]; [rewrite Hlen; eapply nth_error_length_lt; eauto|].
  destruct (Hsite j u Hu) as (m & _ & -> & _). destruct (Hsq i j n m p t Hi Hu Hp Ht) as (Hn & Hm & Hl & E). rewrite E in Hle.
  destruct (ring_radius d V near k r0 Hring Hr0 r _ Er Hle Hl) as [C|C].
  - left. assert (m = n) as ->.
    { rewrite (sub_add n m ltac:(lia)), C. clear - Hn. subst d. revert Hn. generalize (b_dim b) as d. intros d <-. induction n as [|x n IH]; cbn; auto. f_equal; auto. }
    rewrite NoDup_nth_error in HNI. apply HNI; [eapply nth_error_length_lt; eauto|congruence].
  - right. exists (map2 Z.sub m n). split; auto. rewrite <- sub_add by lia. auto.
Qed.

(** Every site is linked, at the distance [k], exactly to the sites in the cells [near] around it that were selected. *)
Theorem C112_built :
  forall query argsort norms b r0 near k s s' l sh primitive pos check callback I P,
    correct_tree query -> is_argsort dleb argsort -> valid_basis b -> 1 <= b_dim b -> in_step s -> st_basis s = b ->
    st_positions s = [r0] -> st_connections s = Some [[1]] -> analyze query s = (s', Ok tt) -> lt_structure l = s' ->
    nearest_ring (b_dim b) (b_mat b) near k -> (forall n, In n near -> in_reach (b_dim b) (b_mat b) 1 n) ->
    (primitive = true -> length norms = b_dim b) -> fitting (b_dim b) sh primitive pos ->
    build_indices b norms [r0] (AShape (build_shape b sh primitive pos)) primitive pos check callback = Ok (I, P) ->
    I <> [] ->
    exists l' dt, build query argsort norms l sh primitive pos check None None callback = (l', Ok tt) /\
      lt_structure l' = s' /\ lt_data l' = Some dt /\ wf dt /\ d_indices dt = I /\ d_positions dt = P /\
      forall i N, nth_error I i = Some (N ++ [0%Z]) -> NoDup (map fst (links dt i)) /\ length (links dt i) <= length near /\
        forall j y, In (j, y) (links dt i) <-> y = Fin k /\ exists n, In n near /\ nth_error I j = Some (map2 Z.add n N ++ [0%Z]).
Proof.
  intros query argsort norms b r0 near k s s' l sh primitive pos check callback I P Hq Harg Hb Hd Hst Eb ER Ec Han El Hring Hreach Hnorms Hfit EI HI.
  assert (length r0 = b_dim b) as Hr0.
  { destruct Hst as [_ [H _]]. rewrite ER, Eb in H. apply H. left. auto. }
  destruct (ring_analysed query b r0 near k s s' Hq Hb Hd Hst Eb ER Hr0 Ec Han Hring Hreach) as (an & r & cells & Ean & Er & Hr & Ecells & Hfirst & Hleast & Hcount).
  destruct (ring_sites b norms r0 near k I P _ primitive pos check callback r Hb Hr0 Hring Hr Hnorms EI) as (Hlen & HNI & Hsite & Hsq & Hnear).
  pose proof Hring as (Hne & HN & Hk & Hin & _).
  set (d := b_dim b) in *. set (V := b_mat b) in *.
  assert (forall p, In p P -> at_most (query_count an) (within P p (r * r)%Q)) as Hroom.
  { intros p Hp L HL1 HL2. apply In_nth_error in Hp. destruct Hp as [i Hp].
    destruct (nth_error_lt I i) as [u Hu]; [rewrite Hlen; eapply nth_error_length_lt; eauto|]. destruct (Hsite i u Hu) as (n & _ & -> & Hn & _).
    apply Nat.le_trans with (S (length near)); [|exact Hcount]. set (t := fun j => nth j I []).
    replace (S (length near)) with (length ((n ++ [0%Z]) :: map (fun c => map2 Z.add c n ++ [0%Z]) near)) by (cbn; rewrite map_length; auto).
    rewrite <- (map_length t L). apply NoDup_incl_length.
    + apply NoDup_map_in; auto. intros j j' Hj Hj' E. destruct (HL2 j Hj) as [p1 [Q1 _]], (HL2 j' Hj') as [p2 [Q2 _]].
      rewrite NoDup_nth in HNI. apply (HNI j j'); [rewrite Hlen; eapply nth_error_length_lt; eauto|rewrite Hlen; eapply nth_error_length_lt; eauto|exact E].
    + intros u Hu'. apply in_map_iff in Hu'. destruct Hu' as [j [<- Hj]]. destruct (Hnear i n p j Hu Hp (HL2 j Hj)) as [->|[c [Hc Ej]]].
      * left. symmetry. unfold t. apply nth_of_nth_error. auto.
      * right. apply in_map_iff. exists c. split; auto. symmetry. unfold t. apply nth_of_nth_error. auto. }
  set (allowed := fun x y => among_first (nth y (nth x [[1]] []) 0) (occurs d V [r0] cells x y)).
  assert (forall i t, nth_error I i = Some t -> atom_of I i = 0) as Hat.
  { intros i t Ei. destruct (Hsite i t Ei) as (n & _ & -> & _). unfold atom_of. rewrite (nth_of_nth_error _ _ _ _ Ei), last_last. reflexivity. }
  assert (forall i n j y, nth_error I i = Some (n ++ [0%Z]) -> connected_sites allowed I P i j y <->
            y = Fin k /\ exists c, In c near /\ nth_error I j = Some (map2 Z.add c n ++ [0%Z])) as Hconn.
  { intros i n j y Hi. destruct (Hsite i _ Hi) as (n' & p & E & Hn & Hp & _). apply app_inj_tail in E. destruct E as [<- _]. split.
    - intros [Hij [[p' [t [z [Hp' [Ht [-> Hz]]]]]] Hal']]. assert (p' = p) as -> by (assert (Some p' = Some p) as X by (etransitivity; [symmetry; exact Hp'|exact Hp]); injection X; auto).
      destruct (nth_error_lt I j) as [u Hu]; [rewrite Hlen; eapply nth_error_length_lt; eauto|]. destruct (Hsite j u Hu) as (m & _ & -> & Hm & _).
      destruct (Hsq i j n m p t Hi Hu Hp Ht) as [Hl Hd2]. rewrite (Hat _ _ Hi), (Hat _ _ Hu) in Hal'. apply Hfirst in Hal'. injection Hal' as ->. split; auto.
      exists (map2 Z.sub m n). rewrite <- sub_add by lia. split; auto. pose proof (rounds_ext _ _ _ Hd2 Hz) as Hz'.
      destruct (ring_cases d V near k r0 Hring Hr0 (map2 Z.sub m n) Hl) as [[_ C]|[[C _]|[_ [_ C]]]]; auto; exfalso.
      + apply (rounds_zero _ _ C) in Hz'. lia.
      + assert (k < k)%Z by (eapply (beyond d V near k r0); eauto). lia.
    - intros [-> [c [Hc Hj]]]. destruct (Hsite j _ Hj) as (m & t & E & Hm & Ht & _). destruct (Hsq i j n _ p t Hi Hj Hp Ht) as [Hl Hd2].
      destruct (Hin c Hc) as [Hcl Hck]. rewrite add_sub in Hd2 by lia. split; [|split].
      + intros <-. rewrite Hi in Hj. injection Hj as Hj. apply app_inj_tail in Hj. destruct Hj as [Hj _].
        assert (c = repeat 0%Z d) as Ec0.
        { rewrite <- (add_sub c n) by lia. rewrite <- Hj. clear - Hn. revert Hn. generalize d. intros e <-. induction n as [|x n IH]; cbn; auto. f_equal; [lia|auto]. }
        rewrite Ec0 in Hck. apply (rounds_zero _ _ (cell_sq_zero d V)) in Hck. lia.
      + exists p, t, k. split; auto. split; auto. split; auto. eapply rounds_ext; [symmetry; exact Hd2|]. eapply rounds_ext; [symmetry; apply ring_own; auto|exact Hck].
      + rewrite (Hat _ _ Hi), (Hat _ _ Hj). apply Hfirst. reflexivity. }
  assert (incongruent d V [r0]) as Hinc by (intros x y n Hx Hy _ _; cbn in Hx, Hy; lia).
  pose proof (C71_build_connects_the_sites query argsort norms s s' _ an l sh primitive pos check callback I P r Hq Harg ltac:(rewrite Eb; auto) ltac:(rewrite Eb; auto) Hst Ec Han Ean El) as T.
  cbv zeta in T. rewrite ER, Eb in T. fold d V in T. destruct (T Hnorms Hfit Hinc EI HI Er Hroom) as [m [cells' [Hm1' [Hm2' [Ecells' C]]]]]. clear T.
  assert (m = 1) as ->.
  { destruct Hm2' as [x [y E]]. pose proof (Hm1' 0 0) as X. cbn in X. destruct x as [|[|x]], y as [|[|y]]; cbn in E; lia. }
  rewrite Ecells in Ecells'. injection Ecells' as <-. fold allowed in C.
  destruct C as (l' & dt & C1 & C2 & _ & _ & C3 & C4 & _ & _ & _ & C5 & C6 & _ & C7).
  - intros x y z Hx Hy H. cbn [length] in Hx, Hy. assert (x = 0) as -> by lia. assert (y = 0) as -> by lia.
    pose proof H as [_ [_ [_ [w [-> _]]]]]. apply Z.leb_le. apply Hleast in H. lia.
  - exists [Fin k]. split; [cbn; lia|]. intros x y z Hx Hy H. cbn [length] in Hx, Hy. assert (x = 0) as -> by lia. assert (y = 0) as -> by lia.
    apply Hfirst in H. left. auto.
  - right. intros i j p Hij Hp Hw. destruct (nth_error_lt I i) as [u Hu]; [rewrite Hlen; eapply nth_error_length_lt; eauto|]. destruct (Hsite i u Hu) as (n & _ & -> & _).
    destruct (Hnear i n p j Hu Hp Hw) as [->|H]; [contradiction|]. exists (Fin k). apply (Hconn i n); auto.
  - exists l', dt. repeat (split; [auto; fail|]). intros i n Hi. destruct (C7 i) as [D1 D2]; [rewrite <- Hlen; eapply nth_error_length_lt; eauto|].
    assert (forall j y, In (j, y) (links dt i) <-> y = Fin k /\ exists c, In c near /\ nth_error I j = Some (map2 Z.add c n ++ [0%Z])) as D3 by (intros j y; rewrite D2; apply Hconn; auto).
    split; auto. split; auto.
    rewrite <- (map_length (fun c => map2 Z.add c n ++ [0%Z]) near), <- (map_length fst), <- (map_length (fun j => nth j I [])). apply NoDup_incl_length.
    + apply NoDup_map_in; auto. intros j j' Hj Hj' E. apply in_map_iff in Hj, Hj'. destruct Hj as [[j1 y1] [<- Hj]], Hj' as [[j2 y2] [<- Hj']].
      apply D3 in Hj, Hj'. destruct Hj as [_ [c [_ Hj]]], Hj' as [_ [c' [_ Hj']]].
      rewrite NoDup_nth in HNI. apply (HNI (fst (j1, y1)) (fst (j2, y2))); [eapply nth_error_length_lt; eauto|eapply nth_error_length_lt; eauto|exact E].
    + intros t Ht. apply in_map_iff in Ht. destruct Ht as [j [<- Hj]]. apply in_map_iff in Hj. destruct Hj as [[j' y] [<- Hj]]. apply D3 in Hj.
      destruct Hj as [_ [c [Hc Hj]]]. apply in_map_iff. exists c. split; auto. symmetry. apply nth_of_nth_error. auto.
Qed.

(** A block of cells, periodic along the given axes: the sites in the cells [near], counted modulo the block along these axes. *)
Theorem C112_torus :
  forall query argsort norms b r0 near k s s' l sh primitive pos check callback I P o L axes,
    correct_tree query -> is_argsort dleb argsort -> valid_basis b -> 1 <= b_dim b -> in_step s -> st_basis s = b ->
    st_positions s = [r0] -> st_connections s = Some [[1]] -> analyze query s = (s', Ok tt) -> lt_structure l = s' ->
    nearest_ring (b_dim b) (b_mat b) near k -> (forall n, In n near -> in_reach (b_dim b) (b_mat b) 1 n) ->
    (primitive = true -> length norms = b_dim b) -> fitting (b_dim b) sh primitive pos -> (primitive = true \/ axis_aligned (b_dim b) (b_mat b)) ->
    build_indices b norms [r0] (AShape (build_shape b sh primitive pos)) primitive pos check callback = Ok (I, P) ->
    (* a block of cells, and the periodic axes: no cell of [near] is half a block away *)
    (forall c, c < b_dim b -> (1 <= nth c L 0)%Z) ->
    (forall t, In t I <-> exists n, t = n ++ [0%Z] /\ length n = b_dim b /\ box (b_dim b) o L n) ->
    NoDup axes -> (forall c, In c axes -> c < b_dim b) ->
    (forall n, In n near -> short L axes n /\ (b_dim b <= 2 \/ along_two axes n)) ->
    exists l' dt, build query argsort norms l sh primitive pos check None (Some (AxList axes)) callback = (l', Ok tt) /\
      lt_structure l' = s' /\ lt_data l' = Some dt /\ wf dt /\ d_indices dt = I /\ d_positions dt = P /\
      forall i N, nth_error I i = Some (N ++ [0%Z]) ->
        NoDup (map s_nbr (slots dt i)) /\ (forall e, In e (slots dt i) -> s_dist e = Fin k) /\
        (forall j, In j (map s_nbr (slots dt i)) <->
           exists n, In n near /\ nth_error I j = Some (wrapped_cell (b_dim b) axes o L (map2 Z.add n N) ++ [0%Z])) /\
        ((forall c, c < b_dim b -> In c axes) -> length (slots dt i) = length near).
Proof.
  intros query argsort norms b r0 near k s s' l sh primitive pos check callback I P o L axes Hq Harg Hb Hd Hst Eb ER Ec Han El Hring Hreach Hnorms Hfit Hpa EI HL HI HNa Hax Hshort.
  assert (length r0 = b_dim b) as Hr0.
  { destruct Hst as [_ [H _]]. rewrite ER, Eb in H. apply H. left. auto. }
  destruct (ring_analysed query b r0 near k s s' Hq Hb Hd Hst Eb ER Hr0 Ec Han Hring Hreach) as (an & r & cells & Ean & Er & Hr & Ecells & Hfirst & Hleast & Hcount).
  destruct (ring_sites b norms r0 near k I P _ primitive pos check callback r Hb Hr0 Hring Hr Hnorms EI) as (Hlen & HNI & Hsite & Hsq & Hnear).
  pose proof Hring as (Hne & HN & Hk & Hin & _).
  set (d := b_dim b) in *. set (V := b_mat b) in *.
  set (allowed := fun x y => among_first (nth y (nth x [[1]] []) 0) (occurs d V [r0] cells x y)).
  assert (forall x y n z, bond d V [r0] allowed x y n z <-> x = 0 /\ y = 0 /\ In n near /\ z = Fin k) as Hbond.
  { intros x y n z. split.
    - intros (Hx & Hy & Hn & [w [-> Hw]] & Hal). cbn [length] in Hx, Hy. assert (x = 0) as -> by lia. assert (y = 0) as -> by lia. cbn [nth] in Hw.
      apply Hfirst in Hal. injection Hal as ->. split; auto. split; auto. split; auto.
      destruct (ring_cases d V near k r0 Hring Hr0 n Hn) as [[_ C]|[[C _]|[_ [_ C]]]]; auto; exfalso.
      + apply (rounds_zero _ _ C) in Hw. lia.
      + assert (k < k)%Z by (eapply (beyond d V near k r0); eauto). lia.
    - intros (-> & -> & Hn & ->). destruct (Hin n Hn) as [Hl Hw]. split; [cbn; lia|]. split; [cbn; lia|]. split; auto. split.
      + exists k. split; auto. cbn [nth]. eapply rounds_ext; [symmetry; apply ring_own; auto|exact Hw].
      + apply Hfirst. reflexivity. }
  assert (crowd d V [r0] (query_count an) r) as Hcrowd.
  { intros x B Hx HB HBin. cbn [length] in Hx. assert (x = 0) as -> by lia. apply Nat.le_trans with (S (length near)); [|exact Hcount].
    replace (S (length near)) with (length ((0, repeat 0%Z d) :: map (pair 0) near)) by (cbn; rewrite map_length; auto).
    apply NoDup_incl_length; auto. intros [y n] Hyn. destruct (HBin y n Hyn) as [Hy [Hn Hle]]. cbn [length] in Hy. assert (y = 0) as -> by lia. cbn [nth] in Hle.
    destruct (ring_radius d V near k r0 Hring Hr0 r n Hr Hle Hn) as [->|C]; [left; auto|right; apply in_map; auto]. }
  assert (incongruent d V [r0]) as Hinc by (intros x y n Hx Hy _ _; cbn in Hx, Hy; lia).
  assert (forall i t, nth_error I i = Some t -> atom_of I i = 0) as Hat.
  { intros i t Ei. destruct (Hsite i t Ei) as (n & _ & -> & _). unfold atom_of. rewrite (nth_of_nth_error _ _ _ _ Ei), last_last. reflexivity. }
  assert (forall i j p, i <> j -> nth_error P i = Some p -> within P p (r * r)%Q j -> exists x, connected_sites allowed I P i j x) as Hpad.
  { intros i j p Hij Hp Hw. destruct (nth_error_lt I i) as [u Hu]; [rewrite Hlen; eapply nth_error_length_lt; eauto|]. destruct (Hsite i u Hu) as (n & _ & -> & Hn & _).
    destruct (Hnear i n p j Hu Hp Hw) as [->|[c [Hc Hj]]]; [contradiction|]. destruct (Hsite j _ Hj) as (m & t & _ & _ & Ht & _).
    destruct (Hsq i j n _ p t Hu Hj Hp Ht) as [Hl Hd2]. destruct (Hin c Hc) as [Hcl Hck]. rewrite add_sub in Hd2 by lia. exists (Fin k). split; auto. split.
    - exists p, t, k. split; auto. split; auto. split; auto. eapply rounds_ext; [symmetry; exact Hd2|]. eapply rounds_ext; [symmetry; apply ring_own; auto|exact Hck].
    - rewrite (Hat _ _ Hu), (Hat _ _ Hj). apply Hfirst. reflexivity. }
  pose proof (C90_built_torus query argsort norms s s' [[1]] an r 1 cells l sh primitive pos check callback I P o L axes Hq Harg) as T.
  rewrite Eb, ER in T. fold d V in T. cbv zeta in T. fold allowed in T.
  destruct T as (l' & dt & T1 & T2 & T3 & T4 & T5 & _ & T6 & T7); auto.
  - intros x y. destruct x as [|[|x]], y as [|[|y]]; cbn; lia.
  - exists 0, 0. reflexivity.
  - intro t. rewrite HI. split.
    + intros (n & -> & Hn & Hbx). exists n, 0. cbn [length]. auto.
    + intros (n & x & -> & Hn & Hbx & Hx). cbn [length] in Hx. assert (x = 0) as -> by lia. exists n. auto.
  - exists [Fin k]. split; [cbn; lia|]. intros x y z Hx Hy H. cbn [length] in Hx, Hy. assert (x = 0) as -> by lia. assert (y = 0) as -> by lia. apply Hfirst in H. left. auto.
  - intros x y n z H. apply Hbond in H. destruct H as (_ & _ & Hn & _). auto.
  - intros x y z Hx Hy H. cbn [length] in Hx, Hy. assert (x = 0) as -> by lia. assert (y = 0) as -> by lia. pose proof H as [_ [_ [_ [w [-> _]]]]]. apply Z.leb_le. apply Hleast in H. lia.
  - exists l', dt. pose proof (tb_wf _ _ _ _ _ _ _ T6) as W. repeat (split; [auto; fail|]). intros i N Hi.
    assert (i < nsites dt) as Hi' by (unfold nsites; rewrite T4; eapply nth_error_length_lt; eauto).
    assert (In (N ++ [0%Z]) I) as HiI by (eapply nth_error_In; eauto). apply HI in HiI. destruct HiI as (N' & E & HNl & HNb). apply app_inj_tail in E. destruct E as [<- _].
    assert (nth i (d_indices dt) [] = N ++ [0%Z]) as Ei by (rewrite T4; apply nth_of_nth_error; auto).
    assert (forall c (n : list Z), length n = d -> c < d -> nth c (n ++ [0%Z]) 0%Z = nth c n 0%Z) as Happ by (intros; apply app_nth1; lia).
    split; [apply (tb_once _ _ _ _ _ _ _ T6); auto|]. split; [|split].
    + intros e He. destruct (tb_slot _ _ _ _ _ _ _ T6 i e Hi' He) as (m & [Hm _] & _). apply Hbond in Hm. apply Hm.
    + intro j. rewrite (tb_neighbors _ _ _ _ _ _ _ T6 i j Hi'). unfold nsites. rewrite Ei, T4. split.
      * intros [Hj (m & z & Hm & Hkk)]. rewrite last_last in Hm. destruct (nth_error_lt I j Hj) as [t Ht]. rewrite (nth_of_nth_error _ _ _ _ Ht) in Hm, Hkk.
        assert (In t I) as HtI by (eapply nth_error_In; eauto). apply HI in HtI. destruct HtI as (M & -> & HMl & HMb).
        rewrite last_last in Hm. apply Hbond in Hm. destruct Hm as (_ & _ & Hm & _). exists m. split; auto. rewrite Ht. f_equal. f_equal.
        destruct (Hin m Hm) as [Hml _]. apply (nth_ext _ _ 0%Z 0%Z); [unfold wrapped_cell; rewrite map_length, seq_length; auto|]. rewrite HMl. intros c Hc.
        rewrite wrapped_cell_nth, nth_zadd by lia. specialize (Hkk c Hc). rewrite !Happ in Hkk by auto. specialize (HMb c Hc). destruct (existsb (Nat.eqb c) axes) eqn:Ex.
        -- assert (exists w, nth c M 0 - (nth c N 0 + nth c m 0) = w * nth c L 0)%Z as [w Hw].
           { destruct Hkk as [->|[_ [w Hw]]]; [exists 0%Z; lia|exists w; exact Hw]. }
           replace (nth c N 0 + nth c m 0 - nth c o 0)%Z with ((nth c M 0 - nth c o 0) + (- w) * nth c L 0)%Z by lia.
           rewrite Z.mod_add by (specialize (HL c Hc); lia). rewrite Z.mod_small by lia. lia.
        -- destruct Hkk as [->|[Hin' _]]; auto. exfalso. assert (existsb (Nat.eqb c) axes = true); [|congruence]. apply existsb_exists. exists c. split; auto. apply Nat.eqb_refl.
      * intros (n & Hn & Hj). split; [eapply nth_error_length_lt; eauto|]. exists n, (Fin k). rewrite (nth_of_nth_error _ _ _ _ Hj). destruct (Hin n Hn) as [Hnl _]. split.
        -- rewrite !last_last. apply Hbond. auto.
        -- intros c Hc. rewrite !Happ; auto; [|unfold wrapped_cell; rewrite map_length, seq_length; auto]. rewrite wrapped_cell_nth, nth_zadd by lia.
           destruct (existsb (Nat.eqb c) axes) eqn:Ex; [right|left; reflexivity]. apply existsb_exists in Ex. destruct Ex as [c' [Hc' Ex]]. apply Nat.eqb_eq in Ex. subst c'. split; auto.
           set (u := (nth c N 0 + nth c n 0 - nth c o 0)%Z). exists (- (u / nth c L 0))%Z. pose proof (Z.div_mod u (nth c L 0%Z) ltac:(specialize (HL c Hc); lia)) as E. unfold u in *. lia.
    + intro Hall. rewrite (T7 Hall i (map (pair 0) near) Hi').
      * apply map_length.
      * apply NoDup_map_in; auto. congruence.
      * intros y n. rewrite (Hat _ _ Hi). split.
        -- intro H. apply in_map_iff in H. destruct H as [n' [E H]]. injection E as <- <-. exists (Fin k). apply Hbond. auto.
        -- intros [z H]. apply Hbond in H. destruct H as (_ & -> & H & _). apply in_map. auto.
Qed.

(** ** Ready-made lattices *)

(** What the two theorems say of a lattice with the structure [s]: built open with any sites, and built from a block of cells with the
    periodic axes [good]. *)
Definition coordinated query argsort (b : basis) (s : structure) (near : list (list Z)) (k : Z) (good : list nat -> list Z -> Prop) : Prop :=
  (forall norms l sh primitive pos check callback I P,
     lt_structure l = s -> (primitive = true -> length norms = b_dim b) -> fitting (b_dim b) sh primitive pos ->
     build_indices b norms [repeat 0%Q (b_dim b)] (AShape (build_shape b sh primitive pos)) primitive pos check callback = Ok (I, P) -> I <> [] ->
     exists l' dt, build query argsort norms l sh primitive pos check None None callback = (l', Ok tt) /\
       lt_structure l' = s /\ lt_data l' = Some dt /\ wf dt /\ d_indices dt = I /\ d_positions dt = P /\
       forall i N, nth_error I i = Some (N ++ [0%Z]) -> NoDup (map fst (links dt i)) /\ length (links dt i) <= length near /\
         forall j y, In (j, y) (links dt i) <-> y = Fin k /\ exists n, In n near /\ nth_error I j = Some (map2 Z.add n N ++ [0%Z])) /\
  (forall norms l sh pos check callback I P o L axes,
     lt_structure l = s -> length norms = b_dim b -> fitting (b_dim b) sh true pos ->
     build_indices b norms [repeat 0%Q (b_dim b)] (AShape (build_shape b sh true pos)) true pos check callback = Ok (I, P) ->
     (forall c, c < b_dim b -> (1 <= nth c L 0)%Z) ->
     (forall t, In t I <-> exists n, t = n ++ [0%Z] /\ length n = b_dim b /\ box (b_dim b) o L n) ->
     NoDup axes -> (forall c, In c axes -> c < b_dim b) -> good axes L ->
     exists l' dt, build query argsort norms l sh true pos check None (Some (AxList axes)) callback = (l', Ok tt) /\
       lt_structure l' = s /\ lt_data l' = Some dt /\ wf dt /\ d_indices dt = I /\ d_positions dt = P /\
       forall i N, nth_error I i = Some (N ++ [0%Z]) ->
         NoDup (map s_nbr (slots dt i)) /\ (forall e, In e (slots dt i) -> s_dist e = Fin k) /\
         (forall j, In j (map s_nbr (slots dt i)) <->
            exists n, In n near /\ nth_error I j = Some (wrapped_cell (b_dim b) axes o L (map2 Z.add n N) ++ [0%Z])) /\
         ((forall c, c < b_dim b -> In c axes) -> length (slots dt i) = length near)).

Lemma preset_coordinated query argsort b at1 near k (good : list nat -> list Z -> Prop) :
  correct_tree query -> is_argsort dleb argsort -> valid_basis b -> 1 <= b_dim b ->
  nearest_ring (b_dim b) (b_mat b) near k -> (forall n, In n near -> in_reach (b_dim b) (b_mat b) 1 n) ->
  (forall axes L n, (forall c, In c axes -> c < b_dim b) -> good axes L -> In n near -> short L axes n /\ (b_dim b <= 2 \/ along_two axes n)) ->
  exists s, preset query b [(None, at1)] 1 = Ok s /\ coordinated query argsort b s near k good.
Proof.
  intros Hq Harg Hb Hd Hring Hreach Hgood. destruct (preset_one query b at1 1 Hb Hd ltac:(lia)) as [s [s' [E [Han [Hs [Eb [Ep Ec]]]]]]].
  exists s'. split; auto. split.
  - intros. eapply (C112_built query argsort norms b (repeat 0%Q (b_dim b)) near k s s'); eauto.
  - intros. eapply (C112_torus query argsort norms b (repeat 0%Q (b_dim b)) near k s s'); eauto.
Qed.

(** A ring of vectors of the same length [q]; all others are longer by a factor sqrt(5/4). *)
Lemma equal_ring d V near q k : near <> [] -> NoDup near -> ((1#10000000000) < q)%Q -> rounds_to_micro q k ->
  (forall n, In n near <-> length n = d /\ (cell_sq d V n == q)%Q) ->
  (forall n, length n = d -> n <> repeat 0%Z d -> (cell_sq d V n == q \/ (5#4) * q <= cell_sq d V n)%Q) ->
  (50 <= k)%Z -> nearest_ring d V near k.
Proof.
  intros Hne HN Hq Hk Hin Hall K. assert (50 <= inject_Z k)%Q as K' by (change 50%Q with (inject_Z 50); rewrite <- Zle_Qle; auto).
  split; auto. split; auto. split; [lia|]. split.
  - intros n Hn. apply Hin in Hn. destruct Hn as [Hl E]. split; auto. eapply rounds_ext; [symmetry; exact E|exact Hk].
  - intros n Hn Hz Hnot. destruct (Hall n Hn Hz) as [E|E]; [exfalso; apply Hnot, Hin; auto|].
    destruct Hk as (_ & _ & Hlow & _). specialize (Hlow ltac:(lia)). cbv zeta in Hlow. change (1000000000000 # 1)%Q with 1000000000000%Q in Hlow.
    set (x := inject_Z k) in *. assert ((1225#1000) * (x * x) <= (5#4) * ((x - (1#2)) * (x - (1#2))))%Q by nra. nra.
Qed.

Lemma equal_reach d V near q n :
  (forall n, In n near <-> length n = d /\ (cell_sq d V n == q)%Q) ->
  (forall n, length n = d -> n <> repeat 0%Z d -> (cell_sq d V n == q \/ (5#4) * q <= cell_sq d V n)%Q) -> (0 < q)%Q ->
  (forall n k, In n near -> In k n -> (-3 <= k <= 3)%Z) -> In n near -> in_reach d V 1 n.
Proof.
  intros Hin Hall Hq Hbox H. pose proof (proj1 (Hin n) H) as [Hn En].
  apply few_in_reach; [split; auto; intros k Hk; cbn; eapply Hbox; eauto|]. intros l Hl Hsmall. destruct (lengths_exist d V) as [lengths Hlen]. exists lengths. split; auto.
  assert (length l <= length [0%Q]) as H1.
  { apply spread_le; auto. intros x Hx. destruct (Hsmall x Hx) as [n' [[Hn' _] [E Hlt]]]. exists 0%Q. split; [left; auto|].
    destruct (list_eq_dec Z.eq_dec n' (repeat 0%Z d)) as [->|Hz]; [rewrite <- E; symmetry; apply cell_sq_zero|].
    destruct (Hall n' Hn' Hz) as [E'|E']; exfalso; lra. }
  cbn in H1. lia.
Qed.

(** The rounded length of a vector that is not tiny. *)
Lemma rounds_large q k : ((1#100000000) <= q)%Q -> rounds_to_micro q k -> (50 <= k)%Z.
Proof.
  intros Hq (H0 & H & _). cbv zeta in H. apply Znot_gt_le. intro G.
  assert (inject_Z k <= 50)%Q as G' by (change 50%Q with (inject_Z 50); rewrite <- Zle_Qle; lia).
  assert (0 <= inject_Z k)%Q by (change 0%Q with (inject_Z 0); rewrite <- Zle_Qle; auto). change (1000000000000 # 1)%Q with 1000000000000%Q in H. nra.
Qed.

(** At least three cells along the periodic axes. *)
Definition three_wide (axes : list nat) (L : list Z) : Prop := forall c, In c axes -> (3 <= nth c L 0)%Z.

(** Six neighbours in the hexagonal lattice. *)
Theorem C112_hexagonal :
  forall query argsort inv sqrt3 a at1 k,
    correct_tree query -> is_argsort dleb argsort -> inverts inv 2 -> ((1#1000) < a)%Q -> ((299#100) <= sqrt3 * sqrt3 <= (301#100))%Q ->
    rounds_to_micro (a * a * ((9 + sqrt3 * sqrt3) * (1#4)))%Q k -> rounds_to_micro (a * a * (sqrt3 * sqrt3))%Q k ->
    exists s, simple_hexagonal query inv sqrt3 a at1 1 = Ok s /\
      coordinated query argsort (hexagonal inv sqrt3 a) s [[1; 0]; [-1; 0]; [0; 1]; [0; -1]; [1; -1]; [-1; 1]]%Z k three_wide.
Proof.
  intros query argsort inv q a at1 k Hq Harg I2 Ha Hs H1 H2. pose proof (aa_pos _ a Ha Hs) as A.
  change [[1; 0]; [-1; 0]; [0; 1]; [0; -1]; [1; -1]; [-1; 1]]%Z with (side_cells ++ across_cells).
  assert (50 <= k)%Z as K by (eapply rounds_large; [|exact H2]; nra).
  assert (50 <= inject_Z k)%Q as K' by (change 50%Q with (inject_Z 50); rewrite <- Zle_Qle; auto).
  apply preset_coordinated; auto.
  - apply hexagonal_valid; auto.
  - cbn; lia.
  - split; [discriminate|]. split; [repeat (constructor; [cbn; intuition discriminate|]); constructor|]. split; [lia|]. split.
    + intros n Hn. assert (length n = 2) as Hl by (cbn in Hn; intuition (subst; reflexivity)). split; auto.
      destruct (hex_lengths inv q a Ha Hs n Hl) as [[-> _]|[[_ E]|[[_ E]|[C [C' _]]]]].
      * exfalso. cbn in Hn. intuition discriminate.
      * eapply rounds_ext; [symmetry; exact E|exact H1].
      * eapply rounds_ext; [symmetry; exact E|exact H2].
      * exfalso. apply in_app_or in Hn. tauto.
    + intros n Hn Hz Hnot. destruct (hex_lengths inv q a Ha Hs n Hn) as [[-> _]|[[C _]|[[C _]|[_ [_ E]]]]]; [exfalso; apply Hz; reflexivity|exfalso; apply Hnot, in_or_app; auto|exfalso; apply Hnot, in_or_app; auto|].
      destruct H2 as (_ & _ & Hlow & _). specialize (Hlow ltac:(lia)). cbv zeta in Hlow. change (1000000000000 # 1)%Q with 1000000000000%Q in Hlow.
      set (x := inject_Z k) in *. assert (a * a * (q * q) <= (301#100) * (a * a))%Q by nra.
      assert ((49#50) * (x * x) <= ((x - (1#2)) * (x - (1#2))))%Q by nra.
      set (c := cell_sq _ _ _) in *. change (b_dim (hexagonal inv q a)) with 2 in *. set (X := (x * x)%Q) in *. assert ((11#10) * x * ((11#10) * x) == (121#100) * X)%Q as -> by (unfold X; ring). lra.
  - intros n Hn. apply hex_reach; auto. apply in_app_or in Hn. tauto.
  - intros axes L n Hax Hw Hn. split; [|left; cbn; lia]. intros c Hc. specialize (Hw c Hc).
    assert (-1 <= nth c n 0 <= 1)%Z by (cbn in Hn; destruct Hn as [<-|[<-|[<-|[<-|[<-|[<-|[]]]]]]]; destruct c as [|[|[|c]]]; cbn; lia). lia.
Qed.

(** Films: the second and the third axis are not both periodic. *)
Definition film (axes : list nat) (L : list Z) : Prop := three_wide axes L /\ ~ (In 1 axes /\ In 2 axes).

Lemma film_fits axes L n : (forall c, In c axes -> c < 3) -> film axes L -> (forall c, (-1 <= nth c n 0 <= 1)%Z) ->
  short L axes n /\ (3 <= 2 \/ along_two axes n).
Proof.
  intros Hax [Hw Hf] Hn. split; [intros c Hc; specialize (Hw c Hc); specialize (Hn c); lia|]. right.
  intros c c' Hc Hc' Hlt _ _. pose proof (Hax c Hc). pose proof (Hax c' Hc').
  assert (c = 0) as ->.
  { destruct c as [|[|c]]; [auto|exfalso|exfalso; lia]. apply Hf. split; auto. replace 2 with c' by lia. auto. }
  split; auto. intros e He H1 H2. exfalso. pose proof (Hax e He). apply Hf. destruct c' as [|[|[|c']]]; try lia; destruct e as [|[|[|e]]]; try lia; auto.
Qed.

(** Twelve neighbours in the face-centred and eight in the body-centred cubic lattice, open and in films. *)
Theorem C112_fcc :
  forall query argsort inv a at1 k,
    correct_tree query -> is_argsort dleb argsort -> inverts inv 3 -> ((1#1000000) < a * a)%Q -> rounds_to_micro (a * a / 2)%Q k ->
    exists s, preset query (fcc inv a) [(None, at1)] 1 = Ok s /\
      coordinated query argsort (fcc inv a) s
        [[1; 0; 0]; [0; 1; 0]; [0; 0; 1]; [-1; 0; 0]; [0; -1; 0]; [0; 0; -1];
         [1; -1; 0]; [1; 0; -1]; [0; 1; -1]; [-1; 1; 0]; [-1; 0; 1]; [0; -1; 1]]%Z k film.
Proof.
  intros query argsort inv a at1 k Hq Harg I3 Ha Hk. assert (~ (a == 0)%Q) as Ha0 by (intro E; rewrite E in Ha; lra).
  fold fcc_cells. assert (0 < a * a / 4)%Q as He by (apply Qlt_shift_div_l; lra).
  assert (a * a / 2 == a * a / 4 * inject_Z 2)%Q as E2 by (change (inject_Z 2) with 2%Q; field).
  assert (a * a / 2 == (1#2) * (a * a))%Q as E2' by field.
  assert (forall n, In n fcc_cells <-> length n = 3 /\ (cell_sq 3 (b_mat (fcc inv a)) n == a * a / 2)%Q) as Hin.
  { intro n. split.
    + intro Hin. assert (length n = 3) as Hn by (cbn in Hin; intuition (subst; reflexivity)). split; auto.
      destruct (three n Hn) as [n1 [n2 [n3 ->]]]. rewrite fcc_sq, (proj2 (proj2 (fcc_form n1 n2 n3)) Hin), E2. reflexivity.
    + intros [Hn En]. destruct (three n Hn) as [n1 [n2 [n3 ->]]]. rewrite fcc_sq, E2 in En. apply scale_eq in En; auto. apply fcc_form. auto. }
  assert (forall n, length n = 3 -> n <> repeat 0%Z 3 -> (cell_sq 3 (b_mat (fcc inv a)) n == a * a / 2 \/ (5#4) * (a * a / 2) <= cell_sq 3 (b_mat (fcc inv a)) n)%Q) as Hall.
  { intros n Hn Hnz. destruct (three n Hn) as [n1 [n2 [n3 ->]]]. rewrite fcc_sq, E2. destruct (proj1 (fcc_form n1 n2 n3) Hnz) as [->|H]; [left; reflexivity|right].
    apply (scale_le (a * a / 4) _ _ He) in H. change (inject_Z 4) with 4%Q in H. change (inject_Z 2) with 2%Q. lra. }
  assert (forall n c, In n fcc_cells -> (-1 <= nth c n 0 <= 1)%Z) as Hone
    by (intros n c Hn; cbn in Hn; repeat (destruct Hn as [<-|Hn]; [destruct c as [|[|[|[|c]]]]; cbn; lia|]); destruct Hn).
  apply preset_coordinated; auto.
  - apply fcc_valid; auto.
  - cbn; lia.
  - apply (equal_ring 3 _ fcc_cells (a * a / 2)%Q); auto; [discriminate|repeat (constructor; [cbn; intuition discriminate|]); constructor|rewrite E2'; lra|].
    eapply rounds_large; [|exact Hk]. rewrite E2'. lra.
  - intros n Hn. assert (0 < a * a / 2)%Q by (rewrite E2'; lra). apply (equal_reach 3 _ fcc_cells (a * a / 2)%Q); auto; [intros m c Hm Hc; cbn in Hm; intuition (subst; cbn in Hc; intuition lia)].
  - intros axes L n Hax Hf Hn. apply film_fits; auto.
Qed.

Theorem C112_bcc :
  forall query argsort inv a at1 k,
    correct_tree query -> is_argsort dleb argsort -> inverts inv 3 -> ((1#1000000) < a * a)%Q -> rounds_to_micro (a * a * (3#4))%Q k ->
    exists s, preset query (bcc inv a) [(None, at1)] 1 = Ok s /\
      coordinated query argsort (bcc inv a) s
        [[1; 0; 0]; [0; 1; 0]; [0; 0; 1]; [-1; 0; 0]; [0; -1; 0]; [0; 0; -1]; [1; -1; -1]; [-1; 1; 1]]%Z k film.
Proof.
  intros query argsort inv a at1 k Hq Harg I3 Ha Hk. assert (~ (a == 0)%Q) as Ha0 by (intro E; rewrite E in Ha; lra).
  fold bcc_cells. assert (0 < a * a / 4)%Q as He by (apply Qlt_shift_div_l; lra).
  assert (a * a * (3#4) == a * a / 4 * inject_Z 3)%Q as E2 by (change (inject_Z 3) with 3%Q; field).
  assert (forall n, In n bcc_cells <-> length n = 3 /\ (cell_sq 3 (b_mat (bcc inv a)) n == a * a * (3#4))%Q) as Hin.
  { intro n. split.
    + intro Hin. assert (length n = 3) as Hn by (cbn in Hin; intuition (subst; reflexivity)). split; auto.
      destruct (three n Hn) as [n1 [n2 [n3 ->]]]. rewrite bcc_sq, (proj2 (proj2 (bcc_form n1 n2 n3)) Hin), E2. reflexivity.
    + intros [Hn En]. destruct (three n Hn) as [n1 [n2 [n3 ->]]]. rewrite bcc_sq, E2 in En. apply scale_eq in En; auto. apply bcc_form. auto. }
  assert (forall n, length n = 3 -> n <> repeat 0%Z 3 -> (cell_sq 3 (b_mat (bcc inv a)) n == a * a * (3#4) \/ (5#4) * (a * a * (3#4)) <= cell_sq 3 (b_mat (bcc inv a)) n)%Q) as Hall.
  { intros n Hn Hnz. destruct (three n Hn) as [n1 [n2 [n3 ->]]]. rewrite bcc_sq, E2. destruct (proj1 (bcc_form n1 n2 n3) Hnz) as [->|H]; [left; reflexivity|right].
    apply (scale_le (a * a / 4) _ _ He) in H. change (inject_Z 4) with 4%Q in H. change (inject_Z 3) with 3%Q. lra. }
  assert (forall n c, In n bcc_cells -> (-1 <= nth c n 0 <= 1)%Z) as Hone
    by (intros n c Hn; cbn in Hn; repeat (destruct Hn as [<-|Hn]; [destruct c as [|[|[|[|c]]]]; cbn; lia|]); destruct Hn).
  apply preset_coordinated; auto.
  - apply bcc_valid; auto.
  - cbn; lia.
  - apply (equal_ring 3 _ bcc_cells (a * a * (3#4))%Q); auto; [discriminate|repeat (constructor; [cbn; intuition discriminate|]); constructor|lra|].
    eapply rounds_large; [|exact Hk]. lra.
  - intros n Hn. apply (equal_reach 3 _ bcc_cells (a * a * (3#4))%Q); auto; [lra|intros m c Hm Hc; cbn in Hm; intuition (subst; cbn in Hc; intuition lia)].
  - intros axes L n Hax Hf Hn. apply film_fits; auto.
Qed.

(** A rectangular lattice with the lattice constants 2 and 3: two neighbours along the first axis. *)
Definition ex_rows : basis := new_basis inverse_small [[2; 0]; [0; 3]]%Q.

Lemma ex_rows_sq n1 n2 : (cell_sq 2 (b_mat ex_rows) [n1; n2] == inject_Z (4 * (n1 * n1) + 9 * (n2 * n2)))%Q.
Proof. unfold cell_sq, entry. cbn -[Qmult Qplus inject_Z Qdiv Z.mul Z.add]. rewrite !inject_Z_plus, !inject_Z_mult. ring. Qed.

Lemma ex_rows_ring : nearest_ring 2 (b_mat ex_rows) [[1; 0]; [-1; 0]]%Z 2000000 /\
  forall n, In n [[1; 0]; [-1; 0]]%Z -> in_reach 2 (b_mat ex_rows) 1 n.
Proof.
  assert (forall n, In n [[1; 0]; [-1; 0]]%Z <-> length n = 2 /\ (cell_sq 2 (b_mat ex_rows) n == 4)%Q) as Hin.
  { intro n. split; [intros [<-|[<-|[]]]; split; reflexivity|]. intros [Hn E]. destruct n as [|n1 [|n2 [|]]]; try discriminate Hn.
    rewrite ex_rows_sq in E. change 4%Q with (inject_Z 4) in E. apply (proj1 (inject_Z_injective _ _)) in E. assert (0 <= n1 * n1 /\ 0 <= n2 * n2)%Z as [S1 S2] by (split; apply Z.square_nonneg).
    assert (n2 * n2 = 0 /\ n1 * n1 = 1)%Z as [E2 E1] by lia. assert (n2 = 0)%Z as -> by nia.
    assert (n1 = 1 \/ n1 = -1)%Z as [-> | ->] by nia; cbn; auto. }
  assert (forall n, length n = 2 -> n <> repeat 0%Z 2 -> (cell_sq 2 (b_mat ex_rows) n == 4 \/ (5#4) * 4 <= cell_sq 2 (b_mat ex_rows) n)%Q) as Hall.
  { intros n Hn Hz. destruct n as [|n1 [|n2 [|]]]; try discriminate Hn. rewrite ex_rows_sq. set (z := (4 * (n1 * n1) + 9 * (n2 * n2))%Z).
    assert (z = 4 \/ 5 <= z)%Z as [-> | H]; [|left; reflexivity|right; rewrite Zle_Qle in H; change (inject_Z 5) with 5%Q in H; lra].
    assert (n1 <> 0 \/ n2 <> 0)%Z as H0 by (destruct (Z.eq_dec n1 0) as [->|], (Z.eq_dec n2 0) as [->|]; auto; exfalso; apply Hz; reflexivity).
    unfold z. destruct (Z.eq_dec n2 0) as [->|H2]; [|right; nia]. assert (n1 = 1 \/ n1 = -1 \/ n1 <= -2 \/ 2 <= n1)%Z as [->|[->|[H|H]]] by lia; [left; reflexivity|left; reflexivity|right; nia|right; nia]. }
  split.
  - apply (equal_ring 2 _ _ 4%Q); auto; [discriminate|repeat (constructor; [cbn; intuition discriminate|]); constructor|reflexivity| |lia].
    change 2000000%Z with (sqrt_micro 4). apply sqrt_micro_rounds. discriminate.
  - intros n Hn. apply (equal_reach 2 _ [[1; 0]; [-1; 0]]%Z 4%Q); auto; [reflexivity|]. intros m c Hm Hc. cbn in Hm. intuition (subst; cbn in Hc; intuition lia).
Qed.

(** Three by two cells: open, the sites of the two rows are linked to the next ones. *)
Example C112_built_example :
  correct_tree brute /\ is_argsort dleb dist_argsort /\ valid_basis ex_rows /\ nearest_ring 2 (b_mat ex_rows) [[1; 0]; [-1; 0]]%Z 2000000 /\
  (forall n, In n [[1; 0]; [-1; 0]]%Z -> in_reach 2 (b_mat ex_rows) 1 n) /\ fitting 2 (ASize [4; 3]%Q) false None /\
  exists s l' dt, preset brute ex_rows [(None, ex_atom "A")] 1 = Ok s /\
    build brute dist_argsort [] (new_lattice s) (ASize [4; 3]%Q) false None true None None None = (l', Ok tt) /\ lt_data l' = Some dt /\
    d_indices dt = [[0; 0; 0]; [0; 1; 0]; [1; 0; 0]; [1; 1; 0]; [2; 0; 0]; [2; 1; 0]]%Z /\
    map (links dt) (seq 0 6) = [[(2, Fin 2000000)]; [(3, Fin 2000000)]; [(0, Fin 2000000); (4, Fin 2000000)]; [(1, Fin 2000000); (5, Fin 2000000)];
                                [(2, Fin 2000000)]; [(3, Fin 2000000)]].
Proof.
  split; [exact brute_nearest|]. split; [exact dist_argsort_ok|].
  split; [apply inverse_small_2; exists [[1#2; 0]; [0; 1#3]]%Q; matrix_check; reflexivity|].
  split; [apply ex_rows_ring|]. split; [apply ex_rows_ring|]. split; [split; [discriminate|discriminate]|].
  do 3 eexists. split; [vm_compute; reflexivity|]. split; [vm_compute; reflexivity|]. split; [reflexivity|]. split; vm_compute; reflexivity.
Qed.

(** The same cells, periodic along the first axis: the rows are closed. *)
Example C112_torus_example :
  axis_aligned 2 (b_mat ex_rows) /\
  (forall n, In n [[1; 0]; [-1; 0]]%Z -> short [3; 2]%Z [0] n /\ (2 <= 2 \/ along_two [0] n)) /\
  exists s l' dt, preset brute ex_rows [(None, ex_atom "A")] 1 = Ok s /\
    build brute dist_argsort [] (new_lattice s) (ASize [4; 3]%Q) false None true None (Some (AxList [0])) None = (l', Ok tt) /\ lt_data l' = Some dt /\
    d_indices dt = [[0; 0; 0]; [0; 1; 0]; [1; 0; 0]; [1; 1; 0]; [2; 0; 0]; [2; 1; 0]]%Z /\
    map (fun i => map s_nbr (slots dt i)) (seq 0 6) = [[2; 4]; [3; 5]; [0; 4]; [1; 5]; [2; 0]; [3; 1]].
Proof.
  split; [split; [split; [reflexivity|intros r [<-|[<-|[]]]; reflexivity]|intros [|[|i]] [|[|j]] Hi Hj; try lia; reflexivity]|].
  split; [intros n [<-|[<-|[]]]; (split; [intros c [<-|[]]; cbn; lia|left; lia])|].
  do 3 eexists. split; [vm_compute; reflexivity|]. split; [vm_compute; reflexivity|]. split; [reflexivity|]. split; vm_compute; reflexivity.
Qed.

(** Nine atoms of a hexagonal lattice, open and on a torus. *)
Example C112_hexagonal_example :
  let a := (142#100)%Q in
  correct_tree brute /\ is_argsort dleb dist_argsort /\ inverts inverse_small 2 /\ ((1#1000) < a)%Q /\ ((299#100) <= sqrt3_double * sqrt3_double <= (301#100))%Q /\
  rounds_to_micro (a * a * ((9 + sqrt3_double * sqrt3_double) * (1#4)))%Q 2459512 /\ rounds_to_micro (a * a * (sqrt3_double * sqrt3_double))%Q 2459512 /\
  three_wide [0; 1] [3; 3]%Z /\
  exists s l1 dt1 l2 dt2, simple_hexagonal brute inverse_small sqrt3_double a (ex_atom "A") 1 = Ok s /\
    build brute dist_argsort [246#100; 246#100]%Q (new_lattice s) (ASize [5#2; 5#2]%Q) true None true None None None = (l1, Ok tt) /\ lt_data l1 = Some dt1 /\
    build brute dist_argsort [246#100; 246#100]%Q (new_lattice s) (ASize [5#2; 5#2]%Q) true None true None (Some (AxList [0; 1])) None = (l2, Ok tt) /\ lt_data l2 = Some dt2 /\
    d_indices dt1 = [[0; 0; 0]; [0; 1; 0]; [0; 2; 0]; [1; 0; 0]; [1; 1; 0]; [1; 2; 0]; [2; 0; 0]; [2; 1; 0]; [2; 2; 0]]%Z /\ d_indices dt2 = d_indices dt1 /\
    map (fun i => map fst (links dt1 i)) [0; 1; 4; 8] = [[1; 3]; [3; 0; 2; 4]; [2; 6; 1; 3; 5; 7]; [5; 7]] /\
    map (fun i => map s_nbr (slots dt2 i)) [0; 1; 4; 8] = [[1; 3; 2; 5; 6; 7]; [3; 0; 2; 4; 7; 8]; [2; 6; 1; 3; 5; 7]; [5; 7; 1; 2; 3; 6]].
Proof.
  cbv zeta. split; [exact brute_nearest|]. split; [exact dist_argsort_ok|]. split; [exact inverse_small_2|]. split; [reflexivity|].
  split; [split; apply Qle_bool_imp_le; reflexivity|].
  split; [replace 2459512%Z with (sqrt_micro ((142#100) * (142#100) * ((9 + sqrt3_double * sqrt3_double) * (1#4)))) by (vm_compute; reflexivity); apply sqrt_micro_rounds; vm_compute; discriminate|].
  split; [replace 2459512%Z with (sqrt_micro ((142#100) * (142#100) * (sqrt3_double * sqrt3_double))) by (vm_compute; reflexivity); apply sqrt_micro_rounds; vm_compute; discriminate|].
  split; [intros c [<-|[<-|[]]]; cbn; lia|].
  do 5 eexists. split; [vm_compute; reflexivity|]. split; [vm_compute; reflexivity|]. split; [reflexivity|]. split; [vm_compute; reflexivity|]. split; [reflexivity|].
  split; [vm_compute; reflexivity|]. split; [vm_compute; reflexivity|]. split; vm_compute; reflexivity.
Qed.

(** A film of three by three by two cells of a face-centred cubic lattice, periodic along the first two axes: nine neighbours each. *)
Example C112_fcc_example :
  correct_tree brute /\ is_argsort dleb dist_argsort /\ inverts inverse_small 3 /\ ((1#1000000) < 4 * 4)%Q /\ rounds_to_micro (4 * 4 / 2)%Q 2828427 /\
  film [0; 1] [3; 3; 2]%Z /\
  exists s l' dt, preset brute (fcc inverse_small 4) [(None, ex_atom "Al")] 1 = Ok s /\
    build brute dist_argsort [283#100; 283#100; 283#100]%Q (new_lattice s) (ASize [5#2; 5#2; 3#2]%Q) true None true None (Some (AxList [0; 1])) None = (l', Ok tt) /\ lt_data l' = Some dt /\
    length (d_indices dt) = 18 /\ map (fun i => length (slots dt i)) (seq 0 18) = repeat 9 18 /\
    map (fun i => nth i (d_indices dt) []) (map s_nbr (slots dt 0)) =
      [[0; 0; 1; 0]; [0; 1; 0; 0]; [1; 0; 0; 0]; [0; 2; 0; 0]; [0; 2; 1; 0]; [1; 2; 0; 0]; [2; 0; 0; 0]; [2; 0; 1; 0]; [2; 1; 0; 0]]%Z.
Proof.
  split; [exact brute_nearest|]. split; [exact dist_argsort_ok|]. split; [exact inverse_small_3|]. split; [reflexivity|].
  split; [replace 2828427%Z with (sqrt_micro (4 * 4 / 2)) by (vm_compute; reflexivity); apply sqrt_micro_rounds; vm_compute; discriminate|].
  split; [split; [intros c [<-|[<-|[]]]; cbn; lia|intros [_ [H|[H|[]]]]; discriminate H]|].
  do 3 eexists. split; [vm_compute; reflexivity|]. split; [vm_compute; reflexivity|]. split; [reflexivity|].
  split; [vm_compute; reflexivity|]. split; vm_compute; reflexivity.
Qed.

(** A wire of body-centred cubic cells, closed to a ring. *)
Example C112_bcc_example :
  ((1#1000000) < 4 * 4)%Q /\ rounds_to_micro (4 * 4 * (3#4))%Q 3464102 /\ film [0] [3; 1; 1]%Z /\
  exists s l' dt, preset brute (bcc inverse_small 4) [(None, ex_atom "Fe")] 1 = Ok s /\
    build brute dist_argsort [346#100; 346#100; 346#100]%Q (new_lattice s) (ASize [5#2; 1#2; 1#2]%Q) true None true None (Some (AxList [0])) None = (l', Ok tt) /\ lt_data l' = Some dt /\
    d_indices dt = [[0; 0; 0; 0]; [1; 0; 0; 0]; [2; 0; 0; 0]]%Z /\ map (fun i => map s_nbr (slots dt i)) [0; 1; 2] = [[1; 2]; [0; 2]; [1; 0]].
Proof.
  split; [reflexivity|].
  split; [replace 3464102%Z with (sqrt_micro (4 * 4 * (3#4))) by (vm_compute; reflexivity); apply sqrt_micro_rounds; vm_compute; discriminate|].
  split; [split; [intros c [<-|[]]; cbn; lia|intros [[H|[]] _]; discriminate H]|].
  do 3 eexists. split; [vm_compute; reflexivity|]. split; [vm_compute; reflexivity|]. split; [reflexivity|]. split; vm_compute; reflexivity.
Qed.

Print Assumptions C112_built.
Print Assumptions C112_torus.
Print Assumptions C112_hexagonal.
Print Assumptions C112_fcc.
Print Assumptions C112_bcc.
