(** * Property C111 (lattpy/lattice.py: build with periodic boundary conditions; the honeycomb lattice) *)
From Coq Require Import String List ZArith QArith Qabs Bool Arith Lia Lqa Permutation Sorting.Sorted.
From Verif Require Import Np NpFacts LinAlg LinFacts SpecUtils UtilsModel UtilsProofs SpecBasis AtomModel BasisModel BasisProofs
  NeighborCellProofs PropBasis SpatialModel SpecSpatial SpatialProofs KDProofs SpecStructure SpecBuild ShapeModel ShapeProofs PropShape PropSpatial StructureModel KDBrute RoundFacts StructureFacts
  DataModel SpecData DataFacts DataProofs PropData AnalyzeProofs StructureProofs PropStructure PropAnalyze FilterProofs SpecNeighbors
  NeighborProofs RadiusProofs RangeProofs PropNeighbors BuiltProofs BuildProofs PropBuild LatticeModel LatticeExamples PropFailed SpecGrid GridProofs SpecJoin SpecBlock
  PropBuilt PropBlock PropReciprocal PresetModel PropPreset PropPrimitive PropGrid SpecShell ShellProofs PropShell PropForm PropFormBuilt HoneycombModel PropHoneycomb PropHoneyBuilt.
Import ListNotations.
Open Scope nat_scope.
Open Scope list_scope.

(** The cell [n], brought back into the box along the periodic axes. *)
Definition wrapped (axes : list nat) (o L n : list Z) : list Z :=
  map (fun k => if existsb (Nat.eqb k) axes then (nth k o 0 + (nth k n 0 - nth k o 0) mod nth k L 0)%Z else nth k n 0%Z) [0; 1].

Lemma wrapped_nth axes o L n c : c < 2 -> nth c (wrapped axes o L n) 0%Z =
  if existsb (Nat.eqb c) axes then (nth c o 0 + (nth c n 0 - nth c o 0) mod nth c L 0)%Z else nth c n 0%Z.
Proof. intro H. destruct c as [|[|c]]; [reflexivity|reflexivity|lia]. Qed.

(** Every site of a block of cells, periodic along the given axes, is linked exactly to the sites of the other kind in the three cells
    around it, counted modulo the block along the periodic axes. *)
Theorem C111_torus :
  forall query argsort norms inv sqrt3 a k s s' l sh pos check callback I P o L axes,
    correct_tree query -> is_argsort dleb argsort -> inverts inv 2 -> ((1#1000) < a)%Q -> ((299#100) <= sqrt3 * sqrt3 <= (301#100))%Q ->
    rounds_to_micro (a * a)%Q k -> rounds_to_micro (a * a * ((1 + sqrt3 * sqrt3) * (1#4)))%Q k ->
    analyze query s = (s', Ok tt) -> in_step s -> st_basis s = hexagonal inv sqrt3 a -> st_positions s = [[0; 0]; [a; 0]]%Q ->
    st_connections s = Some [[0; 1]; [1; 0]] -> lt_structure l = s' ->
    length norms = 2 -> fitting 2 sh true pos ->
    build_indices (hexagonal inv sqrt3 a) norms [[0; 0]; [a; 0]]%Q (AShape (build_shape (hexagonal inv sqrt3 a) sh true pos)) true pos check callback = Ok (I, P) ->
    (* a block of cells, with at least three of them along the periodic axes *)
    (forall k, k < 2 -> (1 <= nth k L 0)%Z) ->
    (forall t, In t I <-> exists n x, t = n ++ [Z.of_nat x] /\ length n = 2 /\ box 2 o L n /\ x < 2) ->
    NoDup axes -> (forall k, In k axes -> k < 2 /\ (3 <= nth k L 0)%Z) ->
    exists l' dt, build query argsort norms l sh true pos check None (Some (AxList axes)) callback = (l', Ok tt) /\
      lt_structure l' = s' /\ lt_data l' = Some dt /\ wf dt /\ d_indices dt = I /\ d_positions dt = P /\
      forall i N x, nth_error I i = Some (N ++ [Z.of_nat x]) ->
        NoDup (map s_nbr (slots dt i)) /\ (forall e, In e (slots dt i) -> s_dist e = Fin k) /\
        (forall j, In j (map s_nbr (slots dt i)) <->
           exists n, In n (three_cells x) /\ nth_error I j = Some (wrapped axes o L (map2 Z.add n N) ++ [Z.of_nat (1 - x)])) /\
        ((forall k, k < 2 -> In k axes) -> length (slots dt i) = 3).
Proof.
  intros query argsort norms inv q a k s s' l sh pos check callback I P o L axes Hq Harg I2 Ha Hs H1 H2 Han Hst Eb ER Ec El Hnorms Hfit EI HL HI HN Hax.
  pose proof (hexagonal_valid inv q a Ha Hs I2) as Hb. assert (b_dim (hexagonal inv q a) = 2) as Hd by reflexivity.
  pose proof (aa_pos _ a Ha Hs) as A. pose proof (k_large q a k Ha Hs H1) as K.
  destruct (honey_analysed query inv q a k s s' Hq I2 Ha Hs H1 H2 Han Hst Eb ER Ec) as (an & r & cells & Ean & Er & Hr & Ecells & Hallowed & Hleast & Hcount).
  set (V := b_mat (hexagonal inv q a)) in *. set (R := [[0; 0]; [a; 0]]%Q) in *.
  set (D := fun x y n => sqdist (nth x R []) (lattice_point 2 V (nth y R []) n)).
  assert (forall x y n, x < 2 -> y < 2 -> length n = 2 ->
    (x = y /\ n = [0; 0]%Z /\ (D x y n == 0)%Q \/ y = 1 - x /\ In n (three_cells x) /\ rounds_to_micro (D x y n) k /\ (0 < D x y n)%Q \/
     ~ (y = 1 - x /\ In n (three_cells x)) /\ ~ (x = y /\ n = [0; 0]%Z) /\ ((5#2) * (a * a) <= D x y n)%Q)) as Hcases
    by (intros x y n Hx Hy Hn; exact (three_cases inv q a k Ha Hs H1 H2 x y n Hx Hy Hn)).
  set (allowed := fun x y => among_first (nth y (nth x [[0; 1]; [1; 0]] []) 0) (occurs 2 V R cells x y)) in *.
  change (forall x y z, x < 2 -> y < 2 -> allowed x y z <-> y = 1 - x /\ z = Fin k) in Hallowed.
  assert (forall r, In r R -> length r = 2) as HRl by (intros r' [<-|[<-|[]]]; reflexivity).
  (* the bonds *)
  assert (forall x y n z, bond 2 V R allowed x y n z <-> x < 2 /\ y = 1 - x /\ In n (three_cells x) /\ z = Fin k) as Hbond.
  { intros x y n z. split.
    - intros (Hx & Hy & Hn & [w [-> Hw]] & Hal). cbn [R length] in Hx, Hy. fold (D x y n) in Hw. apply Hallowed in Hal; auto. destruct Hal as [-> E]. injection E as ->.
      split; auto. split; auto. split; auto. destruct (Hcases x (1 - x) n Hx Hy Hn) as [[C _]|[[_ [C _]]|[_ [_ C]]]]; [lia|auto|].
      exfalso. assert (k < k)%Z; [|lia]. eapply rounds_gap; [exact H1|exact Hw|lia|lra].
    - intros (Hx & -> & Hn & ->). pose proof (three_length x n Hn) as Hl. split; [cbn [R length]; lia|]. split; [cbn [R length]; lia|]. split; auto. split.
      + exists k. split; auto. destruct (Hcases x (1 - x) n Hx ltac:(lia) Hl) as [[C _]|[[_ [_ [C _]]]|[C _]]]; [lia|exact C|exfalso; auto].
      + apply Hallowed; auto. lia. }
  assert (forall x n c, In n (three_cells x) -> (-1 <= nth c n 0 <= 1)%Z) as Hone.
  { intros x n c Hn. destruct x; cbn in Hn; destruct Hn as [<-|[<-|[<-|[]]]]; destruct c as [|[|[|c]]]; cbn; lia. }
  assert (crowd 2 V R (query_count an) r) as Hcrowd.
  { intros x B Hx HB HBin. cbn [R length] in Hx. apply Nat.le_trans with 4; [|exact Hcount].
    change 4 with (length ((x, [0; 0]%Z) :: map (pair (1 - x)) (three_cells 0))). replace (length ((x, [0; 0]%Z) :: map (pair (1 - x)) (three_cells 0))) with
      (length ((x, [0; 0]%Z) :: map (pair (1 - x)) (three_cells x))) by (destruct x; reflexivity).
    apply NoDup_incl_length; auto. intros [y n] Hyn. destruct (HBin y n Hyn) as [Hy [Hn Hle]]. cbn [R length] in Hy. fold (D x y n) in Hle.
    destruct (Hcases x y n Hx Hy Hn) as [[-> [-> _]]|[[-> [C _]]|[_ [_ C]]]]; [left; auto|right; apply in_map; auto|lra]. }
  assert (incongruent 2 V R) as Hinc.
  { intros x y n Hx Hy Hn Hsame. cbn [R length] in Hx, Hy. apply same_veq in Hsame.
    assert (D x y n == 0)%Q as E by (unfold D; rewrite <- (sqdist_veq _ _ _ _ (veq_refl (nth x R [])) Hsame); apply sqdist_self).
    destruct (Hcases x y n Hx Hy Hn) as [[C _]|[[_ [_ [_ C]]]|[_ [_ C]]]]; [auto| |]; rewrite E in C; lra. }
  (* sites within the search radius are connected *)
  assert (primitive_norms : true = true -> length norms = 2) by auto.
  destruct (C31_indices_and_positions_aligned _ _ _ _ _ _ _ _ _ _ Hb primitive_norms HRl EI) as [Hlen [Hal _]]. rewrite Hd in Hal. fold V in Hal.
  assert (forall i p, nth_error P i = Some p -> exists n x, nth_error I i = Some (n ++ [Z.of_nat x]) /\ length n = 2 /\ x < 2 /\ same p (lattice_point 2 V (nth x R []) n)) as Hsite.
  { intros i p Hp. destruct (nth_error_lt I i) as [t Ht]; [pose proof (nth_error_length_lt _ _ _ Hp); lia|].
    destruct (Hal i t p Ht Hp) as [n [x [r' [-> [Hn [Hr' Hsame]]]]]]. exists n, x. rewrite (nth_of_nth_error _ _ _ _ Hr'). pose proof (nth_error_length_lt _ _ _ Hr') as X. cbn [R length] in X. auto. }
  pose proof (C33_no_site_twice _ _ _ _ _ _ _ _ _ _ Hb primitive_norms HRl EI) as HNI.
  assert (forall i n x, nth_error I i = Some (n ++ [Z.of_nat x]) -> atom_of I i = x) as Hat.
  { intros i n x Ei. unfold atom_of. rewrite (nth_of_nth_error _ _ _ _ Ei), last_last. apply Nat2Z.id. }
  assert (forall i j p, i <> j -> nth_error P i = Some p -> within P p (r * r)%Q j -> exists x, connected_sites allowed I P i j x) as Hpad.
  { intros i j p Hij Hp [t [Ht Hle]]. destruct (Hsite i p Hp) as (n & x & Hi & Hn & Hx & S1). destruct (Hsite j t Ht) as (m & y & Hj & Hm & Hy & S2).
    assert (length (map2 Z.sub m n) = 2) as Hl by (rewrite map2_length; lia).
    assert (sqdist p t == D x y (map2 Z.sub m n))%Q as Hd2.
    { rewrite (sqdist_veq p t _ _ (proj1 (same_veq _ _) S1) (proj1 (same_veq _ _) S2)). apply two_points; auto; apply HRl, nth_In; auto. }
    rewrite Hd2 in Hle. destruct (Hcases x y (map2 Z.sub m n) Hx Hy Hl) as [[-> [C _]]|[[-> [_ [C _]]]|[_ [_ C]]]]; [|exists (Fin k)|lra].
    - exfalso. apply Hij. assert (m = n) as ->.
      { pose proof (sub_add n m ltac:(lia)) as E. rewrite C in E. rewrite E. clear - Hn. destruct n as [|n1 [|n2 [|]]]; try discriminate Hn; reflexivity. }
      rewrite NoDup_nth_error in HNI. apply HNI; [eapply nth_error_length_lt; eauto|congruence].
    - split; auto. split; [exists p, t, k; split; auto; split; auto; split; auto; eapply rounds_ext; [symmetry; exact Hd2|exact C]|].
      rewrite (Hat i n x Hi), (Hat j m _ Hj). apply Hallowed; auto. }
  pose proof (C90_built_torus query argsort norms s s' [[0; 1]; [1; 0]] an r 1 cells l sh true pos check callback I P o L axes Hq Harg) as T.
  rewrite Eb, Hd, ER in T. fold V R in T. cbv zeta in T. fold allowed in T.
  destruct T as (l' & dt & T1 & T2 & T3 & T4 & T5 & _ & T6 & T7); auto.
  - intros x y. destruct x as [|[|[|x]]], y as [|[|[|y]]]; cbn; lia.
  - exists 0, 1. reflexivity.
  - exists [Fin k]. split; [cbn; lia|]. intros x y z Hx Hy H. apply Hallowed in H; auto. left. symmetry. apply H.
  - intros c Hc. apply Hax. auto.
  - intros x y n z H. apply Hbond in H. destruct H as (_ & _ & Hn & _). split; [|left; lia]. intros c Hc. pose proof (Hone x n c Hn). apply Hax in Hc. lia.
  - intros x y z Hx Hy H. cbn [R length] in Hx, Hy. pose proof H as [_ [_ [_ [w [-> _]]]]]. apply Z.leb_le. apply Hleast in H; auto. lia.
  - exists l', dt. pose proof (tb_wf _ _ _ _ _ _ _ T6) as W. repeat (split; [auto; fail|]). intros i N x Hi.
    assert (i < nsites dt) as Hin by (unfold nsites; rewrite T4; eapply nth_error_length_lt; eauto).
    assert (In (N ++ [Z.of_nat x]) I) as HiI by (eapply nth_error_In; eauto). apply HI in HiI. destruct HiI as (N' & x' & E & HNl & HNb & Hx).
    apply app_inj_tail in E. destruct E as [<- E]. apply Nat2Z.inj in E. subst x'.
    assert (nth i (d_indices dt) [] = N ++ [Z.of_nat x]) as Ei by (rewrite T4; apply nth_of_nth_error; auto).
    assert (forall c (n : list Z) (y : nat), length n = 2 -> c < 2 -> nth c (n ++ [Z.of_nat y]) 0%Z = nth c n 0%Z) as Happ by (intros; apply app_nth1; lia).
    assert (forall c n, length n = 2 -> nth c (map2 Z.add n N) 0%Z = (nth c N 0 + nth c n 0)%Z) as Hadd.
    { intros c n Hn. destruct n as [|n1 [|n2 [|]]]; try discriminate Hn. destruct N as [|N1 [|N2 [|]]]; try discriminate HNl. destruct c as [|[|[|c]]]; cbn; lia. }
    split; [apply (tb_once _ _ _ _ _ _ _ T6); auto|]. split; [|split].
    + intros e He. destruct (tb_slot _ _ _ _ _ _ _ T6 i e Hin He) as (m & [Hm _] & _). apply Hbond in Hm. apply Hm.
    + intro j. rewrite (tb_neighbors _ _ _ _ _ _ _ T6 i j Hin). unfold nsites. rewrite Ei, T4. split.
      * intros [Hj (m & z & Hm & Hk)]. rewrite last_last, Nat2Z.id in Hm. destruct (nth_error_lt I j Hj) as [t Ht]. rewrite (nth_of_nth_error _ _ _ _ Ht) in Hm, Hk.
        assert (In t I) as HtI by (eapply nth_error_In; eauto). apply HI in HtI. destruct HtI as (M & y & -> & HMl & HMb & Hy).
        rewrite last_last, Nat2Z.id in Hm. apply Hbond in Hm. destruct Hm as (_ & -> & Hm & _). exists m. split; auto. rewrite Ht. f_equal. f_equal.
        pose proof (three_length x m Hm) as Hml. assert (forall c, c < 2 -> nth c M 0%Z = if existsb (Nat.eqb c) axes then (nth c o 0 + (nth c (map2 Z.add m N) 0 - nth c o 0) mod nth c L 0)%Z else nth c (map2 Z.add m N) 0%Z) as E.
        { intros c Hc. specialize (Hk c Hc). rewrite !Happ in Hk by auto. rewrite Hadd by auto. specialize (HMb c Hc). destruct (existsb (Nat.eqb c) axes) eqn:Ex.
          - assert (exists w, nth c M 0 - (nth c N 0 + nth c m 0) = w * nth c L 0)%Z as [w Hw].
            { destruct Hk as [->|[_ [w Hw]]]; [exists 0%Z; lia|exists w; exact Hw]. }
            replace (nth c N 0 + nth c m 0 - nth c o 0)%Z with ((nth c M 0 - nth c o 0) + (- w) * nth c L 0)%Z by lia.
            rewrite Z.mod_add by (specialize (HL c Hc); lia). rewrite Z.mod_small by lia. lia.
          - destruct Hk as [->|[Hin' _]]; auto. exfalso. assert (existsb (Nat.eqb c) axes = true); [|congruence]. apply existsb_exists. exists c. split; auto. apply Nat.eqb_refl. }
        unfold wrapped. cbn [map]. rewrite <- !E by lia. destruct M as [|M1 [|M2 [|]]]; try discriminate HMl. reflexivity.
      * intros (n & Hn & Hj). split; [eapply nth_error_length_lt; eauto|]. exists n, (Fin k). rewrite (nth_of_nth_error _ _ _ _ Hj). pose proof (three_length x n Hn) as Hnl. split.
        -- rewrite !last_last, !Nat2Z.id. apply Hbond. auto.
        -- intros c Hc. rewrite !Happ by auto. rewrite wrapped_nth, Hadd by auto.
           destruct (existsb (Nat.eqb c) axes) eqn:Ex; [right|left; reflexivity]. apply existsb_exists in Ex. destruct Ex as [c' [Hc' Ex]]. apply Nat.eqb_eq in Ex. subst c'. split; auto.
           set (u := (nth c N 0 + nth c n 0 - nth c o 0)%Z). exists (- (u / nth c L 0))%Z. pose proof (Z.div_mod u (nth c L 0%Z) ltac:(specialize (HL c Hc); lia)) as E. unfold u in *. lia.
    + intro Hall. rewrite (T7 Hall i (map (pair (1 - x)) (three_cells x)) Hin).
      * rewrite map_length. destruct x; reflexivity.
      * apply NoDup_map_in; [congruence|]. destruct x; repeat (constructor; [cbn; intuition discriminate|]); constructor.
      * intros y n. rewrite (Hat i N x Hi). split.
        -- intro H. apply in_map_iff in H. destruct H as [n' [E H]]. injection E as <- <-. exists (Fin k). apply Hbond. auto.
        -- intros [z H]. apply Hbond in H. destruct H as (_ & -> & H & _). apply in_map. auto.
Qed.


(** The same for the lattices built by [honeycomb] and [graphene], with a lattice constant of at most six decimals. *)
Corollary C111_honeycomb :
  forall query argsort norms inv sqrt3 a k s l sh pos check callback I P o L axes,
    correct_tree query -> is_argsort dleb argsort -> inverts inv 2 ->
    (1000 < k)%Z -> (a * 1000000 == inject_Z k)%Q -> (a <= 1000000)%Q -> (Qabs (sqrt3 * sqrt3 - 3) <= 1 # 1000000000000)%Q ->
    ((exists at1, honeycomb query inv sqrt3 a at1 = Ok s) \/ (exists count, graphene query inv sqrt3 a count = Ok s)) -> lt_structure l = s ->
    length norms = 2 -> fitting 2 sh true pos ->
    build_indices (hexagonal inv sqrt3 a) norms [[0; 0]; [a; 0]]%Q (AShape (build_shape (hexagonal inv sqrt3 a) sh true pos)) true pos check callback = Ok (I, P) ->
    (forall k, k < 2 -> (1 <= nth k L 0)%Z) ->
    (forall t, In t I <-> exists n x, t = n ++ [Z.of_nat x] /\ length n = 2 /\ box 2 o L n /\ x < 2) ->
    NoDup axes -> (forall k, In k axes -> k < 2 /\ (3 <= nth k L 0)%Z) ->
    exists l' dt, build query argsort norms l sh true pos check None (Some (AxList axes)) callback = (l', Ok tt) /\
      lt_structure l' = s /\ lt_data l' = Some dt /\ wf dt /\ d_indices dt = I /\ d_positions dt = P /\
      forall i N x, nth_error I i = Some (N ++ [Z.of_nat x]) ->
        NoDup (map s_nbr (slots dt i)) /\ (forall e, In e (slots dt i) -> s_dist e = Fin k) /\
        (forall j, In j (map s_nbr (slots dt i)) <->
           exists n, In n (three_cells x) /\ nth_error I j = Some (wrapped axes o L (map2 Z.add n N) ++ [Z.of_nat (1 - x)])) /\
        ((forall k, k < 2 -> In k axes) -> length (slots dt i) = 3).
Proof.
  intros query argsort norms inv q a k s l sh pos check callback I P o L axes Hq Harg I2 Hk Ek Ha He Hs El Hnorms Hfit EI HL HI HN Hax.
  destruct (six_decimals q a k Hk Ek Ha He) as [H1 H2]. apply Qabs_Qle_condition in He.
  assert (1000 < inject_Z k)%Q as Hx by (change 1000%Q with (inject_Z 1000); rewrite <- Zlt_Qlt; auto).
  assert ((1#1000) < a)%Q as Ha' by lra. assert ((299#100) <= q * q <= (301#100))%Q as Hq2 by lra.
  assert (exists s0, analyze query s0 = (s, Ok tt) /\ in_step s0 /\ st_basis s0 = hexagonal inv q a /\ st_positions s0 = [[0; 0]; [a; 0]]%Q /\
            st_connections s0 = Some [[0; 1]; [1; 0]]) as [s0 [Han [Hst [Eb [ER Ec]]]]].
  { destruct Hs as [[at1 E]|[count E]].
    - destruct (two_sites_analysed query inv q a at1 at1 (RIndex 0) (RIndex 1) I2 Ha' Hq2) as [s0 [s' [E' X]]]; [intros; split; reflexivity|].
      unfold honeycomb in E. rewrite E' in E. injection E as ->. exists s0. tauto.
    - unfold graphene in E. cbv zeta in E. edestruct two_sites_analysed as [s0 [s' [E' X]]]; [exact I2|exact Ha'|exact Hq2| |erewrite E' in E; injection E as ->; exists s0; tauto].
      intros s1 Es. unfold get_alpha. rewrite Es. split; reflexivity. }
  destruct (C111_torus query argsort norms inv q a k s0 s l sh pos check callback I P o L axes) as (l' & dt & C); auto.
  exists l', dt. exact C.
Qed.

(** The sites of a block of three by three cells. *)
Definition torus_indices : list (list Z) :=
  flat_map (fun n1 => flat_map (fun n2 => [[n1; n2; 0]; [n1; n2; 1]]) [0; 1; 2])%Z [0; 1; 2]%Z.

(** Graphene on a torus of 3 by 3 cells: eighteen atoms with three neighbours each. *)
Example C111_honeycomb_example :
  correct_tree brute /\ is_argsort dleb dist_argsort /\ inverts inverse_small 2 /\ (1000 < 1420000)%Z /\
  ((142#100) * 1000000 == inject_Z 1420000)%Q /\ ((142#100) <= 1000000)%Q /\ (Qabs (sqrt3_double * sqrt3_double - 3) <= 1 # 1000000000000)%Q /\
  fitting 2 (ASize [5#2; 5#2]%Q) true None /\
  (forall t, In t torus_indices <-> exists n x, t = n ++ [Z.of_nat x] /\ length n = 2 /\ box 2 [0; 0]%Z [3; 3]%Z n /\ x < 2) /\
  exists s P l' dt, graphene brute inverse_small sqrt3_double (142#100) 7 = Ok s /\
    build_indices (hexagonal inverse_small sqrt3_double (142#100)) [246#100; 246#100]%Q [[0; 0]; [142#100; 0]]%Q
      (AShape (build_shape (hexagonal inverse_small sqrt3_double (142#100)) (ASize [5#2; 5#2]%Q) true None)) true None true None = Ok (torus_indices, P) /\
    build brute dist_argsort [246#100; 246#100]%Q (new_lattice s) (ASize [5#2; 5#2]%Q) true None true None (Some (AxList [0; 1])) None = (l', Ok tt) /\ lt_data l' = Some dt /\
    map (fun i => map s_nbr (slots dt i)) [0; 1; 8; 17] = [[1; 5; 13]; [2; 6; 0]; [3; 7; 9]; [16; 4; 12]] /\
    forall i e, i < 18 -> In e (slots dt i) -> s_dist e = Fin 1420000.
Proof.
  split; [exact brute_nearest|]. split; [exact dist_argsort_ok|]. split; [exact inverse_small_2|]. split; [reflexivity|]. split; [reflexivity|].
  split; [apply Qle_bool_imp_le; reflexivity|]. split; [apply Qle_bool_imp_le; vm_compute; reflexivity|].
  split; [split; [discriminate|reflexivity]|]. split.
  { intro t. split.
    - intro Ht. cbn in Ht. repeat (destruct Ht as [<-|Ht]; [match goal with |- exists n a, [?x; ?y; ?z] = _ /\ _ => exists [x; y], (Z.to_nat z) end;
        split; [reflexivity|]; split; [reflexivity|]; split; [|cbn; lia]; intros [|[|k]] Hk; cbn; lia|]). destruct Ht.
    - intros [n [a [-> [Hn [Hb Ha]]]]]. destruct n as [|n1 [|n2 [|? ?]]]; try discriminate.
      pose proof (Hb 0 ltac:(lia)) as B1. pose proof (Hb 1 ltac:(lia)) as B2. cbn in B1, B2.
      assert (n1 = 0 \/ n1 = 1 \/ n1 = 2)%Z as [-> | [-> | ->]] by lia; assert (n2 = 0 \/ n2 = 1 \/ n2 = 2)%Z as [-> | [-> | ->]] by lia;
        (destruct a as [|[|a]]; [| |lia]); cbn; tauto. }
  do 4 eexists. split; [vm_compute; reflexivity|]. split; [vm_compute; reflexivity|]. split; [vm_compute; reflexivity|]. split; [reflexivity|].
  split; [vm_compute; reflexivity|].
  match goal with |- forall i e, i < 18 -> In e (slots ?d i) -> _ =>
    assert (forallb (fun i => forallb (fun e => match s_dist e with Fin z => Z.eqb z 1420000 | _ => false end) (slots d i)) (seq 0 18) = true) as H by (vm_compute; reflexivity) end.
  intros i e Hi He. rewrite forallb_forall in H. specialize (H i ltac:(apply in_seq; lia)). rewrite forallb_forall in H. specialize (H e He).
  destruct (s_dist e); [|discriminate]. apply Z.eqb_eq in H. congruence.
Qed.

(** A lattice constant that is rounded: the general theorem, periodic along one axis only (a tube). *)
Example C111_torus_example :
  let a := (7#3)%Q in
  ((1#1000) < a)%Q /\ ((299#100) <= sqrt3_double * sqrt3_double <= (301#100))%Q /\
  rounds_to_micro (a * a)%Q 2333333 /\ rounds_to_micro (a * a * ((1 + sqrt3_double * sqrt3_double) * (1#4)))%Q 2333333 /\
  exists s l' dt, honeycomb brute inverse_small sqrt3_double a (ex_atom "C") = Ok s /\
    build brute dist_argsort [404#100; 404#100]%Q (new_lattice s) (ASize [5#2; 1#2]%Q) true None true None (Some (AxList [0])) None = (l', Ok tt) /\ lt_data l' = Some dt /\
    d_indices dt = [[0; 0; 0]; [0; 0; 1]; [1; 0; 0]; [1; 0; 1]; [2; 0; 0]; [2; 0; 1]]%Z /\
    map (fun i => map s_nbr (slots dt i)) (seq 0 6) = [[1; 5]; [2; 0]; [1; 3]; [4; 2]; [3; 5]; [4; 0]].
Proof.
  split; [reflexivity|]. split; [split; apply Qle_bool_imp_le; reflexivity|].
  split; [change 2333333%Z with (sqrt_micro ((7#3) * (7#3))); apply sqrt_micro_rounds; vm_compute; discriminate|].
  split; [replace 2333333%Z with (sqrt_micro ((7#3) * (7#3) * ((1 + sqrt3_double * sqrt3_double) * (1#4)))) by (vm_compute; reflexivity); apply sqrt_micro_rounds; vm_compute; discriminate|].
  do 3 eexists. split; [vm_compute; reflexivity|]. split; [vm_compute; reflexivity|]. split; [reflexivity|]. split; vm_compute; reflexivity.
Qed.

Print Assumptions C111_torus.
Print Assumptions C111_honeycomb.
