(** * Property C108 (lattpy/lattice.py: build; the honeycomb lattice) *)
From Coq Require Import String List ZArith QArith Qabs Bool Arith Lia Lqa Permutation Sorting.Sorted.
From Verif Require Import Np NpFacts LinAlg LinFacts SpecUtils UtilsModel UtilsProofs SpecBasis AtomModel BasisModel BasisProofs
  NeighborCellProofs PropBasis SpatialModel SpecSpatial SpatialProofs KDProofs SpecStructure SpecBuild ShapeModel ShapeProofs PropShape PropSpatial StructureModel KDBrute RoundFacts StructureFacts
  DataModel SpecData DataFacts DataProofs PropData AnalyzeProofs StructureProofs PropStructure PropAnalyze FilterProofs SpecNeighbors
  NeighborProofs RadiusProofs RangeProofs PropNeighbors BuiltProofs BuildProofs PropBuild LatticeModel LatticeExamples PropFailed SpecGrid GridProofs
  PropBuilt PropReciprocal PresetModel PropPreset PropPrimitive PropGrid SpecShell ShellProofs PropShell PropForm PropFormBuilt HoneycombModel PropHoneycomb.
Import ListNotations.
Open Scope nat_scope.
Open Scope list_scope.

Lemma two_points d V r r' n m : length r = d -> length r' = d -> length n = d -> length m = d ->
  (sqdist (lattice_point d V r n) (lattice_point d V r' m) == sqdist r (lattice_point d V r' (map2 Z.sub m n)))%Q.
Proof.
  intros Hr Hr' Hn Hm. unfold sqdist. rewrite lattice_point_length, Hr. apply sum_ext. intros i Hi. rewrite !nth_lattice_point by auto. cbv zeta.
  assert (sum_upto d (fun k => entry V i k * inject_Z (nth k (map2 Z.sub m n) 0%Z)) ==
          sum_upto d (fun k => entry V i k * inject_Z (nth k m 0%Z)) + -(1) * sum_upto d (fun k => entry V i k * inject_Z (nth k n 0%Z)))%Q as ->; [|ring].
  rewrite <- sum_scale, <- sum_plus. apply sum_ext. intros k Hk. rewrite nth_zsub by lia. unfold Z.sub. rewrite inject_Z_plus, inject_Z_opp. ring.
Qed.

Lemma sub_add (n m : list Z) : length n = length m -> m = map2 Z.add (map2 Z.sub m n) n.
Proof. revert m. induction n as [|x n IH]; intros [|y m] H; cbn in *; try discriminate; auto. f_equal; [lia|apply IH; lia]. Qed.

Lemma add_sub (n m : list Z) : length n = length m -> map2 Z.sub (map2 Z.add n m) m = n.
Proof. revert m. induction n as [|x n IH]; intros [|y m] H; cbn in *; try discriminate; auto. f_equal; [lia|apply IH; lia]. Qed.

(** ** The distances *)

(** The cells of the three neighbours of a site of kind [x]; they are of the other kind. *)
Definition three_cells (x : nat) : list (list Z) := [0; 0]%Z :: bent_cells x.

Lemma three_length x n : In n (three_cells x) -> length n = 2.
Proof. unfold three_cells. destruct x; cbn; intuition (subst; reflexivity). Qed.

Section Distances.
  Variables (inv : mat -> mat) (s a : Q) (k : Z).
  Hypothesis Ha : ((1#1000) < a)%Q.
  Hypothesis Hs : ((299#100) <= s * s <= (301#100))%Q.
  Let V := b_mat (hexagonal inv s a).
  Let R := [[0; 0]; [a; 0]]%Q.
  Let D x y n := sqdist (nth x R []) (lattice_point 2 V (nth y R []) n).
  Hypothesis H1 : rounds_to_micro (a * a)%Q k.
  Hypothesis H2 : rounds_to_micro (a * a * ((1 + s * s) * (1#4)))%Q k.

  Lemma three_reach x n : In n (three_cells x) -> in_reach 2 V 1 n.
  Proof.
    intro H. apply hex_reach; auto. destruct H as [<-|H]; [left; reflexivity|]. right. left. destruct x; cbn in H; destruct H as [<-|[<-|[]]]; cbn; auto.
  Qed.

  Lemma three_cases x y n : x < 2 -> y < 2 -> length n = 2 ->
    (x = y /\ n = [0; 0]%Z /\ (D x y n == 0)%Q \/ y = 1 - x /\ In n (three_cells x) /\ rounds_to_micro (D x y n) k /\ (0 < D x y n)%Q \/
     ~ (y = 1 - x /\ In n (three_cells x)) /\ ~ (x = y /\ n = [0; 0]%Z) /\ ((5#2) * (a * a) <= D x y n)%Q).
  Proof.
    intros Hx Hy Hn. pose proof (aa_pos _ a Ha Hs) as A. assert ((299#100) * (a * a) <= a * a * (s * s))%Q as B by nra.
    destruct (Nat.eq_dec y x) as [->|Hne].
    - assert (D x x n == cell_sq 2 V n)%Q as E by (apply own_distance; destruct x as [|[|x]]; [reflexivity|reflexivity|lia]).
      destruct (hex_lengths inv s a Ha Hs n Hn) as [[-> E']|C].
      + left. split; auto. split; auto. rewrite E. exact E'.
      + right. right. split; [lia|].
        assert ((5#2) * (a * a) <= D x x n)%Q as C' by (rewrite E; unfold V; destruct C as [[_ C]|[[_ C]|[_ [_ C]]]]; [rewrite C| rewrite C|]; lra).
        split; auto. intros [_ ->]. unfold V in E. rewrite hex_sq in E. change (inject_Z ((0 + 0) * (0 + 0))) with 0%Q in E. change (inject_Z ((0 - 0) * (0 - 0))) with 0%Q in E. lra.
    - assert (y = 1 - x) as -> by lia. right. destruct (honey_lengths inv s a Ha Hs x n Hx Hn) as [[I E]|[[I E]|[N1 [N2 E]]]]; fold V R in E; fold (D x (1 - x) n) in E.
      + left. split; auto. destruct I as [<-|[]]. split; [left; auto|]. split; [eapply rounds_ext; [symmetry; exact E|exact H1]|]. rewrite E. lra.
      + left. split; auto. split; [right; auto|]. split; [eapply rounds_ext; [symmetry; exact E|exact H2]|]. rewrite E. lra.
      + right. split; [|split; auto; lia]. intros [_ [I|I]]; [apply N1; left; auto|contradiction].
  Qed.

  Lemma k_large : (500 <= k)%Z.
  Proof.
    pose proof (aa_pos _ a Ha Hs) as A. destruct H1 as [_ [H _]]. cbv zeta in H. apply Znot_gt_le. intro G.
    assert (inject_Z k <= 500)%Q as G' by (change 500%Q with (inject_Z 500); rewrite <- Zle_Qle; lia).
    assert (0 <= inject_Z k)%Q by (change 0%Q with (inject_Z 0); rewrite <- Zle_Qle; apply H1). nra.
  Qed.

  (** The search radius, 1.1 times the rounded distance, ends before the next sites. *)
  Lemma radius_small r : (r == (inject_Z k + (1#10) * inject_Z k) * (1#1000000))%Q -> (r * r < (5#2) * (a * a))%Q.
  Proof.
    intro E. rewrite E. pose proof (aa_pos _ a Ha Hs) as A. pose proof k_large as K. destruct H1 as [_ [_ [H _]]]. cbv zeta in H. specialize (H ltac:(lia)).
    assert (500 <= inject_Z k)%Q as K' by (change 500%Q with (inject_Z 500); rewrite <- Zle_Qle; lia). set (x := inject_Z k) in *. nra.
  Qed.
End Distances.

(** What the analysis of the two connected sites yields: the only distance of neighbours, the search radius and the number of points asked for. *)
Lemma honey_analysed query inv q a k s s' :
  correct_tree query -> inverts inv 2 -> ((1#1000) < a)%Q -> ((299#100) <= q * q <= (301#100))%Q ->
  rounds_to_micro (a * a)%Q k -> rounds_to_micro (a * a * ((1 + q * q) * (1#4)))%Q k ->
  analyze query s = (s', Ok tt) -> in_step s -> st_basis s = hexagonal inv q a -> st_positions s = [[0; 0]; [a; 0]]%Q -> st_connections s = Some [[0; 1]; [1; 0]] ->
  let V := b_mat (hexagonal inv q a) in
  let R := [[0; 0]; [a; 0]]%Q in
  exists an r cells, st_analysis s' = Some an /\ query_radius an = Some r /\ (r * r < (5#2) * (a * a))%Q /\
    get_neighbor_cells (hexagonal inv q a) (2 * 1) true Qle_bool = Some cells /\
    (forall x y z, x < 2 -> y < 2 -> among_first (nth y (nth x [[0; 1]; [1; 0]] []) 0) (occurs 2 V R cells x y) z <-> y = 1 - x /\ z = Fin k) /\
    (forall x y w, x < 2 -> y < 2 -> occurs 2 V R cells x y (Fin w) -> (k <= w)%Z) /\ 4 <= query_count an.
Proof.
  intros Hq I2 Ha Hs H1 H2 Han Hst Eb ER Ec V R.
  pose proof (hexagonal_valid inv q a Ha Hs I2) as Hb. assert (b_dim (hexagonal inv q a) = 2) as Hd by reflexivity.
  pose proof (aa_pos _ a Ha Hs) as A. pose proof (k_large q a k Ha Hs H1) as K.
  set (D := fun x y n => sqdist (nth x R []) (lattice_point 2 V (nth y R []) n)).
  assert (forall x y n, x < 2 -> y < 2 -> length n = 2 ->
    (x = y /\ n = [0; 0]%Z /\ (D x y n == 0)%Q \/ y = 1 - x /\ In n (three_cells x) /\ rounds_to_micro (D x y n) k /\ (0 < D x y n)%Q \/
     ~ (y = 1 - x /\ In n (three_cells x)) /\ ~ (x = y /\ n = [0; 0]%Z) /\ ((5#2) * (a * a) <= D x y n)%Q)) as Hcases
    by (intros x y n Hx Hy Hn; exact (three_cases inv q a k Ha Hs H1 H2 x y n Hx Hy Hn)).
  assert (forall r, In r R -> length r = 2) as HRl by (intros r' [<-|[<-|[]]]; reflexivity).
  assert (forall x r, nth_error R x = Some r -> x < 2 /\ nth x R [] = r /\ length r = 2) as HRn.
  { intros x r E. pose proof (nth_error_In _ _ E). pose proof (nth_error_length_lt _ _ _ E) as X. cbn [R length] in X. split; auto. split; auto. exact (nth_of_nth_error _ _ _ _ E). }
  (* the analysis *)
  assert (exists an, st_analysis s' = Some an) as [an Ean].
  { destruct (analysed_table query s s') as [conns' [cells [_ [_ [_ [_ [_ [_ [_ Es]]]]]]]]]; auto; [rewrite Eb; auto|rewrite Eb, Hd; lia|]. rewrite Es. cbn. eauto. }
  destruct (C70_search_range query s s' _ an Hq ltac:(rewrite Eb; auto) ltac:(rewrite Eb, Hd; lia) Hst Ec Han Ean) as [m [cells [Hm1 [Hm2 [Ecells [Hrad [Hdef [found [Hf1 [Hf2 Hf3]]]]]]]]]].
  rewrite Eb, Hd, ER in Hrad. rewrite Eb, Hd, ER in Hdef. rewrite Eb, Hd, ER in Hf3. rewrite Eb in Ecells. fold V in Hrad, Hdef, Hf3.
  assert (m = 1) as ->.
  { destruct Hm2 as [x [y E]]. pose proof (Hm1 0 1) as X. cbn in X. destruct x as [|[|[|x]]], y as [|[|[|y]]]; cbn in E; lia. }
  assert (forall n, In n cells <-> in_reach 2 V 1 n) as Hreach by (intro n; apply (reach_cells (hexagonal inv q a) 1 cells Hb ltac:(lia) Ecells)).
  assert (forall n, In n cells -> length n = 2) as Hcl by (intros n H; apply Hreach in H; apply H).
  assert (forall x n, In n (three_cells x) -> In n cells) as H3c by (intros x n H; apply Hreach; eapply three_reach; eauto).
  assert (forall x n, In n (three_cells x) -> x < 2 -> rounds_to_micro (D x (1 - x) n) k) as H3k.
  { intros x n H Hx. destruct (Hcases x (1 - x) n Hx ltac:(lia) (three_length x n H)) as [[C _]|[[_ [_ [C _]]]|[C _]]]; [lia|auto|exfalso; auto]. }
  assert (forall x z, x < 2 -> among_first 1 (occurs 2 V R cells x (1 - x)) z <-> z = Fin k) as Hfirst.
  { intros x z Hx.
    assert (forall n w, (away 2 V R x (1 - x) n w /\ exists i, i < 1 /\ ranked (distance_between 2 V R x (1 - x)) i w) <-> w = k /\ In n (three_cells x)) as F.
    { intros n w. pose proof (honey_first inv q a Ha Hs x k k n w Hx H1 H2) as F. unfold closer_cells in F. rewrite Z.compare_refl, Z.min_id in F. rewrite <- F.
      unfold true_neighbor. fold V R. replace (nth (1 - x) (nth x [[0; 1]; [1; 0]] []) 0) with 1 by (destruct x as [|[|x]]; [reflexivity|reflexivity|lia]). reflexivity. }
    pose proof (first_distances query (hexagonal inv q a) R 1 Hq Hb ltac:(lia) ltac:(intros; rewrite Hd; auto) cells Ecells x (1 - x) 1 ltac:(cbn [R length]; lia) ltac:(cbn [R length]; lia)) as G.
    rewrite Hd in G. fold V in G. specialize (G ltac:(intros n w i E1 E2 E3; apply (H3c x); apply (proj1 (F n w)); eauto)).
    split.
    - intro H. assert (exists w, z = Fin w) as [w ->].
      { destruct H as [L [_ [HL [i [_ Ei]]]]]. apply nth_error_In, HL in Ei. destruct Ei as [_ [n [_ [w [-> _]]]]]. eauto. }
      apply G in H. destruct H as [i [Hi Hr]]. pose proof Hr as [[_ [n Hn]] _]. f_equal. apply (proj1 (F n w)). eauto.
    - intros ->. apply G. apply (proj2 (F [0; 0]%Z k)). split; auto. left. auto. }
  set (allowed := fun x y => among_first (nth y (nth x [[0; 1]; [1; 0]] []) 0) (occurs 2 V R cells x y)).
  assert (forall x y z, x < 2 -> y < 2 -> allowed x y z <-> y = 1 - x /\ z = Fin k) as Hallowed.
  { intros x y z Hx Hy. unfold allowed. destruct (Nat.eq_dec y (1 - x)) as [->|Hne].
    - replace (nth (1 - x) (nth x [[0; 1]; [1; 0]] []) 0) with 1 by (destruct x as [|[|x]]; [reflexivity|reflexivity|lia]). rewrite Hfirst by auto. tauto.
    - assert (y = x) as -> by lia. replace (nth x (nth x [[0; 1]; [1; 0]] []) 0) with 0 by (destruct x as [|[|x]]; [reflexivity|reflexivity|lia]).
      split; [intros [L [_ [_ [i [Hi _]]]]]; lia|lia]. }
  assert (forall x y w, x < 2 -> y < 2 -> occurs 2 V R cells x y (Fin w) -> (k <= w)%Z) as Hleast.
  { intros x y w Hx Hy [Hne [n [Hn [w' [E Hw]]]]]. injection E as <-. fold (D x y n) in Hw. destruct (Hcases x y n Hx Hy (Hcl n Hn)) as [[_ [_ C]]|[[_ [_ [C _]]]|[_ [_ C]]]].
    - exfalso. apply Hne. f_equal. eapply rounds_zero; eauto.
    - assert (w = k) by (eapply rounds_unique; [exact Hw|exact C|reflexivity]). lia.
    - assert (k < w)%Z by (eapply rounds_gap; [exact H1|exact Hw|lia|lra]). lia. }
  assert (forall x, x < 2 -> occurs 2 V R cells x (1 - x) (Fin k)) as Hocc.
  { intros x Hx. split; [intro E; injection E; lia|]. exists [0; 0]%Z. split; [apply (H3c x); left; auto|]. exists k. split; auto. apply H3k; auto. left. auto. }
  (* the radius *)
  destruct (query_radius an) as [r|] eqn:Er.
  2:{ exfalso. apply Hdef; auto. intros x y Hx Hy. cbn [R length] in Hx, Hy. destruct (Nat.eq_dec y (1 - x)) as [->|Hne].
      - exists [Fin k]. split; [repeat constructor; auto|]. split; auto. intros z [<-|[]]. auto.
      - assert (y = x) as -> by lia. assert (0 <= D x x [1; 0]%Z)%Q as D0.
        { destruct (Hcases x x [1; 0]%Z Hx Hx eq_refl) as [[_ [C _]]|[[C _]|[_ [_ C]]]]; [discriminate C|lia|lra]. }
        pose proof (sqrt_micro_rounds (D x x [1; 0]%Z) D0) as Hr.
        exists [Fin (sqrt_micro (D x x [1; 0]%Z))]. split; [repeat constructor; auto|]. split; auto. intros z [<-|[]]. split.
        + intro E. injection E as E. assert (10 <= sqrt_micro (D x x [1; 0]%Z))%Z; [|lia]. eapply rounds_ten; [|exact Hr].
          destruct (Hcases x x [1; 0]%Z Hx Hx eq_refl) as [[_ [C _]]|[[C _]|[_ [_ C]]]]; [discriminate C|lia|lra].
        + exists [1; 0]%Z. split; [apply Hreach, hex_reach; auto; right; left; cbn; auto|]. eexists. split; [reflexivity|exact Hr]. }
  assert (r * r < (5#2) * (a * a))%Q as Hr.
  { apply (radius_small q a k Ha Hs H1). destruct (Hrad r eq_refl) as [mx [mn [E [Hmx [Hmx' [Hmn Hmn']]]]]]. fold allowed in Hmx, Hmx'.
    assert (mx = k) as ->.
    { assert (k <= mx)%Z as X by (apply (Hmx' 0 1); [cbn; lia|cbn; lia|apply Hallowed; auto]).
      destruct Hmx as [->|[x [y [Hx [Hy Hxy]]]]]; [lia|]. apply Hallowed in Hxy; auto. destruct Hxy as [_ E']. injection E'. auto. }
    assert (mn = k) as ->.
    { assert (mn <= k)%Z as X by (apply (Hmn' 0 1); [cbn; lia|cbn; lia|apply (Hocc 0); lia]).
      destruct Hmn as [x [y [Hx [Hy Hxy]]]]. apply Hleast in Hxy; auto. lia. }
    exact E. }
  exists an, r, cells. split; [exact Ean|]. split; [exact Er|]. split; [exact Hr|]. split; [exact Ecells|]. split; [exact Hallowed|]. split; [exact Hleast|].
  rewrite Hf2. apply le_n_S. change 3 with (length (map (fun c => (0, 1, c)) (three_cells 0))). apply NoDup_incl_length.
  - apply NoDup_map_in; [congruence|]. repeat (constructor; [cbn; intuition discriminate|]); constructor.
  - intros u Hu. apply in_map_iff in Hu. destruct Hu as [c [<- Hc]]. apply Hf3. split; [cbn; lia|]. split; [cbn; lia|]. split; [eapply H3c; eauto|].
    exists (Fin k). split; [exists k; split; auto; apply (H3k 0); auto|]. apply (Hfirst 0); auto.
Qed.

Theorem C108_built :
  forall query argsort norms inv sqrt3 a k s s' l sh primitive pos check callback I P,
    correct_tree query -> is_argsort dleb argsort -> inverts inv 2 -> ((1#1000) < a)%Q -> ((299#100) <= sqrt3 * sqrt3 <= (301#100))%Q ->
    rounds_to_micro (a * a)%Q k -> rounds_to_micro (a * a * ((1 + sqrt3 * sqrt3) * (1#4)))%Q k ->
    analyze query s = (s', Ok tt) -> in_step s -> st_basis s = hexagonal inv sqrt3 a -> st_positions s = [[0; 0]; [a; 0]]%Q ->
    st_connections s = Some [[0; 1]; [1; 0]] -> lt_structure l = s' ->
    (primitive = true -> length norms = 2) -> fitting 2 sh primitive pos ->
    build_indices (hexagonal inv sqrt3 a) norms [[0; 0]; [a; 0]]%Q (AShape (build_shape (hexagonal inv sqrt3 a) sh primitive pos)) primitive pos check callback = Ok (I, P) ->
    I <> [] ->
    exists l' dt, build query argsort norms l sh primitive pos check None None callback = (l', Ok tt) /\
      lt_structure l' = s' /\ lt_data l' = Some dt /\ wf dt /\ d_indices dt = I /\ d_positions dt = P /\
      forall i N x, nth_error I i = Some (N ++ [Z.of_nat x]) -> NoDup (map fst (links dt i)) /\
        forall j y, In (j, y) (links dt i) <->
          y = Fin k /\ exists n, In n (three_cells x) /\ nth_error I j = Some (map2 Z.add n N ++ [Z.of_nat (1 - x)]).
Proof.
  intros query argsort norms inv q a k s s' l sh primitive pos check callback I P Hq Harg I2 Ha Hs H1 H2 Han Hst Eb ER Ec El Hnorms Hfit EI HI.
  pose proof (hexagonal_valid inv q a Ha Hs I2) as Hb. assert (b_dim (hexagonal inv q a) = 2) as Hd by reflexivity.
  pose proof (aa_pos _ a Ha Hs) as A. pose proof (k_large q a k Ha Hs H1) as K.
  set (V := b_mat (hexagonal inv q a)) in *. set (R := [[0; 0]; [a; 0]]%Q) in *.
  set (D := fun x y n => sqdist (nth x R []) (lattice_point 2 V (nth y R []) n)).
  assert (forall x y n, x < 2 -> y < 2 -> length n = 2 ->
    (x = y /\ n = [0; 0]%Z /\ (D x y n == 0)%Q \/ y = 1 - x /\ In n (three_cells x) /\ rounds_to_micro (D x y n) k /\ (0 < D x y n)%Q \/
     ~ (y = 1 - x /\ In n (three_cells x)) /\ ~ (x = y /\ n = [0; 0]%Z) /\ ((5#2) * (a * a) <= D x y n)%Q)) as Hcases
    by (intros x y n Hx Hy Hn; exact (three_cases inv q a k Ha Hs H1 H2 x y n Hx Hy Hn)).
  assert (forall r, In r R -> length r = 2) as HRl by (intros r' [<-|[<-|[]]]; reflexivity).
  assert (forall x r, nth_error R x = Some r -> x < 2 /\ nth x R [] = r /\ length r = 2) as HRn.
  { intros x r E. pose proof (nth_error_In _ _ E). pose proof (nth_error_length_lt _ _ _ E) as X. cbn [R length] in X. split; auto. split; auto. exact (nth_of_nth_error _ _ _ _ E). }
  (* the analysis *)
  destruct (honey_analysed query inv q a k s s' Hq I2 Ha Hs H1 H2 Han Hst Eb ER Ec) as (an & r & cells & Ean & Er & Hr & Ecells & Hallowed & Hleast & Hcount).
  fold V R in Hallowed, Hleast. set (allowed := fun x y => among_first (nth y (nth x [[0; 1]; [1; 0]] []) 0) (occurs 2 V R cells x y)) in *.
  change (forall x y z, x < 2 -> y < 2 -> allowed x y z <-> y = 1 - x /\ z = Fin k) in Hallowed.
  assert (forall x n, In n (three_cells x) -> x < 2 -> rounds_to_micro (D x (1 - x) n) k) as H3k.
  { intros x n H Hx. destruct (Hcases x (1 - x) n Hx ltac:(lia) (three_length x n H)) as [[C _]|[[_ [_ [C _]]]|[C _]]]; [lia|auto|exfalso; auto]. }
  (* the sites *)
  destruct (C31_indices_and_positions_aligned _ _ _ _ _ _ _ _ _ _ Hb Hnorms HRl EI) as [Hlen [Hal _]]. rewrite Hd in Hal. fold V in Hal.
  assert (forall i, i < length P -> exists n x p, nth_error I i = Some (n ++ [Z.of_nat x]) /\ nth_error P i = Some p /\ length n = 2 /\ x < 2 /\
            same p (lattice_point 2 V (nth x R []) n)) as Hsite.
  { intros i Hi. destruct (nth_error_lt I i) as [t Ht]; [lia|]. destruct (nth_error_lt P i) as [p Hp]; [lia|].
    destruct (Hal i t p Ht Hp) as [n [x [r' [-> [Hn [Hr' Hsame]]]]]]. destruct (HRn x r' Hr') as [Hx [E _]]. exists n, x, p. rewrite E. auto. }
  assert (forall i n x p, nth_error I i = Some (n ++ [Z.of_nat x]) -> nth_error P i = Some p -> length n = 2 /\ x < 2 /\ same p (lattice_point 2 V (nth x R []) n)) as Hsite'.
  { intros i n x p Hi Hp. destruct (Hsite i (nth_error_length_lt _ _ _ Hp)) as [n' [x' [p' [E1 [E2 [X1 [X2 X3]]]]]]]. rewrite Hi in E1. rewrite Hp in E2.
    injection E1 as E1. injection E2 as <-. apply app_inj_tail in E1. destruct E1 as [<- E1]. apply Nat2Z.inj in E1. subst x'. auto. }
  assert (forall i j n m x y p t, nth_error I i = Some (n ++ [Z.of_nat x]) -> nth_error I j = Some (m ++ [Z.of_nat y]) -> nth_error P i = Some p -> nth_error P j = Some t ->
            length (map2 Z.sub m n) = 2 /\ (sqdist p t == D x y (map2 Z.sub m n))%Q) as Hsq.
  { intros i j n m x y p t Hi Hj Hp Ht. destruct (Hsite' i n x p Hi Hp) as [Hn [Hx S1]], (Hsite' j m y t Hj Ht) as [Hm [Hy S2]].
    assert (length (map2 Z.sub m n) = 2) as Hl by (rewrite map2_length; lia). split; auto.
    rewrite (sqdist_veq p t _ _ (proj1 (same_veq _ _) S1) (proj1 (same_veq _ _) S2)). apply two_points; auto; apply HRl, nth_In; auto. }
  pose proof (C33_no_site_twice _ _ _ _ _ _ _ _ _ _ Hb Hnorms HRl EI) as HNI.
  assert (forall i n x p j, nth_error I i = Some (n ++ [Z.of_nat x]) -> nth_error P i = Some p -> within P p (r * r)%Q j ->
            j = i \/ exists c, In c (three_cells x) /\ nth_error I j = Some (map2 Z.add c n ++ [Z.of_nat (1 - x)])) as Hnear.
  { intros i n x p j Hi Hp [t [Ht Hle]]. destruct (Hsite j (nth_error_length_lt _ _ _ Ht)) as [m [y [t' [Hj [_ [Hm [Hy _]]]]]]].
    destruct (Hsite' i n x p Hi Hp) as [Hn [Hx _]]. destruct (Hsq i j n m x y p t Hi Hj Hp Ht) as [Hl Hd2]. rewrite Hd2 in Hle.
    assert (m = map2 Z.add (map2 Z.sub m n) n) as Em by (apply sub_add; lia).
    destruct (Hcases x y (map2 Z.sub m n) Hx Hy Hl) as [[-> [C _]]|[[-> [C _]]|[_ [_ C]]]].
    - left. rewrite C in Em. assert (m = n) as -> by (rewrite Em; clear - Hn; destruct n as [|n1 [|n2 [|]]]; try discriminate Hn; reflexivity).
      rewrite NoDup_nth_error in HNI. apply HNI; [eapply nth_error_length_lt; eauto|congruence].
    - right. exists (map2 Z.sub m n). split; auto. rewrite <- Em. auto.
    - lra. }
  (* not too many *)
  assert (forall p, In p P -> at_most (query_count an) (within P p (r * r)%Q)) as Hroom.
  { intros p Hp L HL1 HL2. apply In_nth_error in Hp. destruct Hp as [i Hp]. destruct (Hsite i (nth_error_length_lt _ _ _ Hp)) as [n [x [_ [Hi [_ [Hn [Hx _]]]]]]].
    apply Nat.le_trans with 4; [|exact Hcount].
    - set (t := fun j => nth j I []).
      assert (length ((n ++ [Z.of_nat x]) :: map (fun c => map2 Z.add c n ++ [Z.of_nat (1 - x)]) (three_cells x)) = 4) as <- by (destruct x; reflexivity).
      rewrite <- (map_length t L).
      apply NoDup_incl_length.
      + apply NoDup_map_in; auto. intros j j' Hj Hj' E. destruct (HL2 j Hj) as [p1 [Q1 _]], (HL2 j' Hj') as [p2 [Q2 _]].
        rewrite NoDup_nth in HNI. apply (HNI j j'); [rewrite Hlen; eapply nth_error_length_lt; eauto|rewrite Hlen; eapply nth_error_length_lt; eauto|exact E].
      + intros u Hu. apply in_map_iff in Hu. destruct Hu as [j [<- Hj]]. destruct (Hnear i n x p j Hi Hp (HL2 j Hj)) as [->|[c [Hc Ej]]].
        * left. symmetry. unfold t. apply nth_of_nth_error. auto.
        * right. apply in_map_iff. exists c. split; auto. symmetry. unfold t. apply nth_of_nth_error. auto. }
  (* who is connected *)
  assert (forall i n x, nth_error I i = Some (n ++ [Z.of_nat x]) -> atom_of I i = x) as Hat.
  { intros i n x Ei. unfold atom_of. rewrite (nth_of_nth_error _ _ _ _ Ei), last_last. apply Nat2Z.id. }
  assert (forall i n x j y, nth_error I i = Some (n ++ [Z.of_nat x]) -> connected_sites allowed I P i j y <->
            y = Fin k /\ exists c, In c (three_cells x) /\ nth_error I j = Some (map2 Z.add c n ++ [Z.of_nat (1 - x)])) as Hconn.
  { intros i n x j y Hi. assert (i < length P) as Hil by (rewrite <- Hlen; eapply nth_error_length_lt; eauto).
    destruct (nth_error_lt P i Hil) as [p Hp]. destruct (Hsite' i n x p Hi Hp) as [Hn [Hx _]]. split.
    - intros [Hij [[p' [t [z [Hp' [Ht [-> Hz]]]]]] Hal']]. assert (p' = p) as -> by (assert (Some p' = Some p) as X by (etransitivity; [symmetry; exact Hp'|exact Hp]); injection X; auto).
      destruct (Hsite j (nth_error_length_lt _ _ _ Ht)) as [m [x' [_ [Hj [_ [Hm [Hx' _]]]]]]]. destruct (Hsq i j n m x x' p t Hi Hj Hp Ht) as [Hl Hd2].
      rewrite (Hat i n x Hi), (Hat j m x' Hj) in Hal'. apply Hallowed in Hal'; auto. destruct Hal' as [-> E]. injection E as ->. split; auto.
      exists (map2 Z.sub m n). rewrite <- sub_add by lia. split; auto.
      destruct (Hcases x (1 - x) (map2 Z.sub m n) Hx Hx' Hl) as [[C _]|[[_ [C _]]|[_ [_ C]]]]; [lia|auto|].
      exfalso. assert (k < k)%Z; [|lia]. eapply rounds_gap; [exact H1|exact Hz|lia|rewrite Hd2; lra].
    - intros [-> [c [Hc Hj]]]. assert (j < length P) as Hjl by (rewrite <- Hlen; eapply nth_error_length_lt; eauto).
      destruct (nth_error_lt P j Hjl) as [t Ht]. destruct (Hsq i j n _ x (1 - x) p t Hi Hj Hp Ht) as [Hl Hd2].
      rewrite add_sub in Hd2 by (rewrite (three_length x c Hc); auto). split; [|split].
      + intros <-. rewrite Hi in Hj. injection Hj as Hj. apply app_inj_tail in Hj. destruct Hj as [_ Hj]. apply Nat2Z.inj in Hj. clear - Hj. destruct x as [|[|x]]; discriminate Hj.
      + exists p, t, k. split; auto. split; auto. split; auto. eapply rounds_ext; [symmetry; exact Hd2|]. auto.
      + rewrite (Hat i n x Hi), (Hat j _ _ Hj). apply Hallowed; auto. lia. }
  assert (incongruent 2 V R) as Hinc.
  { intros x y n Hx Hy Hn Hsame. cbn [R length] in Hx, Hy. apply same_veq in Hsame.
    assert (D x y n == 0)%Q as E by (unfold D; rewrite <- (sqdist_veq _ _ _ _ (veq_refl (nth x R [])) Hsame); apply sqdist_self).
    destruct (Hcases x y n Hx Hy Hn) as [[C _]|[[_ [_ [_ C]]]|[_ [_ C]]]]; [auto| |]; rewrite E in C; lra. }
  pose proof (C71_build_connects_the_sites query argsort norms s s' _ an l sh primitive pos check callback I P r Hq Harg ltac:(rewrite Eb; auto) ltac:(rewrite Eb, Hd; lia) Hst Ec Han Ean El) as T.
  cbv zeta in T. rewrite ER, Eb, Hd in T. fold V R in T. destruct (T Hnorms Hfit Hinc EI HI Er Hroom) as [m [cells' [Hm1' [Hm2' [Ecells' C]]]]]. clear T.
  assert (m = 1) as ->.
  { destruct Hm2' as [x [y E]]. pose proof (Hm1' 0 1) as X. cbn in X. destruct x as [|[|[|x]]], y as [|[|[|y]]]; cbn in E; lia. }
  rewrite Ecells in Ecells'. injection Ecells' as <-. fold allowed in C.
  destruct C as (l' & dt & C1 & C2 & _ & _ & C3 & C4 & _ & _ & _ & C5 & C6 & _ & C7).
  - intros x y z Hx Hy H. cbn [R length] in Hx, Hy. pose proof H as [_ [_ [_ [w [-> _]]]]]. apply Z.leb_le. apply Hleast in H; auto. lia.
  - exists [Fin k]. split; [cbn; lia|]. intros x y z Hx Hy H. apply Hallowed in H; auto. left. symmetry. apply H.
  - right. intros i j p Hij Hp Hw. destruct (Hsite i (nth_error_length_lt _ _ _ Hp)) as [n [x [_ [Hi [_ [Hn [Hx _]]]]]]].
    destruct (Hnear i n x p j Hi Hp Hw) as [->|H]; [contradiction|]. exists (Fin k). apply (Hconn i n x); auto.
  - exists l', dt. repeat (split; [auto; fail|]). intros i n x Hi. destruct (C7 i) as [D1 D2]; [rewrite <- Hlen; eapply nth_error_length_lt; eauto|].
    split; auto. intros j y. rewrite D2. apply Hconn. auto.
Qed.

(** ** [honeycomb] and [graphene] *)

(** The built lattice: every site is linked, at the lattice constant, exactly to those of its three nearest sites of the other kind
    that were selected.  The lattice constant [k] is given in units of 1e-6. *)
Corollary C108_honeycomb :
  forall query argsort norms inv sqrt3 a k s l sh primitive pos check callback I P,
    correct_tree query -> is_argsort dleb argsort -> inverts inv 2 ->
    (1000 < k)%Z -> (a * 1000000 == inject_Z k)%Q -> (a <= 1000000)%Q -> (Qabs (sqrt3 * sqrt3 - 3) <= 1 # 1000000000000)%Q ->
    ((exists at1, honeycomb query inv sqrt3 a at1 = Ok s) \/ (exists count, graphene query inv sqrt3 a count = Ok s)) -> lt_structure l = s ->
    (primitive = true -> length norms = 2) -> fitting 2 sh primitive pos ->
    build_indices (hexagonal inv sqrt3 a) norms [[0; 0]; [a; 0]]%Q (AShape (build_shape (hexagonal inv sqrt3 a) sh primitive pos)) primitive pos check callback = Ok (I, P) ->
    I <> [] ->
    exists l' dt, build query argsort norms l sh primitive pos check None None callback = (l', Ok tt) /\
      lt_structure l' = s /\ lt_data l' = Some dt /\ wf dt /\ d_indices dt = I /\ d_positions dt = P /\
      forall i N x, nth_error I i = Some (N ++ [Z.of_nat x]) -> NoDup (map fst (links dt i)) /\ length (links dt i) <= 3 /\
        forall j y, In (j, y) (links dt i) <->
          y = Fin k /\ exists n, In n (three_cells x) /\ nth_error I j = Some (map2 Z.add n N ++ [Z.of_nat (1 - x)]).
Proof.
  intros query argsort norms inv q a k s l sh primitive pos check callback I P Hq Harg I2 Hk Ek Ha He Hs El Hnorms Hfit EI HI.
  destruct (six_decimals q a k Hk Ek Ha He) as [H1 H2]. apply Qabs_Qle_condition in He.
  assert (1000 < inject_Z k)%Q as Hx by (change 1000%Q with (inject_Z 1000); rewrite <- Zlt_Qlt; auto).
  assert ((1#1000) < a)%Q as Ha' by lra. assert ((299#100) <= q * q <= (301#100))%Q as Hq2 by lra.
  assert (exists s0, analyze query s0 = (s, Ok tt) /\ in_step s0 /\ st_basis s0 = hexagonal inv q a /\ st_positions s0 = [[0; 0]; [a; 0]]%Q /\
            st_connections s0 = Some [[0; 1]; [1; 0]]) as [s0 [Han [Hst [Eb [ER Ec]]]]].
  { destruct Hs as [[at1 E]|[count E]].
    - destruct (two_sites_analysed query inv q a at1 at1 (RIndex 0) (RIndex 1) I2 Ha' Hq2) as [s0 [s' [E' X]]]; [intros; split; reflexivity|].
      unfold honeycomb in E. rewrite E' in E. injection E as ->. exists s0. tauto.
    - unfold graphene in E. cbv zeta in E. edestruct two_sites_analysed as [s0 [s' [E' X]]]; [exact I2|exact Ha'|exact Hq2| |erewrite E' in E; injection E as ->; exists s0; tauto].
      intros s1 Es. unfold get_alpha. rewrite Es. split; reflexivity. }
  destruct (C108_built query argsort norms inv q a k s0 s l sh primitive pos check callback I P) as (l' & dt & C1 & C2 & C3 & C4 & C5 & C6 & C7); auto.
  exists l', dt. repeat (split; [auto; fail|]). intros i N x Hi. destruct (C7 i N x Hi) as [D1 D2]. split; auto. split; auto.
  assert (length (map (fun n => map2 Z.add n N ++ [Z.of_nat (1 - x)]) (three_cells x)) = 3) as <- by (destruct x; reflexivity).
  rewrite <- (map_length fst), <- (map_length (fun j => nth j I [])). apply NoDup_incl_length.
  - assert (forall j, In j (map fst (links dt i)) -> exists n, In n (three_cells x) /\ nth_error I j = Some (map2 Z.add n N ++ [Z.of_nat (1 - x)])) as HL.
    { intros j Hj. apply in_map_iff in Hj. destruct Hj as [[j' y] [<- Hj]]. apply D2 in Hj. apply Hj. }
    assert (NoDup I) as HN by (eapply C33_no_site_twice; [apply (hexagonal_valid inv q a Ha' Hq2 I2)|exact Hnorms| |exact EI]; intros r [<-|[<-|[]]]; reflexivity).
    apply NoDup_map_in; auto. intros j j' Hj Hj' E. apply HL in Hj. apply HL in Hj'. destruct Hj as [n [_ Hj]], Hj' as [n' [_ Hj']].
    rewrite NoDup_nth in HN. apply (HN j j'); [eapply nth_error_length_lt; eauto|eapply nth_error_length_lt; eauto|exact E].
  - intros t Ht. apply in_map_iff in Ht. destruct Ht as [j [<- Hj]]. apply in_map_iff in Hj. destruct Hj as [[j' y] [<- Hj]]. apply D2 in Hj.
    destruct Hj as [_ [n [Hn Hj]]]. apply in_map_iff. exists n. split; auto. symmetry. apply nth_of_nth_error. auto.
Qed.

(** A piece of graphene: a hexagon (sites 1 2 3 6 5 4) and a site with one neighbour. *)
Example C108_honeycomb_example :
  correct_tree brute /\ is_argsort dleb dist_argsort /\ inverts inverse_small 2 /\ (1000 < 1420000)%Z /\
  ((142#100) * 1000000 == inject_Z 1420000)%Q /\ ((142#100) <= 1000000)%Q /\ (Qabs (sqrt3_double * sqrt3_double - 3) <= 1 # 1000000000000)%Q /\
  exists s I P l' dt, graphene brute inverse_small sqrt3_double (142#100) 7 = Ok s /\
    build_indices (hexagonal inverse_small sqrt3_double (142#100)) [1; 1]%Q [[0; 0]; [142#100; 0]]%Q
      (AShape (build_shape (hexagonal inverse_small sqrt3_double (142#100)) (ASize [5; 3]%Q) false (Some [0; -(3#2)]%Q))) false (Some [0; -(3#2)]%Q) true None = Ok (I, P) /\
    I = [[0; 0; 0]; [0; 0; 1]; [0; 1; 0]; [0; 1; 1]; [1; 0; 0]; [1; 0; 1]; [1; 1; 0]]%Z /\
    build brute dist_argsort [1; 1]%Q (new_lattice s) (ASize [5; 3]%Q) false (Some [0; -(3#2)]%Q) true None None None = (l', Ok tt) /\ lt_data l' = Some dt /\
    map (links dt) (seq 0 7) = map (map (fun j => (j, Fin 1420000))) [[1]; [2; 4; 0]; [1; 3]; [6; 2]; [1; 5]; [6; 4]; [3; 5]].
Proof.
  split; [exact brute_nearest|]. split; [exact dist_argsort_ok|]. split; [exact inverse_small_2|]. split; [reflexivity|]. split; [reflexivity|].
  split; [apply Qle_bool_imp_le; reflexivity|]. split; [apply Qle_bool_imp_le; vm_compute; reflexivity|].
  do 5 eexists. split; [vm_compute; reflexivity|]. split; [vm_compute; reflexivity|]. split; [reflexivity|]. split; [vm_compute; reflexivity|].
  split; [reflexivity|]. vm_compute. reflexivity.
Qed.

(** The general theorem also covers lattice constants that are rounded: here the distances are 1/3. *)
Example C108_built_example :
  let a := (1#3)%Q in
  ((1#1000) < a)%Q /\ ((299#100) <= sqrt3_double * sqrt3_double <= (301#100))%Q /\
  rounds_to_micro (a * a)%Q 333333 /\ rounds_to_micro (a * a * ((1 + sqrt3_double * sqrt3_double) * (1#4)))%Q 333333 /\
  exists s l' dt, honeycomb brute inverse_small sqrt3_double a (ex_atom "C") = Ok s /\
    build brute dist_argsort [1; 1]%Q (new_lattice s) (ASize [1; (2#5)]%Q) false None true None None None = (l', Ok tt) /\ lt_data l' = Some dt /\
    d_indices dt = [[0; 0; 0]; [0; 0; 1]; [1; 0; 0]; [1; 0; 1]; [1; 1; 0]]%Z /\ map (links dt) (seq 0 5) = map (map (fun j => (j, Fin 333333))) [[1]; [2; 0]; [1; 3]; [4; 2]; [3]].
Proof.
  split; [reflexivity|]. split; [split; apply Qle_bool_imp_le; reflexivity|].
  split; [change 333333%Z with (sqrt_micro ((1#3) * (1#3))); apply sqrt_micro_rounds; vm_compute; discriminate|].
  split; [replace 333333%Z with (sqrt_micro ((1#3) * (1#3) * ((1 + sqrt3_double * sqrt3_double) * (1#4)))) by (vm_compute; reflexivity); apply sqrt_micro_rounds; vm_compute; discriminate|].
  do 3 eexists. split; [vm_compute; reflexivity|]. split; [vm_compute; reflexivity|]. split; [reflexivity|]. split; vm_compute; reflexivity.
Qed.

Print Assumptions C108_built.
Print Assumptions C108_honeycomb.
