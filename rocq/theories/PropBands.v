(** * Property C117 (lattpy/data.py, lattice.py, structure.py: tight-binding bands of periodic hexagonal and honeycomb lattices) *)
From Coq Require Import String List ZArith QArith Qabs Qreals Bool Arith Lia Permutation Sorting.Sorted Reals Lra.
From Verif Require Import Np NpFacts LinAlg LinFacts SpecUtils UtilsModel UtilsProofs SpecBasis AtomModel BasisModel
  SpatialModel SpecSpatial SpecStructure SpecBuild ShapeModel StructureModel KDBrute RoundFacts StructureFacts
  DataModel SpecData DataFacts DataProofs PropData PropDataMap AnalyzeProofs StructureProofs PropAnalyze SpecNeighbors
  PropNeighbors LatticeModel LatticeExamples SpecGrid SpecJoin SpecBlock PresetModel PropPreset PropGrid HoneycombModel PropHoneycomb PropHoneyBuilt
  PropHoneyTorus PropReciprocal PropStructure PropRing PropHexBlock MatrixModel SpecMatrix PropMatrix PropMatrixBuilt RealModel PropReal SpecBloch PropBloch FourierFacts.
Import ListNotations.
Open Scope nat_scope.
Open Scope list_scope.

(** ** Waves on the cells of a periodic block *)

(** The phase of the cell [n] (or of the site with this index) for the angles [k1], [k2] per cell. *)
Definition cell_phase (k1 k2 : R) (n : list Z) : R := (k1 * IZR (nth 0 n 0%Z) + k2 * IZR (nth 1 n 0%Z))%R.

(** The vector with the value [u x] on the atoms [x], times the wave. *)
Definition cell_wave (I : list (list Z)) (k1 k2 : R) (u : nat -> cplx) (i : nat) : cplx :=
  cmul (u (SpecNeighbors.atom_of I i)) (cexp_i (cell_phase k1 k2 (nth i I []))).

(** The angles fit [N1] by [N2] cells: whole turns along both axes. *)
Definition whole_turns (N1 N2 : Z) (k1 k2 : R) : Prop :=
  exists z1 z2, (IZR N1 * k1 = 2 * PI * IZR z1)%R /\ (IZR N2 * k2 = 2 * PI * IZR z2)%R.

(** [lambda] is an eigenvalue of the matrix, with an eigenvector that is not zero. *)
Definition eigenvalue (M : matrix cplx) (lambda : R) : Prop :=
  exists psi : nat -> cplx, (exists i, i < m_rows M /\ psi i <> c0) /\
    forall i, i < m_rows M -> row_product M psi i = cmul (lambda, 0%R) (psi i).

Lemma phase_mod N k z n : (0 < N)%Z -> (IZR N * k = 2 * PI * IZR z)%R -> (k * IZR (n mod N) = k * IZR n + 2 * PI * IZR (- (z * (n / N))))%R.
Proof.
  intros HN H. assert (n mod N = n - N * (n / N))%Z as -> by (pose proof (Z.div_mod n N ltac:(lia)); lia).
  rewrite minus_IZR, opp_IZR, !mult_IZR. replace (2 * PI * - (IZR z * IZR (n / N)))%R with (- ((2 * PI * IZR z) * IZR (n / N)))%R by ring. rewrite <- H. ring.
Qed.

Lemma wrapped_phase axes N1 N2 k1 k2 n : (0 < N1)%Z -> (0 < N2)%Z -> whole_turns N1 N2 k1 k2 -> In 0 axes -> In 1 axes ->
  forall x, cexp_i (cell_phase k1 k2 (wrapped axes [0; 0]%Z [N1; N2] n ++ [x])) = cexp_i (cell_phase k1 k2 n).
Proof.
  intros P1 P2 [z1 [z2 [H1 H2]]] A0 A1 x. unfold cell_phase, wrapped. cbn [map app nth].
  assert (existsb (Nat.eqb 0) axes = true) as -> by (apply existsb_exists; exists 0; auto).
  assert (existsb (Nat.eqb 1) axes = true) as -> by (apply existsb_exists; exists 1; auto).
  rewrite !Z.sub_0_r, !Z.add_0_l, (phase_mod N1 k1 z1) by auto. rewrite (phase_mod N2 k2 z2) by auto.
  match goal with |- cexp_i (?p + 2 * PI * IZR ?a + (?q + 2 * PI * IZR ?b)) = _ => replace (p + 2 * PI * IZR a + (q + 2 * PI * IZR b))%R with (p + q + 2 * PI * IZR (a + b))%R by (rewrite plus_IZR; ring) end.
  apply turns.
Qed.

Section Bands.
  Variables (argsort : list nat -> list nat) (dt : data) (axes : list nat) (N1 N2 : Z) (atoms : nat) (star : nat -> list (list Z * nat)).
  Hypothesis (Harg : is_argsort Nat.leb argsort) (W : wf_core dt) (HNI : NoDup (d_indices dt)) (Hm : d_dmap dt = None) (P1 : (0 < N1)%Z) (P2 : (0 < N2)%Z) (A0 : In 0 axes) (A1 : In 1 axes).
  Hypothesis (Hatoms : 1 <= atoms <= 128).
  Hypothesis Hsites : forall t, In t (d_indices dt) <-> exists n x, t = n ++ [Z.of_nat x] /\ length n = 2 /\ box 2 [0; 0]%Z [N1; N2] n /\ x < atoms.
  Hypothesis Hstar : forall x n y, x < atoms -> In (n, y) (star x) -> length n = 2 /\ y < atoms.
  Hypothesis Hslots : forall i N x, nth_error (d_indices dt) i = Some (N ++ [Z.of_nat x]) ->
    NoDup (map s_nbr (slots dt i)) /\
    (forall j, In j (map s_nbr (slots dt i)) <->
       exists n y, In (n, y) (star x) /\ nth_error (d_indices dt) j = Some (wrapped axes [0; 0]%Z [N1; N2] (map2 Z.add n N) ++ [Z.of_nat y])) /\
    length (slots dt i) = length (star x).

  Lemma site_form i : i < nsites dt -> exists N x, nth_error (d_indices dt) i = Some (N ++ [Z.of_nat x]) /\ length N = 2 /\ x < atoms.
  Proof using Hsites.
    intro Hi. destruct (nth_error_lt (d_indices dt) i Hi) as [t Ht]. pose proof (nth_error_In _ _ Ht) as Hin. apply Hsites in Hin.
    destruct Hin as (n & x & -> & Hn & _ & Hx). exists n, x. auto.
  Qed.

  Lemma form_atom i N x : nth_error (d_indices dt) i = Some (N ++ [Z.of_nat x]) -> SpecNeighbors.atom_of (d_indices dt) i = x.
  Proof. intro H. unfold SpecNeighbors.atom_of. rewrite (nth_of_nth_error _ _ _ _ H), last_last, Nat2Z.id. reflexivity. Qed.

  (** The sites of the star. *)
  Lemma star_targets N x (S : list (list Z * nat)) : length N = 2 -> x < atoms -> incl S (star x) ->
    exists J, Forall2 (fun e j => nth_error (d_indices dt) j = Some (wrapped axes [0; 0]%Z [N1; N2] (map2 Z.add (fst e) N) ++ [Z.of_nat (snd e)])) S J.
  Proof.
    intros HN Hx. induction S as [|[n y] S IH]; intro Hincl; [exists []; constructor|].
    destruct IH as [J HJ]; [intros e He; apply Hincl; right; auto|]. destruct (Hstar x n y Hx ltac:(apply Hincl; left; auto)) as [Hn Hy].
    assert (In (wrapped axes [0; 0]%Z [N1; N2] (map2 Z.add n N) ++ [Z.of_nat y]) (d_indices dt)) as Hin.
    { apply Hsites. eexists _, y. split; [reflexivity|]. split; [reflexivity|]. split; [|exact Hy]. intros c Hc. rewrite wrapped_nth by auto.
      assert (existsb (Nat.eqb c) axes = true) as -> by (apply existsb_exists; exists c; rewrite Nat.eqb_refl; destruct c as [|[|c]]; auto; lia).
      destruct c as [|[|c]]; [| |lia]; cbn [nth]; rewrite Z.add_0_l, Z.sub_0_r; [pose proof (Z.mod_pos_bound (nth 0 (map2 Z.add n N) 0%Z) N1 P1)|pose proof (Z.mod_pos_bound (nth 1 (map2 Z.add n N) 0%Z) N2 P2)]; lia. }
    apply In_nth_error in Hin. destruct Hin as [j Hj]. exists (j :: J). constructor; auto.
  Qed.

  Lemma csum_perm (f : nat -> cplx) l l' : Permutation l l' -> csum (map f l) = csum (map f l').
  Proof.
    induction 1; cbn [map csum]; auto.
    - rewrite IHPermutation. reflexivity.
    - ring.
    - congruence.
  Qed.

  Definition star_sites (x : nat) (N : list Z) (J : list nat) : Prop :=
    Forall2 (fun e j => nth_error (d_indices dt) j = Some (wrapped axes [0; 0]%Z [N1; N2] (map2 Z.add (fst e) N) ++ [Z.of_nat (snd e)])) (star x) J.

  (** The rows of the matrix with the value [e] on the sites and [t] on the links. *)
  Lemma uniform_rows :
    forall e t : cplx,
      exists M, (let mp := fst (data_map argsort dt) in build_csr cadd c0 mp (assign_all mp (dm_zeros c0 mp) [Onsite None e; Hopping None t]) None = Some M) /\
        m_rows M = nsites dt /\ m_cols M = nsites dt /\
        forall psi i N x, nth_error (d_indices dt) i = Some (N ++ [Z.of_nat x]) -> length N = 2 -> x < atoms ->
          exists J, star_sites x N J /\ row_product M psi i = cadd (cmul e (psi i)) (cmul t (csum (map psi J))).
  Proof.
    intros e t.
    assert (few_atoms dt) as Hfew.
    { intros i Hi. destruct (site_form i Hi) as (N & x & E & _ & Hx). unfold PropDataMap.atom_of. rewrite (nth_of_nth_error _ _ _ _ E), last_last. lia. }
    assert (0 < nsites dt) as HN.
    { assert (In ([0; 0]%Z ++ [Z.of_nat 0]) (d_indices dt)) as Hin.
      { apply Hsites. exists [0; 0]%Z, 0. split; [reflexivity|]. split; [reflexivity|]. split; [|lia]. intros [|[|c]] Hc; cbn; lia. }
      unfold nsites. destruct (d_indices dt); [destruct Hin|cbn; lia]. }
    destruct (C93_product argsort dt [Onsite None e; Hopping None t] (fun _ => c0) Harg W Hfew Hm HN ltac:(repeat constructor)) as (M & E & E1 & E2 & _).
    exists M. split; [exact E|]. split; [exact E1|]. split; [exact E2|]. intros psi i N x Ei HNl Hx.
    assert (i < nsites dt) as Hi by (unfold nsites; apply nth_error_Some; congruence).
    destruct (C93_product argsort dt [Onsite None e; Hopping None t] psi Harg W Hfew Hm HN ltac:(repeat constructor)) as (M' & E' & _ & _ & H).
    cbv zeta in E, E'. rewrite E in E'. injection E' as <-. rewrite H by auto. clear H. unfold onsite_value, hopping_value. cbn [fold_left].
    destruct (Hslots i N x Ei) as (Hnd & Hiff & Hlen).
    destruct (star_targets N x (star x) HNl Hx (incl_refl _)) as [J HJ]. exists J. split; [exact HJ|].
    assert (Permutation (map s_nbr (slots dt i)) J) as Hperm.
    { apply NoDup_Permutation_bis; auto.
      - rewrite map_length, Hlen. clear -HJ. induction HJ; cbn; lia.
      - intros j Hj. apply Hiff in Hj. destruct Hj as (n & y & Hny & Ej).
        assert (forall S T, Forall2 (fun e j => nth_error (d_indices dt) j = Some (wrapped axes [0; 0]%Z [N1; N2] (map2 Z.add (fst e) N) ++ [Z.of_nat (snd e)])) S T ->
          In (n, y) S -> exists j', In j' T /\ nth_error (d_indices dt) j' = Some (wrapped axes [0; 0]%Z [N1; N2] (map2 Z.add n N) ++ [Z.of_nat y])) as G.
        { intros S T F. induction F as [|s j0 S T Hs F IH]; intros Hin; [destruct Hin|]. destruct Hin as [->|Hin]; [exists j0; cbn; auto|].
          destruct (IH Hin) as [j' [G1 G2]]. exists j'. cbn. auto. }
        destruct (G _ _ HJ Hny) as [j' [G1 G2]]. assert (j = j') as -> by (apply (proj1 (NoDup_nth_error (d_indices dt)) HNI); [apply nth_error_Some; congruence|congruence]). exact G1. }
    f_equal. rewrite <- (csum_perm psi _ _ Hperm). unfold slots. rewrite !map_map. cbn [slot_at s_nbr].
    generalize (valid_slots dt i). intro S. induction S as [|c S IH]; cbn [map csum]; [ring|]. rewrite IH. ring.
  Qed.

  (** The matrix acts on waves as the equation of their amplitudes. *)
  Lemma wave_rows e t M k1 k2 u i :
    (forall psi i N x, nth_error (d_indices dt) i = Some (N ++ [Z.of_nat x]) -> length N = 2 -> x < atoms ->
       exists J, star_sites x N J /\ row_product M psi i = cadd (cmul e (psi i)) (cmul t (csum (map psi J)))) ->
    whole_turns N1 N2 k1 k2 -> i < nsites dt ->
    let x := SpecNeighbors.atom_of (d_indices dt) i in
    row_product M (cell_wave (d_indices dt) k1 k2 u) i =
      cmul (cadd (cmul e (u x)) (cmul t (csum (map (fun ny => cmul (cexp_i (cell_phase k1 k2 (fst ny))) (u (snd ny))) (star x)))))
        (cexp_i (cell_phase k1 k2 (nth i (d_indices dt) []))).
  Proof using P1 P2 A0 A1 Hsites Hstar.
    clear Hatoms.
    intros HM Hk Hi x. destruct (site_form i Hi) as (N & x' & Ei & HNl & Hx). assert (x = x') as E0 by (apply (form_atom i N); auto). clearbody x. subst x.
    destruct (HM (cell_wave (d_indices dt) k1 k2 u) i N x' Ei HNl Hx) as (J & HJ & ->).
    assert (csum (map (cell_wave (d_indices dt) k1 k2 u) J) =
      cmul (csum (map (fun ny => cmul (cexp_i (cell_phase k1 k2 (fst ny))) (u (snd ny))) (star x'))) (cexp_i (cell_phase k1 k2 (nth i (d_indices dt) [])))) as ->.
    { assert (forall e, In e (star x') -> length (fst e) = 2) as Hl by (intros [n y] He; destruct (Hstar x' n y Hx He); auto).
      unfold star_sites in HJ. clear -HJ Hl Hk Ei HNl P1 P2 A0 A1. rewrite (nth_of_nth_error _ _ _ _ Ei).
      induction HJ as [|[n y] j S J Hs F IH]; cbn [map csum]; [ring|]. rewrite IH by (intros; apply Hl; right; auto). clear IH. cbn [fst snd] in *.
      assert (cell_wave (d_indices dt) k1 k2 u j = cmul (u y) (cexp_i (cell_phase k1 k2 n + cell_phase k1 k2 (N ++ [Z.of_nat x'])))) as ->.
      { unfold cell_wave. rewrite (form_atom j _ _ Hs), (nth_of_nth_error _ _ _ _ Hs), wrapped_phase by auto. do 2 f_equal.
        specialize (Hl (n, y) (or_introl eq_refl)). cbn in Hl. destruct n as [|n1 [|n2 [|]]]; try discriminate. destruct N as [|m1 [|m2 [|]]]; try discriminate.
        unfold cell_phase. cbn [map2 nth app]. rewrite !plus_IZR. ring. }
      rewrite cexp_add. ring. }
    unfold cell_wave. rewrite (form_atom i N x' Ei). ring.
  Qed.

  (** The value of a vector at the atom [x] of the cell [[n; m]], counted modulo the block. *)
  Definition at_cell (psi : nat -> cplx) (x : nat) (n m : Z) : cplx :=
    match find (fun i => if list_eq_dec Z.eq_dec (nth i (d_indices dt) []) ([n mod N1; m mod N2] ++ [Z.of_nat x])%Z then true else false) (seq 0 (nsites dt)) with
    | Some i => psi i
    | None => c0
    end.

  Lemma at_cell_site psi x n m i : nth_error (d_indices dt) i = Some ([n mod N1; m mod N2] ++ [Z.of_nat x])%Z -> at_cell psi x n m = psi i.
  Proof using HNI.
    clear - HNI.
    intro H. assert (i < nsites dt) as Hi by (unfold nsites; apply nth_error_Some; congruence). unfold at_cell. destruct (find _ _) as [j|] eqn:E.
    - apply find_some in E. destruct E as [Hj E]. apply in_seq in Hj. destruct (list_eq_dec _ _ _) as [E'|]; [|discriminate].
      f_equal. apply (proj1 (NoDup_nth_error (d_indices dt)) HNI); [unfold nsites in Hj; lia|]. rewrite H, <- E'. apply nth_error_nth'. unfold nsites in Hj. lia.
    - pose proof (find_none _ _ E i) as G. cbv beta in G. rewrite (nth_of_nth_error _ _ _ _ H) in G. destruct (list_eq_dec _ _ _); [|congruence]. discriminate G. apply in_seq. lia.
  Qed.

  (** Every eigenvector contains a wave. *)
  Lemma eigen_wave e t M lambda :
    (forall psi i N x, nth_error (d_indices dt) i = Some (N ++ [Z.of_nat x]) -> length N = 2 -> x < atoms ->
       exists J, star_sites x N J /\ row_product M psi i = cadd (cmul e (psi i)) (cmul t (csum (map psi J)))) ->
    m_rows M = nsites dt -> eigenvalue M lambda ->
    exists k1 k2 u x0, whole_turns N1 N2 k1 k2 /\ x0 < atoms /\ u x0 <> c0 /\
      forall x, x < atoms -> cmul (lambda, 0%R) (u x) = cadd (cmul e (u x)) (cmul t (csum (map (fun ny => cmul (cexp_i (cell_phase k1 k2 (fst ny))) (u (snd ny))) (star x)))).
  Proof using HNI P1 P2 A0 A1 Hsites Hstar.
    clear Hatoms.
    intros HM EM (psi & (i0 & Hi0 & Hne) & Hpsi). rewrite EM in *.
    destruct (site_form i0 Hi0) as (N0 & x0 & Ei0 & HN0 & Hx0).
    destruct (bloch_vector (Z.to_nat N1) (Z.to_nat N2) atoms star (at_cell psi) (cadd (lambda, 0%R) (copp e)) t ltac:(lia) ltac:(lia)) with (x0 := x0) (n0 := nth 0 N0 0%Z) (m0 := nth 1 N0 0%Z)
      as (k1 & k2 & z1 & z2 & u & Hk1 & Hk2 & Hu & Heq); auto.
    - intros x n m. unfold at_cell. rewrite Z2Nat.id by lia. replace ((n + N1) mod N1)%Z with (n mod N1)%Z; [reflexivity|]. rewrite <- (Z.mod_add n 1 N1) by lia. f_equal. lia.
    - intros x n m. unfold at_cell. rewrite Z2Nat.id by lia. replace ((m + N2) mod N2)%Z with (m mod N2)%Z; [reflexivity|]. rewrite <- (Z.mod_add m 1 N2) by lia. f_equal. lia.
    - intros x n m Hx.
      assert (In ([n mod N1; m mod N2] ++ [Z.of_nat x])%Z (d_indices dt)) as Hin.
      { apply Hsites. eexists _, x. split; [reflexivity|]. split; [reflexivity|]. split; [|exact Hx].
        intros [|[|c]] Hc; cbn [nth]; [pose proof (Z.mod_pos_bound n N1 P1)|pose proof (Z.mod_pos_bound m N2 P2)|]; lia. }
      apply In_nth_error in Hin. destruct Hin as [i Ei]. assert (i < nsites dt) as Hi by (unfold nsites; apply nth_error_Some; congruence).
      rewrite (at_cell_site psi x n m i Ei). destruct (HM psi i _ x Ei eq_refl Hx) as (J & HJ & E). rewrite Hpsi in E by exact Hi.
      assert (csum (map (fun ny => at_cell psi (snd ny) (n + nth 0 (fst ny) 0)%Z (m + nth 1 (fst ny) 0)%Z) (star x)) = csum (map psi J)) as ->.
      { assert (forall e, In e (star x) -> length (fst e) = 2) as Hl by (intros [a y] He; destruct (Hstar x a y Hx He); auto).
        unfold star_sites in HJ. clear -HJ Hl A0 A1 HNI P1 P2. induction HJ as [|[a y] j S J Hs F IH]; cbn [map csum]; [reflexivity|].
        rewrite IH by (intros; apply Hl; right; auto). f_equal. cbn [fst snd] in *. apply at_cell_site. rewrite Hs. do 2 f_equal.
        specialize (Hl (a, y) (or_introl eq_refl)). cbn in Hl. destruct a as [|a1 [|a2 [|]]]; try discriminate. unfold wrapped. cbn [map2 map nth].
        assert (existsb (Nat.eqb 0) axes = true) as -> by (apply existsb_exists; exists 0; auto).
        assert (existsb (Nat.eqb 1) axes = true) as -> by (apply existsb_exists; exists 1; auto).
        rewrite !Z.add_0_l, !Z.sub_0_r, !Z.add_mod_idemp_r by lia. rewrite (Z.add_comm a1), (Z.add_comm a2). reflexivity. }
      transitivity (cadd (cmul (lambda, 0%R) (psi i)) (copp (cmul e (psi i)))); [ring|]. rewrite E. ring.
    - pose proof (nth_error_In _ _ Ei0) as Hin. apply Hsites in Hin. destruct Hin as (n & x & En & Hn & Hb & _). apply app_inj_tail in En. destruct En as [<- _].
      destruct N0 as [|n1 [|n2 [|]]]; try discriminate. pose proof (Hb 0 ltac:(lia)) as B0. pose proof (Hb 1 ltac:(lia)) as B1. cbn [nth] in *.
      rewrite (at_cell_site psi x0 n1 n2 i0); [exact Hne|]. rewrite Ei0, !Z.mod_small by lia. reflexivity.
    - exists k1, k2, u, x0. split; [exists z1, z2; rewrite INR_IZR_INZ, Z2Nat.id in Hk1, Hk2 by lia; auto|]. split; [exact Hx0|]. split; [exact Hu|]. intros x Hx.
      transitivity (cadd (cmul e (u x)) (cmul (cadd (lambda, 0%R) (copp e)) (u x))); [ring|]. rewrite Heq by exact Hx. reflexivity.
  Qed.
End Bands.

(** ** Graphene *)

Definition honey_star (x : nat) : list (list Z * nat) := map (fun n => (n, 1 - x)) (three_cells x).

(** The square of the length of [1 + exp(-i k1) + exp(-i k2)]. *)
Definition honey_square (k1 k2 : R) : R := (3 + 2 * cos k1 + 2 * cos k2 + 2 * cos (k1 - k2))%R.

Lemma cexp_zero : cexp_i 0 = (1, 0)%R.
Proof. unfold cexp_i. rewrite cos_0, sin_0. reflexivity. Qed.

Lemma honey_sum k1 k2 u x : x < 2 ->
  csum (map (fun ny => cmul (cexp_i (cell_phase k1 k2 (fst ny))) (u (snd ny))) (honey_star x)) =
  cmul (1 + cos k1 + cos k2, (if x =? 0 then - (sin k1 + sin k2) else sin k1 + sin k2))%R (u (1 - x)).
Proof.
  intro Hx. destruct x as [|[|x]]; [| |lia]; unfold honey_star, three_cells, bent_cells, cell_phase; cbn [map fst snd nth csum Nat.sub Nat.eqb];
    destruct (u _) as [p q]; unfold cexp_i, cmul, cadd, c0; cbn [fst snd];
    rewrite ?Rmult_0_r, ?Rplus_0_l, ?Rplus_0_r, ?Rmult_1_r; rewrite ?cos_0, ?sin_0;
    replace (k1 * -1)%R with (- k1)%R by ring; replace (k2 * -1)%R with (- k2)%R by ring; rewrite ?cos_neg, ?sin_neg; f_equal; ring.
Qed.

Lemma honey_length k1 k2 : ((1 + cos k1 + cos k2) * (1 + cos k1 + cos k2) + (sin k1 + sin k2) * (sin k1 + sin k2) = honey_square k1 k2)%R.
Proof. unfold honey_square. rewrite cos_minus. pose proof (sin2_cos2 k1) as E1. pose proof (sin2_cos2 k2) as E2. unfold Rsqr in *.
  transitivity (1 + (sin k1 * sin k1 + cos k1 * cos k1) + (sin k2 * sin k2 + cos k2 * cos k2) + 2 * cos k1 + 2 * cos k2 + 2 * (cos k1 * cos k2 + sin k1 * sin k2))%R; [ring|].
  rewrite E1, E2. ring.
Qed.

Lemma cexp_nonzero x : cexp_i x <> c0.
Proof. unfold cexp_i, c0. intro H. injection H as H1 H2. pose proof (sin2_cos2 x) as E. unfold Rsqr in E. rewrite H1, H2 in E. lra. Qed.

Lemma cmul_nonzero a b : a <> c0 -> b <> c0 -> cmul a b <> c0.
Proof.
  destruct a as [a1 a2], b as [b1 b2]. unfold cmul, c0. cbn. intros Ha Hb H. injection H as H1 H2.
  assert (a1 * a1 + a2 * a2 = 0 \/ b1 * b1 + b2 * b2 = 0)%R as [E|E].
  { apply Rmult_integral. replace ((a1 * a1 + a2 * a2) * (b1 * b1 + b2 * b2))%R with ((a1 * b1 - a2 * b2) * (a1 * b1 - a2 * b2) + (a1 * b2 + a2 * b1) * (a1 * b2 + a2 * b1))%R by ring.
    first [rewrite H1, H2; ring | nra]. }
  - apply Ha. assert (a1 = 0 /\ a2 = 0)%R as [-> ->]; [|reflexivity]. split; nra.
  - apply Hb. assert (b1 = 0 /\ b2 = 0)%R as [-> ->]; [|reflexivity]. split; nra.
Qed.

(** The amplitudes on the two atoms for the energy [e]. *)
Lemma honey_amplitudes k1 k2 t e : (e * e = t * t * honey_square k1 k2)%R ->
  exists u : nat -> cplx, (exists x, x < 2 /\ u x <> c0) /\
    forall x, x < 2 -> cmul (t, 0)%R (cmul (1 + cos k1 + cos k2, (if x =? 0 then - (sin k1 + sin k2) else sin k1 + sin k2))%R (u (1 - x))) = cmul (e, 0)%R (u x).
Proof.
  intro H. rewrite <- honey_length in H. set (p := (1 + cos k1 + cos k2)%R) in *. set (q := (sin k1 + sin k2)%R) in *. clearbody p q.
  destruct (Req_dec e 0) as [->|He].
  - assert (t * p = 0 /\ t * q = 0)%R as [E1 E2] by (split; nra).
    exists (fun _ => (1, 0)%R). split; [exists 0; split; [lia|]; intro E; injection E; lra|]. intros x _. unfold cmul. cbn [fst snd].
    destruct (x =? 0); f_equal; nra.
  - exists (fun x => match x with 0 => (t * p, - (t * q))%R | _ => (e, 0%R) end). split.
    + exists 1. split; [lia|]. intro E. injection E. auto.
    + intros [|[|x]] Hx; [| |lia]; cbn [Nat.sub Nat.eqb]; unfold cmul; cbn [fst snd]; f_equal; nra.
Qed.

(** The equation of the energies. *)
Lemma honey_secular k1 k2 t e (w : nat -> cplx) x0 : x0 < 2 -> w x0 <> c0 ->
  (forall x, x < 2 -> cmul (e, 0)%R (w x) = cmul (t, 0)%R (cmul (1 + cos k1 + cos k2, (if x =? 0 then - (sin k1 + sin k2) else sin k1 + sin k2))%R (w (1 - x)))) ->
  (e * e = t * t * honey_square k1 k2)%R.
Proof.
  intros Hx0 Hne H. rewrite <- honey_length. set (p := (1 + cos k1 + cos k2)%R) in *. set (q := (sin k1 + sin k2)%R) in *. clearbody p q.
  pose proof (H 0 ltac:(lia)) as H0. pose proof (H 1 ltac:(lia)) as H1. cbn [Nat.sub Nat.eqb] in H0, H1. clear H.
  assert (forall x, x < 2 -> cmul (e * e - t * t * (p * p + q * q), 0)%R (w x) = c0) as G.
  { intros x Hx. transitivity (cadd (cmul (e, 0)%R (cmul (e, 0)%R (w x))) (copp (cmul (t, 0)%R (cmul (t, 0)%R (cmul (p, q) (cmul (p, - q)%R (w x))))))).
    { destruct (w x) as [a b]. unfold cadd, cmul, copp. cbn [fst snd]. f_equal; ring. }
    destruct x as [|[|x]]; [| |lia].
    - rewrite H0. transitivity (cadd (cmul (t, 0)%R (cmul (p, - q)%R (cmul (e, 0)%R (w 1)))) (copp (cmul (t, 0)%R (cmul (t, 0)%R (cmul (p, q) (cmul (p, - q)%R (w 0))))))); [ring|]. rewrite H1. ring.
    - rewrite H1. transitivity (cadd (cmul (t, 0)%R (cmul (p, q)%R (cmul (e, 0)%R (w 0)))) (copp (cmul (t, 0)%R (cmul (t, 0)%R (cmul (p, q) (cmul (p, - q)%R (w 1))))))); [ring|]. rewrite H0. ring. }
  destruct (Req_EM_T (e * e - t * t * (p * p + q * q)) 0) as [Z|Z]; [lra|]. exfalso. apply (cmul_nonzero (e * e - t * t * (p * p + q * q), 0)%R (w x0)); [|exact Hne|apply G; exact Hx0].
  intro E. injection E. exact Z.
Qed.

(** A whole number of turns. *)
Lemma full_turn N m : (0 < N)%Z -> cexp_i (2 * PI * IZR m / IZR N) = (1, 0)%R -> (N | m)%Z.
Proof.
  intros HN H. assert (0 < IZR N)%R as HNR by (apply IZR_lt; lia). apply Z.mod_divide; [lia|]. destruct (Z.eq_dec (m mod N) 0) as [|Hne]; auto. exfalso.
  pose proof (Z.mod_pos_bound m N HN). apply (wave_not_one (Z.to_nat N) (m mod N)); [lia|]. rewrite INR_IZR_INZ, Z2Nat.id by lia. rewrite <- H.
  pose proof (Z.div_mod m N ltac:(lia)) as E. replace (IZR m) with (IZR N * IZR (m / N) + IZR (m mod N))%R by (rewrite <- mult_IZR, <- plus_IZR; f_equal; lia).
  replace (2 * PI * (IZR N * IZR (m / N) + IZR (m mod N)) / IZR N)%R with (2 * PI * IZR (m mod N) / IZR N + 2 * PI * IZR (m / N))%R by (field; lra). symmetry. apply turns.
Qed.

(** An angle with cosine [-1/2] is a third of a turn, up to whole turns. *)
Lemma third_of_turn N k z : (0 < N)%Z -> (IZR N * k = 2 * PI * IZR z)%R -> cos k = (- (1 / 2))%R -> (3 | N)%Z.
Proof.
  intros HN Hk Hc. assert (0 < IZR N)%R as HNR by (apply IZR_lt; lia). assert (k = 2 * PI * IZR z / IZR N)%R as Ek by (rewrite <- Hk; field; lra).
  assert (cos (3 * k) = 1)%R as H3.
  { replace (3 * k)%R with (2 * k + k)%R by ring. rewrite cos_plus, cos_2a_cos, sin_2a. pose proof (sin2_cos2 k) as G. unfold Rsqr in G. rewrite Hc in *. nra. }
  assert (N | 3 * z)%Z as [w Hw].
  { apply full_turn; auto. rewrite mult_IZR. replace (2 * PI * (3 * IZR z) / IZR N)%R with (3 * k)%R by (rewrite Ek; field; lra). unfold cexp_i. rewrite H3. f_equal.
    pose proof (sin2_cos2 (3 * k)) as G. unfold Rsqr in G. rewrite H3 in G. nra. }
  destruct (Znumtheory.Zdivide_dec 3 N) as [D|D]; auto. exfalso.
  assert (Z.gcd N 3 = 1)%Z as Hg.
  { pose proof (Z.gcd_divide_l N 3) as G1. pose proof (Z.gcd_divide_r N 3) as G2. pose proof (Z.gcd_nonneg N 3). apply Z.divide_pos_le in G2 as G3; [|lia].
    assert (Z.gcd N 3 = 0 \/ Z.gcd N 3 = 1 \/ Z.gcd N 3 = 2 \/ Z.gcd N 3 = 3)%Z as [E|[E|[E|E]]] by lia; auto; rewrite E in *.
    - destruct G2. lia.
    - destruct G2. lia.
    - contradiction. }
  assert (N | z)%Z as [v Hv] by (apply (Z.gauss N 3 z); [exists w; lia|exact Hg]).
  assert (cos k = 1)%R as H1; [|lra]. rewrite Ek, Hv, mult_IZR. replace (2 * PI * (IZR v * IZR N) / IZR N)%R with (0 + 2 * PI * IZR v)%R by (field; lra).
  pose proof (turns 0 v) as T. unfold cexp_i in T. injection T as T _. rewrite T. apply cos_0.
Qed.

(** The energies of the two atoms meet exactly in blocks with numbers of cells that are multiples of three. *)
Lemma meeting_energies N1 N2 t : (0 < N1)%Z -> (0 < N2)%Z -> (t <> 0)%R ->
  (exists k1 k2, whole_turns N1 N2 k1 k2 /\ (0 * 0 = t * t * honey_square k1 k2)%R) <-> (3 | N1)%Z /\ (3 | N2)%Z.
Proof.
  intros P1 P2 Ht. split.
  - intros (k1 & k2 & (z1 & z2 & E1 & E2) & E). assert (honey_square k1 k2 = 0)%R as Z.
    { assert (t * t * honey_square k1 k2 = 0)%R as E0 by lra. apply Rmult_integral in E0. destruct E0 as [E0|E0]; auto. apply Rmult_integral in E0. tauto. }
    rewrite <- honey_length in Z.
    assert (1 + cos k1 + cos k2 = 0)%R as Za by exact (Rplus_sqr_eq_0_l _ _ Z). assert (sin k1 + sin k2 = 0)%R as Zb by (rewrite Rplus_comm in Z; exact (Rplus_sqr_eq_0_l _ _ Z)).
    pose proof (sin2_cos2 k1) as G1. pose proof (sin2_cos2 k2) as G2. unfold Rsqr in G1, G2.
    assert (cos k1 = - (1 / 2))%R as C1 by (assert (sin k1 = - sin k2)%R as S by lra; rewrite S in G1; assert (cos k2 = - 1 - cos k1)%R as C by lra; rewrite C in G2; nra).
    assert (cos k2 = - (1 / 2))%R as C2 by lra. split; [apply (third_of_turn N1 k1 z1)|apply (third_of_turn N2 k2 z2)]; auto.
  - intros [[w1 H1] [w2 H2]]. exists (2 * (PI / 3))%R, (- (2 * (PI / 3)))%R. split.
    + exists w1, (- w2)%Z. rewrite H1, H2, !mult_IZR, opp_IZR. split; field.
    + unfold honey_square. replace (2 * (PI / 3) - - (2 * (PI / 3)))%R with (2 * (2 * (PI / 3)))%R by ring. rewrite cos_neg, (cos_2a_cos (2 * (PI / 3))), cos_2PI3. lra.
Qed.

(** For graphene and honeycomb lattices, built as a block of [N1] by [N2] cells with periodic boundary conditions along both axes, the matrix with
    the value [eps] on the sites and [t] on the links has exactly the eigenvalues [eps + e] with [e^2 = t^2 |1 + exp(-i k1) + exp(-i k2)|^2] for
    angles that fit the block.  One of them is [eps] itself exactly if [N1] and [N2] are multiples of three. *)
Theorem C117_graphene :
  forall query argsort argsort' inv sqrt3 a k s l u v s1 s2 N1 N2 axes,
    correct_tree query -> is_argsort dleb argsort -> is_argsort Nat.leb argsort' -> inverts inv 2 ->
    (a * 1000000 == inject_Z k)%Q -> (7#5 <= a <= 1000000)%Q -> (0 < sqrt3)%Q -> (Qabs (sqrt3 * sqrt3 - 3) <= 1 # 1000000000000)%Q ->
    ((exists at1, honeycomb query inv sqrt3 a at1 = Ok s) \/ (exists count, graphene query inv sqrt3 a count = Ok s)) -> lt_structure l = s ->
    (0 <= u <= 2 * a)%Q -> (0 <= v <= 2 * a)%Q -> (s1 + s2 < inject_Z (2 ^ 40))%Q -> (3 <= N1)%Z -> (3 <= N2)%Z ->
    (inject_Z N1 - (2#3) <= s1 + (1#1000) < inject_Z N1)%Q -> (inject_Z N2 - (2#3) <= s2 + (1#1000) < inject_Z N2)%Q ->
    Permutation axes [0; 1] ->
    exists l' dt, build query argsort [u; v] l (ASize [s1; s2]) true None true None (Some (AxList axes)) None = (l', Ok tt) /\ lt_data l' = Some dt /\
      forall eps t : R, exists M,
        (let mp := fst (data_map argsort' dt) in build_csr cadd c0 mp (assign_all mp (dm_zeros c0 mp) [Onsite None (eps, 0%R); Hopping None (t, 0%R)]) None = Some M) /\
        Z.of_nat (m_rows M) = (2 * N1 * N2)%Z /\ m_cols M = m_rows M /\
        (forall e, eigenvalue M (eps + e) <-> exists k1 k2, whole_turns N1 N2 k1 k2 /\ (e * e = t * t * (3 + 2 * cos k1 + 2 * cos k2 + 2 * cos (k1 - k2)))%R) /\
        (t <> 0%R -> (eigenvalue M eps <-> (3 | N1)%Z /\ (3 | N2)%Z)).
Proof.
  intros query argsort argsort' inv q a k s l u v s1 s2 N1 N2 axes Hq Harg Harg' I2 Ek Ha Hq0 He Hs El Hu Hv Hsum P1 P2 B1 B2 Hperm.
  assert (forall c, In c axes <-> c < 2) as Hax.
  { intro c. split; intro Hc; [apply (Permutation_in _ Hperm) in Hc; destruct Hc as [<-|[<-|[]]]; lia|]. apply (Permutation_in _ (Permutation_sym Hperm)). destruct c as [|[|c]]; cbn; auto; lia. }
  destruct (C113_honeycomb query argsort inv q a k s l u v s1 s2 N1 N2 axes) as (l' & dt & T1 & T2 & T3 & T4 & T5 & T6 & T7 & T8); auto; try lia.
  { apply (Permutation_NoDup (Permutation_sym Hperm)). repeat constructor; cbn; intuition lia. }
  { intros c Hc. apply Hax in Hc. destruct c as [|[|c]]; cbn; lia. }
  destruct (C92_fresh_after_build _ _ _ _ _ _ _ _ _ _ _ _ T1) as [dt' [Edt Hfresh]]. rewrite T3 in Edt. injection Edt as <-.
  exists l', dt. split; [exact T1|]. split; [exact T3|]. intros eps t.
  assert (forall x n y, x < 2 -> In (n, y) (honey_star x) -> length n = 2 /\ y < 2) as Hst.
  { intros x n y Hx Hin. unfold honey_star in Hin. apply in_map_iff in Hin. destruct Hin as [m [Em Hm]]. injection Em as <- <-. split; [apply (three_length x); auto|destruct x; lia]. }
  assert (P1' : (0 < N1)%Z) by lia. assert (P2' : (0 < N2)%Z) by lia. assert (A0 : In 0 axes) by (apply Hax; lia). assert (A1 : In 1 axes) by (apply Hax; lia).
  destruct (uniform_rows argsort' dt axes N1 N2 2 honey_star Harg' (wf_c _ T4) T6 Hfresh P1' P2' A0 A1 ltac:(lia) T7 Hst) with (e := (eps, 0%R)) (t := (t, 0%R)) as (M & E & E1 & E2 & HM).
  { intros i N x Ei. destruct (T8 i N x Ei) as (G1 & _ & G3 & G4). split; [exact G1|]. split.
    - intro j. rewrite G3. split.
      + intros (n & Hn & Ej). exists n, (1 - x). split; [apply in_map_iff; exists n; auto|exact Ej].
      + intros (n & y & Hn & Ej). apply in_map_iff in Hn. destruct Hn as [m [Em Hm]]. injection Em as <- <-. exists m. auto.
    - rewrite G4 by (intros; apply Hax; auto). unfold honey_star, three_cells, bent_cells. destruct x; reflexivity. }
  exists M. split; [exact E|]. split; [rewrite E1; exact T5|]. split; [congruence|].
  assert (forall e, eigenvalue M (eps + e) <-> exists k1 k2, whole_turns N1 N2 k1 k2 /\ (e * e = t * t * honey_square k1 k2)%R) as Hall.
  2: { split; [exact Hall|]. intro Ht. rewrite <- (meeting_energies N1 N2 t P1' P2' Ht), <- Hall, Rplus_0_r. reflexivity. }
  intro e. split.
  { intro Hev. destruct (eigen_wave dt axes N1 N2 2 honey_star T6 P1' P2' A0 A1 T7 Hst (eps, 0%R) (t, 0%R) M (eps + e) HM E1 Hev) as (k1 & k2 & w & x0 & Hk & Hx0 & Hw0 & Hw).
    exists k1, k2. split; [exact Hk|]. apply (honey_secular k1 k2 t e w x0 Hx0 Hw0). intros x Hx. specialize (Hw x Hx). rewrite honey_sum in Hw by exact Hx.
    transitivity (cadd (cmul (eps + e, 0)%R (w x)) (copp (cmul (eps, 0)%R (w x)))); [|rewrite Hw; ring].
    replace (eps + e, 0)%R with (cadd (eps, 0) (e, 0))%R by (unfold cadd; cbn; f_equal; ring). ring. }
  intros (k1 & k2 & Hk & Ee). destruct (honey_amplitudes k1 k2 t e Ee) as (w & (x0 & Hx0 & Hw0) & Hw). exists (cell_wave (d_indices dt) k1 k2 w). rewrite E1. split.
  - assert (In ([0; 0]%Z ++ [Z.of_nat x0]) (d_indices dt)) as Hin.
    { apply T7. exists [0; 0]%Z, x0. split; [reflexivity|]. split; [reflexivity|]. split; [|exact Hx0]. intros [|[|c]] Hc; cbn; lia. }
    apply In_nth_error in Hin. destruct Hin as [i Hi]. exists i. split; [apply (nth_error_length_lt _ _ _ Hi)|].
    unfold cell_wave. rewrite (form_atom dt i _ _ Hi). apply cmul_nonzero; [exact Hw0|apply cexp_nonzero].
  - intros i Hi. rewrite (wave_rows dt axes N1 N2 2 honey_star P1' P2' A0 A1 T7 Hst (eps, 0%R) (t, 0%R)) by auto. cbv zeta.
    assert (SpecNeighbors.atom_of (d_indices dt) i < 2) as Hx.
    { destruct (nth_error_lt (d_indices dt) i Hi) as [t' Ht]. pose proof (nth_error_In _ _ Ht) as Hin. apply T7 in Hin. destruct Hin as (n & x & -> & _ & _ & Hx). rewrite (form_atom dt i _ _ Ht). exact Hx. }
    rewrite honey_sum, Hw by exact Hx. unfold cell_wave. set (ux := w _). set (ph := cexp_i _). replace (eps + e, 0)%R with (cadd (eps, 0) (e, 0))%R by (unfold cadd; cbn; f_equal; ring). ring.
Qed.

(** ** Hexagonal lattices with one atom *)

Definition hex_star (x : nat) : list (list Z * nat) := map (fun n => (n, 0)) [[1; 0]; [-1; 0]; [0; 1]; [0; -1]; [1; -1]; [-1; 1]]%Z.

Lemma hex_sum k1 k2 u x :
  csum (map (fun ny => cmul (cexp_i (cell_phase k1 k2 (fst ny))) (u (snd ny))) (hex_star x)) = cmul (2 * (cos k1 + cos k2 + cos (k1 - k2)), 0)%R (u 0).
Proof.
  unfold hex_star, cell_phase. cbn [map fst snd nth csum]. destruct (u 0) as [p q]. unfold cexp_i, cmul, cadd, c0. cbn [fst snd].
  rewrite ?Rmult_0_r, ?Rplus_0_l, ?Rplus_0_r, ?Rmult_1_r.
  replace (k1 * -1 + k2)%R with (- (k1 - k2))%R by ring. replace (k1 + k2 * -1)%R with (k1 - k2)%R by ring.
  replace (k1 * -1)%R with (- k1)%R by ring. replace (k2 * -1)%R with (- k2)%R by ring. rewrite ?cos_neg, ?sin_neg. f_equal; ring.
Qed.

(** For hexagonal lattices with one atom, periodic along both axes, the eigenvalues are exactly the values [eps + 2 t (cos k1 + cos k2 + cos (k1 - k2))]. *)
Theorem C117_hexagonal :
  forall query argsort argsort' inv sqrt3 a at1 k u v s1 s2 N1 N2 axes,
    correct_tree query -> is_argsort dleb argsort -> is_argsort Nat.leb argsort' -> inverts inv 2 ->
    (7#5 <= a)%Q -> (0 < sqrt3)%Q -> (299#100 <= sqrt3 * sqrt3 <= 301#100)%Q ->
    rounds_to_micro (a * a * ((9 + sqrt3 * sqrt3) * (1#4)))%Q k -> rounds_to_micro (a * a * (sqrt3 * sqrt3))%Q k ->
    (0 <= u <= 2 * a)%Q -> (0 <= v <= 2 * a)%Q -> (1#10 <= s1)%Q -> (1#10 <= s2)%Q -> (a * (s1 + s2) < inject_Z (2 ^ 60))%Q ->
    (3 <= N1)%Z -> (3 <= N2)%Z ->
    (inject_Z N1 - 1 <= s1 + (1#1000) < inject_Z N1)%Q -> (inject_Z N2 - 1 <= s2 + (1#1000) < inject_Z N2)%Q ->
    Permutation axes [0; 1] ->
    exists s l' dt, simple_hexagonal query inv sqrt3 a at1 1 = Ok s /\
      build query argsort [u; v] (new_lattice s) (ASize [s1; s2]) true None true None (Some (AxList axes)) None = (l', Ok tt) /\ lt_data l' = Some dt /\
      forall eps t : R, exists M,
        (let mp := fst (data_map argsort' dt) in build_csr cadd c0 mp (assign_all mp (dm_zeros c0 mp) [Onsite None (eps, 0%R); Hopping None (t, 0%R)]) None = Some M) /\
        Z.of_nat (m_rows M) = (N1 * N2)%Z /\ m_cols M = m_rows M /\
        forall lambda, eigenvalue M lambda <-> exists k1 k2, whole_turns N1 N2 k1 k2 /\ (lambda = eps + 2 * t * (cos k1 + cos k2 + cos (k1 - k2)))%R.
Proof.
  intros query argsort argsort' inv q a at1 k u v s1 s2 N1 N2 axes Hq Harg Harg' I2 Ha Hq0 Hqq R1 R2 Hu Hv S1 S2 Hbig P1 P2 B1 B2 Hperm.
  assert (forall c, In c axes <-> c < 2) as Hax.
  { intro c. split; intro Hc; [apply (Permutation_in _ Hperm) in Hc; destruct Hc as [<-|[<-|[]]]; lia|]. apply (Permutation_in _ (Permutation_sym Hperm)). destruct c as [|[|c]]; cbn; auto; lia. }
  destruct (C113_hexagonal query argsort inv q a at1 k u v s1 s2 N1 N2 axes) as (s & l' & dt & T0 & T1 & T2 & T3 & T4 & T5 & T6 & T7 & T8); auto; try lia.
  { apply (Permutation_NoDup (Permutation_sym Hperm)). repeat constructor; cbn; intuition lia. }
  { intros c Hc. apply Hax in Hc. destruct c as [|[|c]]; cbn; lia. }
  destruct (C92_fresh_after_build _ _ _ _ _ _ _ _ _ _ _ _ T1) as [dt' [Edt Hfresh]]. rewrite T3 in Edt. injection Edt as <-.
  exists s, l', dt. split; [exact T0|]. split; [exact T1|]. split; [exact T3|]. intros eps t.
  assert (forall t, In t (d_indices dt) <-> exists n x, t = n ++ [Z.of_nat x] /\ length n = 2 /\ box 2 [0; 0]%Z [N1; N2] n /\ x < 1) as T7'.
  { intro t'. rewrite T7. split; [intros (n & -> & Hn & Hb); exists n, 0; auto|intros (n & x & -> & Hn & Hb & Hx); assert (x = 0) as -> by lia; exists n; auto]. }
  assert (forall i x N, nth_error (d_indices dt) i = Some (N ++ [Z.of_nat x]) -> x = 0) as Hzero.
  { intros i x N Ei. apply nth_error_In, T7 in Ei. destruct Ei as (n & En & _). apply app_inj_tail in En. destruct En. lia. }
  assert (forall x n y, x < 1 -> In (n, y) (hex_star x) -> length n = 2 /\ y < 1) as Hst.
  { intros x n y Hx Hin. unfold hex_star in Hin. apply in_map_iff in Hin. destruct Hin as [m [Em Hm]]. injection Em as <- <-. split; [|lia].
    cbn in Hm. intuition (subst; reflexivity). }
  assert (P1' : (0 < N1)%Z) by lia. assert (P2' : (0 < N2)%Z) by lia. assert (A0 : In 0 axes) by (apply Hax; lia). assert (A1 : In 1 axes) by (apply Hax; lia).
  destruct (uniform_rows argsort' dt axes N1 N2 1 hex_star Harg' (wf_c _ T4) T6 Hfresh P1' P2' A0 A1 ltac:(lia) T7' Hst) with (e := (eps, 0%R)) (t := (t, 0%R)) as (M & E & E1 & E2 & HM).
  { intros i N x Ei. pose proof (Hzero i x N Ei) as ->. destruct (T8 i N Ei) as (G1 & _ & G3 & G4). split; [exact G1|]. split.
    - intro j. rewrite G3. split.
      + intros (n & Hn & Ej). exists n, 0. split; [apply in_map_iff; exists n; auto|exact Ej].
      + intros (n & y & Hn & Ej). apply in_map_iff in Hn. destruct Hn as [m [Em Hm]]. injection Em as <- <-. exists m. split; [exact Hm|exact Ej].
    - rewrite G4 by (intros; apply Hax; auto). reflexivity. }
  exists M. split; [exact E|]. split; [rewrite E1; exact T5|]. split; [congruence|]. intro lambda.
  assert (forall k1 k2, (eps + 2 * t * (cos k1 + cos k2 + cos (k1 - k2)), 0)%R = cadd (eps, 0)%R (cmul (t, 0)%R (2 * (cos k1 + cos k2 + cos (k1 - k2)), 0)%R)) as El
    by (intros; unfold cadd, cmul; cbn; f_equal; ring). split.
  { intro Hev. destruct (eigen_wave dt axes N1 N2 1 hex_star T6 P1' P2' A0 A1 T7' Hst (eps, 0%R) (t, 0%R) M lambda HM E1 Hev) as (k1 & k2 & w & x0 & Hk & Hx0 & Hw0 & Hw).
    exists k1, k2. split; [exact Hk|]. assert (x0 = 0) as -> by lia. specialize (Hw 0 ltac:(lia)). rewrite hex_sum in Hw.
    destruct (Req_EM_T (lambda - (eps + 2 * t * (cos k1 + cos k2 + cos (k1 - k2)))) 0) as [Z|Z]; [lra|]. exfalso.
    apply (cmul_nonzero (lambda - (eps + 2 * t * (cos k1 + cos k2 + cos (k1 - k2))), 0)%R (w 0)); [intro G; injection G; exact Z|exact Hw0|].
    transitivity (cadd (cmul (lambda, 0)%R (w 0)) (copp (cmul (eps + 2 * t * (cos k1 + cos k2 + cos (k1 - k2)), 0)%R (w 0)))).
    - destruct (w 0). unfold cmul, cadd, copp. cbn [fst snd]. f_equal; ring.
    - rewrite Hw, El. ring. }
  intros (k1 & k2 & Hk & ->).
  exists (cell_wave (d_indices dt) k1 k2 (fun _ => (1, 0)%R)). rewrite E1.
  assert ((1, 0)%R <> c0) as H10 by (intro H; injection H; lra). split.
  - exists 0. split; [unfold nsites; nia|]. unfold cell_wave. apply cmul_nonzero; [exact H10|apply cexp_nonzero].
  - intros i Hi. rewrite (wave_rows dt axes N1 N2 1 hex_star P1' P2' A0 A1 T7' Hst (eps, 0%R) (t, 0%R)) by auto. cbv zeta. pose proof (hex_sum k1 k2 (fun _ => (1, 0)%R) (SpecNeighbors.atom_of (d_indices dt) i)) as G. cbv beta in G |- *. rewrite G. clear G. unfold cell_wave. set (ph := cexp_i _).
    rewrite El. ring.
Qed.

(** Graphene with three by three cells: at the angles of a corner of the zone the two energies meet, at those of its centre they are farthest apart. *)
Example C117_graphene_example :
  exists s l' dt, graphene brute inverse_small sqrt3_double (142#100) 7 = Ok s /\
    build brute dist_argsort [246#100; 246#100]%Q (new_lattice s) (ASize [5#2; 5#2]%Q) true None true None (Some (AxList [1; 0])) None = (l', Ok tt) /\ lt_data l' = Some dt /\
    forall eps t, exists M,
      (let mp := fst (data_map nat_argsort dt) in build_csr cadd c0 mp (assign_all mp (dm_zeros c0 mp) [Onsite None (eps, 0%R); Hopping None (t, 0%R)]) None = Some M) /\
      m_rows M = 18 /\ m_cols M = 18 /\ eigenvalue M eps /\ eigenvalue M (eps + 3 * t) /\ eigenvalue M (eps - 3 * t).
Proof.
  destruct C113_honeycomb_example as (H1 & H2 & H3 & H4 & H5 & H6 & H7 & _ & _ & s & _ & _ & H8 & _).
  destruct (C117_graphene brute dist_argsort nat_argsort inverse_small sqrt3_double (142#100) 1420000 s (new_lattice s) (246#100) (246#100) (5#2) (5#2) 3 3 [1; 0])
    as (l' & dt & E1 & E2 & HM); auto; try lia; try reflexivity; try (split; apply Qle_bool_imp_le; reflexivity).
  { exact nat_argsort_ok. }
  { right. exists 7. exact H8. }
  { apply perm_swap. }
  exists s, l', dt. split; [exact H8|]. split; [exact E1|]. split; [exact E2|]. intros eps t. destruct (HM eps t) as (M & E3 & E4 & E5 & HE & _).
  exists M. split; [exact E3|]. split; [lia|]. split; [lia|]. split; [|split].
  - replace eps with (eps + 0)%R by ring. apply HE. exists (2 * (PI / 3))%R, (- (2 * (PI / 3)))%R. split; [exists 1%Z, (-1)%Z; split; lra|].
    replace (2 * (PI / 3) - - (2 * (PI / 3)))%R with (2 * (2 * (PI / 3)))%R by ring. rewrite cos_neg, (cos_2a_cos (2 * (PI / 3))), cos_2PI3. lra.
  - apply HE. exists 0%R, 0%R. split; [exists 0%Z, 0%Z; split; lra|]. rewrite Rminus_0_r, cos_0. ring.
  - apply HE. exists 0%R, 0%R. split; [exists 0%Z, 0%Z; split; lra|]. rewrite Rminus_0_r, cos_0. ring.
Qed.

(** A hexagonal lattice with 4 by 3 cells. *)
Example C117_hexagonal_example :
  exists s l' dt, simple_hexagonal brute inverse_small sqrt3_double (142#100) (ex_atom "A") 1 = Ok s /\
    build brute dist_argsort [246#100; 246#100]%Q (new_lattice s) (ASize [3; 5#2]%Q) true None true None (Some (AxList [0; 1])) None = (l', Ok tt) /\ lt_data l' = Some dt /\
    forall eps t, exists M,
      (let mp := fst (data_map nat_argsort dt) in build_csr cadd c0 mp (assign_all mp (dm_zeros c0 mp) [Onsite None (eps, 0%R); Hopping None (t, 0%R)]) None = Some M) /\
      m_rows M = 12 /\ m_cols M = 12 /\ eigenvalue M (eps + 6 * t) /\ eigenvalue M (eps - 2 * t).
Proof.
  destruct C113_hexagonal_example as (H1 & H2 & _).
  destruct (C117_hexagonal brute dist_argsort nat_argsort inverse_small sqrt3_double (142#100) (ex_atom "A") 2459512 (246#100) (246#100) 3 (5#2) 4 3 [0; 1])
    as (s & l' & dt & E0 & E1 & E2 & HM); auto; try lia; try exact brute_nearest; try exact dist_argsort_ok; try exact nat_argsort_ok; try exact inverse_small_2;
    try (apply Qle_bool_imp_le; reflexivity); try (split; apply Qle_bool_imp_le; reflexivity); try reflexivity;
    try (split; [apply Qle_bool_imp_le; reflexivity|reflexivity]).
  exists s, l', dt. split; [exact E0|]. split; [exact E1|]. split; [exact E2|]. intros eps t. destruct (HM eps t) as (M & E3 & E4 & E5 & HE).
  exists M. split; [exact E3|]. split; [lia|]. split; [lia|]. split.
  - apply HE. exists 0%R, 0%R. split; [exists 0%Z, 0%Z; split; lra|]. rewrite Rminus_0_r, cos_0. ring.
  - apply HE. exists PI, 0%R. split; [exists 2%Z, 0%Z; split; lra|]. rewrite Rminus_0_r, cos_0, cos_PI. ring.
Qed.

Print Assumptions C117_graphene.
Print Assumptions C117_hexagonal.
