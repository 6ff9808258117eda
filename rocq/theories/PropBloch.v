(** * Property C93: Hamiltonians of periodic blocks and [fourier_weights] *)
From Coq Require Import String List ZArith QArith Qreals Reals Lra Bool Arith Lia Lqa Permutation Sorting.Sorted.
From Verif Require Import Np NpFacts LinAlg LinFacts SpecUtils UtilsModel UtilsProofs PropUtils SpecBasis AtomModel BasisModel BasisProofs PropBasis SpatialModel SpecSpatial SpatialProofs SpecStructure ShapeModel StructureModel KDBrute KDProofs RoundFacts StructureFacts
  AnalyzeProofs PropAnalyze SpecNeighbors PropNeighbors SpecLattice DataModel SpecData DataFacts DataProofs LatticeModel LatticeExamples SpecGrid GridProofs
  StructureProofs PropStructure PropData PropDataMap SpecBuild BuildProofs PropBuild NeighborProofs RangeProofs PropBuilt SpecJoin SpecTorus PropTorus SpecBlock BlockProofs PropBlock PropFinite
  MatrixModel SpecMatrix PropMatrix PropMatrixBuilt RealModel PropReal SpecBloch.
Import ListNotations.
Open Scope nat_scope.
Open Scope list_scope.

Notation atom_of := SpecNeighbors.atom_of.

(** ** Complex numbers *)

Definition c1 : cplx := (1, 0)%R.
Definition copp (x : cplx) : cplx := (- fst x, - snd x)%R.
Definition csub (x y : cplx) : cplx := cadd x (copp y).

Lemma cplx_ring : ring_theory c0 c1 cadd cmul csub copp eq.
Proof.
  constructor; intros; repeat match goal with x : cplx |- _ => destruct x end;
    unfold c0, c1, csub, cadd, cmul, copp; cbn [fst snd]; f_equal; ring.
Qed.
Add Ring cplx_ring_add : cplx_ring.

Lemma cadd_addition : addition cadd c0.
Proof. repeat split; intros; ring. Qed.

Lemma cexp_add x y : cexp_i (x + y) = cmul (cexp_i x) (cexp_i y).
Proof. unfold cexp_i, cmul. cbn [fst snd]. rewrite cos_plus, sin_plus. f_equal; ring. Qed.

Lemma turns x (m : Z) : cexp_i (x + 2 * PI * IZR m) = cexp_i x.
Proof.
  unfold cexp_i. destruct (Z_le_gt_dec 0 m) as [H|H].
  - rewrite <- (Z2Nat.id m H), <- INR_IZR_INZ. replace (2 * PI * INR (Z.to_nat m))%R with (2 * INR (Z.to_nat m) * PI)%R by ring.
    rewrite cos_period, sin_period. reflexivity.
  - pose proof (cos_period (x + 2 * PI * IZR m) (Z.to_nat (- m))) as Hc. pose proof (sin_period (x + 2 * PI * IZR m) (Z.to_nat (- m))) as Hs.
    rewrite INR_IZR_INZ, Z2Nat.id, opp_IZR in Hc, Hs by lia.
    replace (x + 2 * PI * IZR m + 2 * - IZR m * PI)%R with x in Hc, Hs by ring. congruence.
Qed.

Lemma csum_map_add {A} (f g : A -> cplx) l : csum (map (fun x => cadd (f x) (g x)) l) = cadd (csum (map f l)) (csum (map g l)).
Proof. induction l as [|x l IH]; cbn [map csum]; [ring|]. rewrite IH. ring. Qed.

Lemma csum_map_mul {A} c (f : A -> cplx) l : csum (map (fun x => cmul c (f x)) l) = cmul c (csum (map f l)).
Proof. induction l as [|x l IH]; cbn [map csum]; [ring|]. rewrite IH. ring. Qed.

Lemma csum_zero {A} (f : A -> cplx) l : (forall x, In x l -> f x = c0) -> csum (map f l) = c0.
Proof. intro H. induction l as [|x l IH]; cbn [map csum]; [reflexivity|]. rewrite H, IH by (auto with datatypes). ring. Qed.

Lemma csum_one (f : nat -> cplx) N i : i < N -> (forall j, j < N -> j <> i -> f j = c0) -> csum (map f (seq 0 N)) = f i.
Proof.
  intros Hi H. assert (forall n s, (forall j, s <= j < s + n -> j <> i -> f j = c0) -> csum (map f (seq s n)) = if (s <=? i) && (i <? s + n) then f i else c0) as G.
  { clear. induction n as [|n IH]; intros s H; cbn [seq map csum].
    - destruct (Nat.leb_spec s i), (Nat.ltb_spec i (s + 0)); cbn; auto; lia.
    - rewrite IH by (intros; apply H; lia). destruct (Nat.eq_dec s i) as [->|Hne].
      + destruct (Nat.leb_spec (S i) i), (Nat.leb_spec i i), (Nat.ltb_spec i (i + S n)); cbn; try lia. ring.
      + rewrite (H s) by lia.
        destruct (Nat.leb_spec (S s) i), (Nat.ltb_spec i (S s + n)), (Nat.leb_spec s i), (Nat.ltb_spec i (s + S n)); cbn; try lia; ring. }
  rewrite G by (intros; apply H; lia). destruct (Nat.leb_spec 0 i), (Nat.ltb_spec i (0 + N)); cbn; auto; lia.
Qed.

Lemma csum_total l : csum l = total cadd c0 l.
Proof. induction l as [|x l IH]; cbn; [reflexivity|]. rewrite IH. reflexivity. Qed.

(** The sum over all columns of what is collected per column. *)
Lemma product_by_slots (e : cplx) (psi : nat -> cplx) (h : nat -> cplx) (nbr : nat -> nat) N i S : i < N -> (forall c, In c S -> nbr c < N) ->
  csum (map (fun j => cmul (cadd (if i =? j then e else c0) (total cadd c0 (map h (filter (fun c => nbr c =? j) S)))) (psi j)) (seq 0 N)) =
  cadd (cmul e (psi i)) (csum (map (fun c => cmul (h c) (psi (nbr c))) S)).
Proof.
  intros Hi HS. induction S as [|c S IH].
  - cbn [filter map total fold_right csum]. rewrite (csum_one _ N i Hi).
    + rewrite Nat.eqb_refl. ring.
    + intros j _ Hj. apply Nat.neq_sym, Nat.eqb_neq in Hj. rewrite Hj. ring.
  - cbn [map csum]. rewrite (map_ext_in _ (fun j => cadd (if nbr c =? j then cmul (h c) (psi j) else c0)
      (cmul (cadd (if i =? j then e else c0) (total cadd c0 (map h (filter (fun c => nbr c =? j) S)))) (psi j)))).
    + rewrite csum_map_add, IH by (intros; apply HS; right; auto).
      rewrite (csum_one (fun j => if nbr c =? j then cmul (h c) (psi j) else c0) N (nbr c)).
      * rewrite Nat.eqb_refl. ring.
      * apply HS. left. reflexivity.
      * intros j _ Hj. apply Nat.neq_sym, Nat.eqb_neq in Hj. rewrite Hj. reflexivity.
    + intros j _. cbn [filter]. destruct (nbr c =? j); cbn [map total fold_right]; unfold total; ring.
Qed.

(** ** The product of a Hamiltonian and a vector, for any lattice *)
Theorem C93_product :
  forall argsort dt l psi,
    is_argsort Nat.leb argsort -> wf_core dt -> few_atoms dt -> d_dmap dt = None -> 0 < nsites dt -> Forall not_negative l ->
    let m := fst (data_map argsort dt) in
    exists M, build_csr cadd c0 m (assign_all m (dm_zeros c0 m) l) None = Some M /\ m_rows M = nsites dt /\ m_cols M = nsites dt /\
      forall i, i < nsites dt -> row_product M psi i =
        cadd (cmul (onsite_value c0 l (site_atom dt i)) (psi i))
             (csum (map (fun c => cmul (hopping_value c0 l (di dt i c)) (psi (nb dt i c))) (valid_slots dt i))).
Proof.
  intros argsort dt l psi Harg W Hfew Hm HN Hl m.
  destruct (C92_csr cadd c0 argsort dt l cadd_addition Harg W Hfew Hm HN Hl) as [M [E [E1 [E2 HM]]]].
  exists M. split; [exact E|]. split; [exact E1|]. split; [exact E2|]. intros i Hi. unfold row_product. rewrite E2.
  rewrite (map_ext_in _ (fun j => cmul (cadd (if i =? j then onsite_value c0 l (site_atom dt i) else c0)
    (total cadd c0 (map (fun c => hopping_value c0 l (di dt i c)) (filter (fun c => nb dt i c =? j) (valid_slots dt i))))) (psi j))).
  - apply product_by_slots; auto. intros c Hc. unfold valid_slots in Hc. apply filter_In in Hc. destruct Hc as [Hc Hv]. apply in_seq in Hc.
    apply (wf_nb _ W); auto; lia.
  - intros j Hj. apply in_seq in Hj. rewrite HM by lia. reflexivity.
Qed.

(** ** Phases *)

Lemma rdot_map_add (q : list R) F G l : rdot q (map (fun j : nat => (F j + G j)%R) l) = (rdot q (map F l) + rdot q (map G l))%R.
Proof. revert l. induction q as [|x q IH]; intros [|j l]; cbn [rdot map]; try ring. rewrite IH. ring. Qed.

Lemma rdot_map_scale (q : list R) c F l : rdot q (map (fun j : nat => (c * F j)%R) l) = (c * rdot q (map F l))%R.
Proof. revert l. induction q as [|x q IH]; intros [|j l]; cbn [rdot map]; try ring. rewrite IH. ring. Qed.

Section Phases.
  Variables (d : nat) (q : list R).

  Definition ph (f : nat -> Q) : R := rdot q (map (fun j => Q2R (f j)) (seq 0 d)).

  Lemma ph_ext f g : (forall j, j < d -> (f j == g j)%Q) -> ph f = ph g.
  Proof. intro H. unfold ph. f_equal. apply map_ext_in. intros j Hj. apply in_seq in Hj. apply Qeq_eqR, H. lia. Qed.

  Lemma ph_add f g : ph (fun j => f j + g j)%Q = (ph f + ph g)%R.
  Proof. unfold ph. rewrite <- rdot_map_add. f_equal. apply map_ext. intro j. apply Q2R_plus. Qed.

  Lemma ph_scale z f : ph (fun j => f j * inject_Z z)%Q = (IZR z * ph f)%R.
  Proof.
    unfold ph. rewrite <- rdot_map_scale. f_equal. apply map_ext. intro j. rewrite Q2R_mult.
    replace (Q2R (inject_Z z)) with (IZR z) by (unfold Q2R; cbn; field). ring.
  Qed.

  Lemma ph_zero : ph (fun _ => 0%Q) = 0%R.
  Proof.
    unfold ph. generalize (seq 0 d) as l. induction q as [|x q' IH]; intros [|j l]; cbn [rdot map]; try reflexivity.
    rewrite IH, RMicromega.Q2R_0. ring.
  Qed.

  Lemma rpoint_ph p : length p = d -> rdot q (rpoint p) = ph (fun j => nth j p 0%Q).
  Proof.
    intro H. unfold ph, rpoint. f_equal. apply (list_eq_nth _ _ 0%R); [rewrite !map_length, seq_length; auto|].
    intros k Hk. rewrite map_length in Hk. rewrite (nth_map_in _ _ _ 0%Q) by auto. rewrite (nth_map_in _ _ _ 0) by (rewrite seq_length; lia).
    rewrite seq_nth by lia. reflexivity.
  Qed.

  (** Whole numbers of blocks do not change the phase. *)
  Lemma whole_blocks (V : list (list Q)) (L z : nat -> Z) K theta :
    (forall k, k < K -> exists y, (IZR (L k) * ph (fun j => entry V j k) = 2 * PI * IZR y)%R) ->
    cexp_i (theta + ph (fun j => sum_upto K (fun k => entry V j k * inject_Z (z k * L k))%Q)) = cexp_i theta.
  Proof.
    induction K as [|K IH]; intro H; cbn [sum_upto].
    - rewrite ph_zero. f_equal. ring.
    - rewrite ph_add, ph_scale, mult_IZR. destruct (H K ltac:(lia)) as [y Hy].
      replace (theta + (ph (fun j => sum_upto K (fun k => entry V j k * inject_Z (z k * L k))%Q) + IZR (z K) * IZR (L K) * ph (fun j => entry V j K)))%R
        with ((theta + ph (fun j => sum_upto K (fun k => entry V j k * inject_Z (z k * L k))%Q)) + 2 * PI * IZR (z K * y))%R
        by (rewrite mult_IZR; transitivity (theta + ph (fun j => sum_upto K (fun k => entry V j k * inject_Z (z k * L k))%Q) + IZR (z K) * (2 * PI * IZR y))%R; [ring|rewrite <- Hy; ring]).
      rewrite turns. apply IH. intros k Hk. apply H. lia.
  Qed.
End Phases.

Lemma relation_sum {A B} (Rel : A -> B -> Prop) (f : A -> cplx) (g : B -> cplx) (J : list A) (K : list B) : NoDup J -> NoDup K ->
  (forall j, In j J -> exists y, In y K /\ Rel j y) -> (forall y, In y K -> exists j, In j J /\ Rel j y) ->
  (forall j j' y, In j J -> In j' J -> Rel j y -> Rel j' y -> j = j') -> (forall j y y', In y K -> In y' K -> Rel j y -> Rel j y' -> y = y') ->
  (forall j y, In j J -> In y K -> Rel j y -> f j = g y) -> csum (map f J) = csum (map g K).
Proof.
  revert K. induction J as [|j J IH]; intros K HJ HK H1 H2 H3 H4 H5.
  - destruct K as [|y K]; [reflexivity|]. destruct (H2 y (or_introl eq_refl)) as [j [[] _]].
  - inversion HJ as [|? ? N1 N2]; subst. destruct (H1 j (or_introl eq_refl)) as [y [Hy Ry]]. pose proof Hy as Hy0. apply in_split in Hy. destruct Hy as [K1 [K2 ->]].
    assert (csum (map g (K1 ++ y :: K2)) = cadd (g y) (csum (map g (K1 ++ K2)))) as ->.
    { clear. induction K1 as [|x K1 IH]; cbn [app map csum]; [reflexivity|]. rewrite IH. ring. }
    pose proof (NoDup_remove_1 _ _ _ HK) as HK'. pose proof (NoDup_remove_2 _ _ _ HK) as Hny.
    assert (forall x, In x (K1 ++ K2) -> In x (K1 ++ y :: K2)) as Hsub by (intros x Hx; apply in_app_or in Hx; apply in_or_app; cbn; tauto).
    cbn [map csum]. rewrite (H5 j y) by (auto; left; auto). f_equal. apply IH; auto.
    + intros j' Hj'. destruct (H1 j' (or_intror Hj')) as [y' [Hy' Ry']]. exists y'. split; auto.
      apply in_app_or in Hy'. apply in_or_app. destruct Hy' as [Hy'|[E|Hy']]; auto. exfalso. subst y'. apply N1.
      rewrite (H3 j j' y); auto; [left|right]; auto.
    + intros y' Hy'. destruct (H2 y' (Hsub _ Hy')) as [j' [[<-|Hj'] Rj']]; eauto. exfalso. apply Hny. rewrite (H4 j y y'); auto.
    + intros; eapply H3; eauto; right; auto.
    + intros; eapply H4; eauto.
    + intros; apply H5; auto; right; auto.
Qed.

Lemma site_atom_nat dt i a : site_atom dt i = Z.of_nat a -> atom_of (d_indices dt) i = a.
Proof. unfold site_atom, atom_of. intros ->. apply Nat2Z.id. Qed.

(** ** Bloch's theorem *)
Section Torus.
  Context (d : nat) (V A : list (list Q)) (allowed : nat -> nat -> dist -> Prop) (o L : list Z) (axes : list nat) (dt : data).
  Hypothesis F : full_torus d V A allowed o L axes dt.
  Let I := d_indices dt.
  Let tor i j m x := torus_bond d V A allowed L axes (nth i I []) (nth j I []) m x.

  Lemma torus_cell i : i < nsites dt -> box d o L (nth i I []) /\ atom_of I i < length A /\ exists n, nth i I [] = n ++ [Z.of_nat (atom_of I i)] /\ length n = d.
  Proof.
    intro Hi. assert (In (nth i I []) I) as Hin by (apply nth_In; auto). apply (ft_sites _ _ _ _ _ _ _ _ F) in Hin. destruct Hin as [n [a [E [Ln [Hn Ha']]]]].
    unfold atom_of. rewrite E, last_last, Nat2Z.id. split; [intros k Hk; rewrite app_nth1 by lia; auto|]. split; auto. exists n. auto.
  Qed.

  Lemma torus_mod i j m x k : tor i j m x -> k < d -> exists z, nth k (nth j I []) 0%Z = (nth k (nth i I []) 0 + nth k m 0 + z * nth k L 0)%Z.
  Proof.
    intros [_ H] Hk. destruct (H k Hk) as [E|[_ [z E]]]; [exists 0%Z; lia|exists z; lia].
  Qed.

  Lemma torus_same i j m m' x x' : tor i j m x -> tor i j m' x' -> m = m' /\ x = x'.
  Proof.
    intros T T'. pose proof T as [B1 _]. pose proof T' as [B2 _]. pose proof (ft_short _ _ _ _ _ _ _ _ F _ _ _ _ B1) as S1. pose proof (ft_short _ _ _ _ _ _ _ _ F _ _ _ _ B2) as S2.
    pose proof B1 as [_ [_ [L1 _]]]. pose proof B2 as [_ [_ [L2 _]]]. assert (m = m') as <-.
    { apply (list_eq_nth _ _ 0%Z); [congruence|]. intros k Hk. rewrite L1 in Hk. pose proof (ft_axes _ _ _ _ _ _ _ _ F k Hk) as Hin. specialize (S1 k Hin). specialize (S2 k Hin).
      destruct (torus_mod i j m x k T Hk) as [z1 E1]. destruct (torus_mod i j m' x' k T' Hk) as [z2 E2]. assert (z1 = z2) as -> by nia. lia. }
    split; auto. destruct B1 as [_ [_ [_ [[z1 [-> Z1]] _]]]]. destruct B2 as [_ [_ [_ [[z2 [-> Z2]] _]]]]. f_equal. eapply rounds_unique; eauto. reflexivity.
  Qed.

  Lemma torus_target i b m x : i < nsites dt -> bond d V A allowed (atom_of I i) b m x -> exists j, j < nsites dt /\ atom_of I j = b /\ tor i j m x.
  Proof.
    intros Hi B. pose proof B as [_ [Hb [Ln _]]]. pose proof (ft_cells _ _ _ _ _ _ _ _ F) as HL.
    set (e := map (fun k => (nth k o 0 + (nth k (nth i I []) 0 + nth k m 0 - nth k o 0) mod nth k L 0)%Z) (seq 0 d)).
    assert (forall k, k < d -> nth k e 0%Z = (nth k o 0 + (nth k (nth i I []) 0 + nth k m 0 - nth k o 0) mod nth k L 0)%Z) as He.
    { intros k Hk. unfold e. rewrite (nth_map_in _ _ _ 0) by (rewrite seq_length; auto). rewrite seq_nth by auto. reflexivity. }
    assert (length e = d) as Le by (unfold e; rewrite map_length, seq_length; auto).
    assert (In (e ++ [Z.of_nat b]) I) as Hin.
    { apply (ft_sites _ _ _ _ _ _ _ _ F). exists e, b. split; auto. split; auto. split; auto. intros k Hk. rewrite He by auto. pose proof (HL k Hk).
      pose proof (Z.mod_pos_bound (nth k (nth i I []) 0 + nth k m 0 - nth k o 0)%Z (nth k L 0%Z) ltac:(lia)). lia. }
    apply (In_nth _ _ []) in Hin. destruct Hin as [j [Hj Ej]]. exists j. split; auto.
    assert (atom_of I j = b) as Aj by (unfold atom_of; rewrite Ej, last_last, Nat2Z.id; auto). split; auto.
    split; [fold (atom_of I j); rewrite Aj; exact B|]. intros k Hk. right. split; [apply (ft_axes _ _ _ _ _ _ _ _ F); auto|]. rewrite Ej, app_nth1, He by lia.
    pose proof (HL k Hk). set (z := (nth k (nth i I []) 0 + nth k m 0 - nth k o 0)%Z). exists (- (z / nth k L 0))%Z. pose proof (Z.div_mod z (nth k L 0%Z) ltac:(lia)). unfold z in *. lia.
  Qed.

  Lemma torus_inj i j j' m x x' : j < nsites dt -> j' < nsites dt -> atom_of I j = atom_of I j' -> tor i j m x -> tor i j' m x' -> j = j'.
  Proof.
    intros Hj Hj' Ea T T'. destruct (torus_cell j Hj) as [B1 [_ [n [E1 L1]]]]. destruct (torus_cell j' Hj') as [B2 [_ [n' [E2 L2]]]].
    apply (proj1 (NoDup_nth I []) (ft_once _ _ _ _ _ _ _ _ F)); auto. rewrite E1, E2, Ea. f_equal. apply (list_eq_nth _ _ 0%Z); [congruence|]. intros k Hk.
    assert (k < d) as Hk' by lia. specialize (B1 k Hk'). specialize (B2 k Hk'). destruct (torus_mod _ _ _ _ k T Hk') as [z1 F1]. destruct (torus_mod _ _ _ _ k T' Hk') as [z2 F2].
    rewrite E1 in B1, F1. rewrite E2 in B2, F2. rewrite app_nth1 in B1, F1, B2, F2 by lia. assert (z1 = z2) as -> by nia. lia.
  Qed.

  (** The wave at the end of a bond. *)
  Lemma wave_bond q i j m x : fitting_wave d V L q -> i < nsites dt -> j < nsites dt -> tor i j m x ->
    wave q (nth j (d_positions dt) []) = cmul (wave q (nth i (d_positions dt) [])) (wave q (bond_vector d V A (atom_of I i) (atom_of I j) m)).
  Proof.
    intros [Lq Hq] Hi Hj T. unfold wave. destruct (ft_positions _ _ _ _ _ _ _ _ F i Hi) as [Li Pi]. destruct (ft_positions _ _ _ _ _ _ _ _ F j Hj) as [Lj Pj].
    rewrite lattice_point_length in Li, Lj. fold I in Pi, Pj.
    assert (length (bond_vector d V A (atom_of I i) (atom_of I j) m) = d) as Lb by (unfold bond_vector; rewrite map_length, seq_length; auto).
    rewrite !(rpoint_ph d) by assumption. rewrite <- cexp_add, <- ph_add.
    rewrite <- (whole_blocks d q V (fun k => nth k L 0%Z) (fun k => ((nth k (nth j I []) 0 - (nth k (nth i I []) 0 + nth k m 0)) / nth k L 0)%Z) d (ph d q (fun c => nth c (nth i (d_positions dt) []) 0 + nth c (bond_vector d V A (atom_of I i) (atom_of I j) m) 0)%Q)).
    - f_equal. rewrite <- ph_add. apply ph_ext. intros c Hc. rewrite Pi, Pj, !nth_lattice_point by auto.
      unfold bond_vector. rewrite (nth_map_in _ _ _ 0) by (rewrite seq_length; auto). rewrite seq_nth by auto. change (0 + c) with c. rewrite nth_lattice_point by auto.
      rewrite (sum_ext d (fun k => entry V c k * inject_Z (nth k (nth j I []) 0%Z))%Q (fun k =>
        (entry V c k * inject_Z (nth k (nth i I []) 0%Z) + entry V c k * inject_Z (nth k m 0%Z)) +
        entry V c k * inject_Z ((nth k (nth j I []) 0 - (nth k (nth i I []) 0 + nth k m 0)) / nth k L 0 * nth k L 0)%Z)%Q).
      + rewrite !sum_plus. ring.
      + intros k Hk. destruct (torus_mod _ _ _ _ k T Hk) as [z E]. pose proof (ft_cells _ _ _ _ _ _ _ _ F k Hk) as HL. rewrite E.
        replace (nth k (nth i I []) 0 + nth k m 0 + z * nth k L 0 - (nth k (nth i I []) 0 + nth k m 0))%Z with (z * nth k L 0)%Z by lia.
        rewrite Z.div_mul by lia. rewrite !inject_Z_plus. ring.
    - intros k Hk. destruct (Hq k Hk) as [z Hz]. exists z. rewrite <- Hz. f_equal. rewrite (rpoint_ph d).
      + apply ph_ext. intros c Hc. unfold lattice_column. rewrite (nth_map_in _ _ _ 0) by (rewrite seq_length; auto). rewrite seq_nth by auto. reflexivity.
      + unfold lattice_column. rewrite map_length, seq_length. auto.
  Qed.
End Torus.

(** What a Hamiltonian makes of a Bloch wave, that is of amplitudes [u] on the atoms of the unit cell times a plane wave:
    another one, whose amplitudes are given by the bonds of the infinite lattice. *)
Theorem C93_bloch :
  forall argsort d V A allowed o L axes dt l q (u : nat -> cplx) (t : dist -> cplx) (B : nat -> list (nat * list Z * dist)),
    is_argsort Nat.leb argsort -> full_torus d V A allowed o L axes dt -> 1 <= length A <= 128 -> d_dmap dt = None ->
    Forall not_negative l -> fitting_wave d V L q ->
    (* the hoppings, as function of the distance *)
    (forall k, k < d_invalid_distidx dt -> hopping_value c0 l k = t (nth k (d_distvals dt) Inf)) ->
    (* the bonds *)
    (forall a, a < length A -> NoDup (B a) /\ forall b m x, In (b, m, x) (B a) <-> bond d V A allowed a b m x) ->
    let m := fst (data_map argsort dt) in
    let psi i := cmul (u (atom_of (d_indices dt) i)) (wave q (nth i (d_positions dt) [])) in
    exists M, build_csr cadd c0 m (assign_all m (dm_zeros c0 m) l) None = Some M /\ m_rows M = nsites dt /\ m_cols M = nsites dt /\
      forall i, i < nsites dt -> let a := atom_of (d_indices dt) i in
        row_product M psi i = cmul (wave q (nth i (d_positions dt) []))
          (cadd (cmul (onsite_value c0 l (Z.of_nat a)) (u a))
                (csum (map (fun e => let '(b, m, x) := e in cmul (cmul (t x) (wave q (bond_vector d V A a b m))) (u b)) (B a)))).
Proof.
  intros argsort d V A allowed o L axes dt l q u t B Harg F HA Hm Hl Hq Ht HB m psi.
  pose proof (ft_torus _ _ _ _ _ _ _ _ F) as TB. pose proof (tb_wf _ _ _ _ _ _ _ TB) as W.
  assert (forall i, i < nsites dt -> site_atom dt i = Z.of_nat (atom_of (d_indices dt) i)) as Hat.
  { intros i Hi. destruct (torus_cell _ _ _ _ _ _ _ _ F i Hi) as [_ [_ [n [E _]]]]. unfold site_atom. rewrite E, last_last. reflexivity. }
  assert (few_atoms dt) as Hfew.
  { intros i Hi. destruct (torus_cell _ _ _ _ _ _ _ _ F i Hi) as [_ [La _]]. rewrite Hat by auto. split; [lia|]. apply (Nat2Z.inj_lt _ 128). lia. }
  assert (0 < nsites dt) as HN.
  { assert (In (map (fun k => nth k o 0%Z) (seq 0 d) ++ [Z.of_nat 0]) (d_indices dt)) as Hin.
    { apply (ft_sites _ _ _ _ _ _ _ _ F). eexists _, 0. split; [reflexivity|]. split; [rewrite map_length, seq_length; auto|]. split; [|lia].
      intros k Hk. rewrite (nth_map_in _ _ _ 0) by (rewrite seq_length; auto). rewrite seq_nth by auto. pose proof (ft_cells _ _ _ _ _ _ _ _ F k Hk). cbn. lia. }
    unfold nsites. destruct (d_indices dt); [destruct Hin|cbn; lia]. }
  destruct (C93_product argsort dt l psi Harg (wf_c _ W) Hfew Hm HN Hl) as [M [E [E1 [E2 HM]]]].
  exists M. split; [exact E|]. split; [exact E1|]. split; [exact E2|]. intros i Hi a. rewrite HM, Hat by auto. fold a.
  destruct (torus_cell _ _ _ _ _ _ _ _ F i Hi) as [_ [La _]]. fold a in La. destruct (HB a La) as [HB1 HB2].
  assert (csum (map (fun c => cmul (hopping_value c0 l (di dt i c)) (psi (nb dt i c))) (valid_slots dt i)) =
          csum (map (fun s => cmul (t (s_dist s)) (psi (s_nbr s))) (slots dt i))) as ->.
  { unfold slots. rewrite map_map. f_equal. apply map_ext_in. intros c Hc. cbn [slot_at s_dist s_nbr]. rewrite <- Ht; auto.
    unfold valid_slots in Hc. apply filter_In in Hc. apply Nat.ltb_lt. apply Hc. }
  rewrite (relation_sum (fun s e => let '(b, m, x) := e in b = atom_of (d_indices dt) (s_nbr s) /\ x = s_dist s /\
    torus_bond d V A allowed L axes (nth i (d_indices dt) []) (nth (s_nbr s) (d_indices dt) []) m x) _
    (fun e => let '(b, m, x) := e in cmul (wave q (nth i (d_positions dt) [])) (cmul (cmul (t x) (wave q (bond_vector d V A a b m))) (u b))) (slots dt i) (B a)).
  - rewrite (map_ext _ (fun e => cmul (wave q (nth i (d_positions dt) [])) (let '(b, m0, x) := e in cmul (cmul (t x) (wave q (bond_vector d V A a b m0))) (u b)))) by (intros [[b n] x]; reflexivity).
    rewrite csum_map_mul. unfold psi. fold a. ring.
  - eapply NoDup_map_inv. apply (tb_once _ _ _ _ _ _ _ TB i Hi).
  - exact HB1.
  - intros s Hs. destruct (tb_slot _ _ _ _ _ _ _ TB i s Hi Hs) as [n [T _]]. exists (atom_of (d_indices dt) (s_nbr s), n, s_dist s). split; auto.
    apply HB2. apply T.
  - intros [[b n] x] He. apply HB2 in He. destruct (torus_target _ _ _ _ _ _ _ _ F i b n x Hi He) as [j [Hj [Aj T]]].
    assert (In j (map s_nbr (slots dt i))) as Hin by (apply (tb_neighbors _ _ _ _ _ _ _ TB i j Hi); eauto).
    apply in_map_iff in Hin. destruct Hin as [s [Es Hs]]. exists s. split; auto. rewrite Es. split; auto. split; auto.
    destruct (tb_slot _ _ _ _ _ _ _ TB i s Hi Hs) as [n' [T' _]]. rewrite Es in T'. apply (torus_same _ _ _ _ _ _ _ _ F _ _ _ _ _ _ T T').
  - intros s s' [[b n] x] Hs Hs' [A1 [X1 T1]] [A2 [X2 T2]].
    assert (forall s, In s (slots dt i) -> s_nbr s < nsites dt) as Hn by (intros s0 H0; apply (tb_neighbors _ _ _ _ _ _ _ TB i); auto; apply in_map; auto).
    assert (s_nbr s = s_nbr s') as En by (eapply (torus_inj _ _ _ _ _ _ _ _ F i); eauto; congruence).
    pose proof (tb_once _ _ _ _ _ _ _ TB i Hi) as Hnd. clear - Hnd En Hs Hs'. induction (slots dt i) as [|x l IH]; [destruct Hs|].
    cbn [map] in Hnd. inversion Hnd as [|? ? N1 N2]; subst. destruct Hs as [->|Hs], Hs' as [->|Hs']; auto.
    + exfalso. apply N1. rewrite En. apply in_map. auto.
    + exfalso. apply N1. rewrite <- En. apply in_map. auto.
  - intros s [[b n] x] [[b' n'] x'] _ _ [A1 [X1 T1]] [A2 [X2 T2]]. destruct (torus_same _ _ _ _ _ _ _ _ F _ _ _ _ _ _ T1 T2) as [-> ->]. congruence.
  - intros s [[b n] x] Hs He [A1 [X1 T]]. assert (s_nbr s < nsites dt) as Hj by (apply (tb_neighbors _ _ _ _ _ _ _ TB i); auto; apply in_map; auto).
    unfold psi. rewrite (wave_bond _ _ _ _ _ _ _ _ F q i (s_nbr s) n x Hq Hi Hj T). rewrite <- A1, X1. fold a. ring.
Qed.

(** If the amplitudes solve the eigenvalue problem of the unit cell, the Bloch wave is an eigenvector. *)
Corollary C93_eigenvector :
  forall argsort d V A allowed o L axes dt l q (u : nat -> cplx) (t : dist -> cplx) (B : nat -> list (nat * list Z * dist)) energy,
    is_argsort Nat.leb argsort -> full_torus d V A allowed o L axes dt -> 1 <= length A <= 128 -> d_dmap dt = None ->
    Forall not_negative l -> fitting_wave d V L q ->
    (forall k, k < d_invalid_distidx dt -> hopping_value c0 l k = t (nth k (d_distvals dt) Inf)) ->
    (forall a, a < length A -> NoDup (B a) /\ forall b m x, In (b, m, x) (B a) <-> bond d V A allowed a b m x) ->
    (* the eigenvalue problem with as many unknowns as atoms *)
    (forall a, a < length A ->
      cadd (cmul (onsite_value c0 l (Z.of_nat a)) (u a))
           (csum (map (fun e => let '(b, m, x) := e in cmul (cmul (t x) (wave q (bond_vector d V A a b m))) (u b)) (B a))) = cmul energy (u a)) ->
    let m := fst (data_map argsort dt) in
    let psi i := cmul (u (atom_of (d_indices dt) i)) (wave q (nth i (d_positions dt) [])) in
    exists M, build_csr cadd c0 m (assign_all m (dm_zeros c0 m) l) None = Some M /\
      forall i, i < nsites dt -> row_product M psi i = cmul energy (psi i).
Proof.
  intros argsort d V A allowed o L axes dt l q u t B energy Harg F HA Hm Hl Hq Ht HB He m psi.
  destruct (C93_bloch argsort d V A allowed o L axes dt l q u t B Harg F HA Hm Hl Hq Ht HB) as [M [E [_ [_ H]]]].
  exists M. split; [exact E|]. intros i Hi. cbv zeta in H. fold psi in H. rewrite H by auto. rewrite He.
  - unfold psi. ring.
  - apply (torus_cell _ _ _ _ _ _ _ _ F i Hi).
Qed.

(** ** Lattices made by [build]; the energies of a lattice with one atom per cell *)

Lemma masked_small (mask : list bool) v (l : list nat) n : v < n -> Forall (fun x => x < n) l -> Forall (fun x => x < n) (assign_mask mask v l).
Proof.
  intro Hv. revert l. induction mask as [|b mask IH]; intros [|x l] H; cbn [assign_mask]; auto. inversion H as [|? ? H1 H2]; subst. constructor; [destruct b; auto|auto].
Qed.

Lemma lookup_small array L : forall ind, Forall (fun y => y < 256) ind -> Forall (fun y => y < 256) (fold_left (lookup_step deqb array) L ind).
Proof.
  induction L as [|[i y] L IH]; intros ind H; cbn [fold_left]; auto. apply IH. unfold lookup_step. apply masked_small; auto. apply Nat.mod_upper_bound. discriminate.
Qed.

Lemma reshape_In {T} (x : T) cols r : forall rows l, In r (reshape rows cols l) -> In x r -> In x l.
Proof.
  induction rows as [|rows IH]; intros l Hr Hx; [destruct Hr|]. cbn [reshape] in Hr. rewrite <- (firstn_skipn cols l). apply in_or_app. destruct Hr as [<-|Hr]; [left; auto|right; eapply IH; eauto].
Qed.

(** Every stored distance is used. *)
Lemma data_set_values I P T dt : data_set I P (map (map fst) T) (map (map snd) T) = Some dt -> wf_core dt ->
  forall x, In x (d_distvals dt) -> x = Inf \/ exists i j, i < nsites dt /\ In (j, x) (links dt i).
Proof.
  intros E W x Hx. unfold data_set in E. destruct (create_lookup_table2 dleb deqb (map (map snd) T)) as [vals ind] eqn:EL.
  destruct (nat_max (concat ind)) as [inv|] eqn:Em; [|discriminate]. injection E as <-. cbn [d_distvals] in Hx.
  pose proof (wf_neighbors _ W) as [N1 N2]. cbn [d_neighbors d_cols] in N1, N2. rewrite map_length in N1.
  assert (forall row, In row (map (map snd) T) -> length row = width (map (map fst) T)) as Hr.
  { intros row Hrow. apply in_map_iff in Hrow. destruct Hrow as [r0 [<- Hr0]]. rewrite <- (N2 (map fst r0)) by (apply in_map; auto). rewrite !map_length. reflexivity. }
  destruct (C01_lookup_decodes_table dist dleb deqb dist_order dist_eq _ _ vals ind Inf Hr EL) as [Hinc [Hval Hdec]].
  assert (length vals <= 256) as Hlen.
  { pose proof (inf_last _ _ (wf_distvals _ W) (wf_invalid _ W)) as Hl. cbn [d_distvals d_invalid_distidx] in Hl. rewrite Hl. apply nat_max_spec in Em. destruct Em as [Hin _].
    apply in_concat in Hin. destruct Hin as [row [Hrow Hin]]. unfold create_lookup_table2, create_lookup_table in EL. injection EL as _ Eind. rewrite <- Eind in Hrow.
    pose proof (lookup_small (concat (map (map snd) T)) (enumerate (unique dleb (concat (map (map snd) T)))) (map (fun _ => 0) (concat (map (map snd) T)))) as Hs.
    specialize (Hs ltac:(apply Forall_forall; intros y Hy; apply in_map_iff in Hy; destruct Hy as [? [<- _]]; lia)).
    rewrite Forall_forall in Hs. apply (Hs inv). eapply reshape_In; eauto. }
  specialize (Hdec Hlen). destruct x as [z|]; auto. right. apply Hval in Hx. destruct Hx as [row [Hrow Hz]].
  apply (In_nth _ _ []) in Hrow. destruct Hrow as [i [Hi Erow]]. apply (In_nth _ _ Inf) in Hz. destruct Hz as [c [Hc Ez]].
  rewrite map_length in Hi. pose proof (Hr row ltac:(rewrite <- Erow; apply nth_In; rewrite map_length; auto)) as Lrow.
  set (dt := mkData _ _ _ _ _ _ _ _ _ _ _ _ _) in *. exists i, (nb dt i c). split; [lia|]. unfold links. apply in_map_iff. exists c.
  assert (nth (di dt i c) vals Inf = Fin z) as Edi.
  { rewrite <- Hdec in Erow. pose proof (wf_distances _ W) as [D1 D2]. unfold dt in D1, D2. cbn [d_distances d_cols] in D1, D2.
    assert (i < length ind) as Hi' by (rewrite D1; fold dt; lia). rewrite (nth_map_in _ _ _ []) in Erow by auto. subst row.
    rewrite map_length in Hc. rewrite (nth_map_in _ _ _ 0) in Ez by auto. exact Ez. }
  split; [unfold link_at; f_equal; exact Edi|]. apply filter_In. split; [apply in_seq; unfold dt; cbn [d_cols]; lia|].
  apply Nat.ltb_lt. change (d_invalid_distidx dt) with inv. pose proof (inf_last _ _ (wf_distvals _ W) (wf_invalid _ W)) as Hl. unfold dt in Hl. cbn [d_distvals d_invalid_distidx] in Hl.
  pose proof (wf_invalid _ W) as Hinv. unfold dt in Hinv. cbn [d_distvals d_invalid_distidx] in Hinv.
  destruct (lt_dec (di dt i c) (length vals)) as [H|H]; [|rewrite nth_overflow in Edi by lia; discriminate].
  destruct (Nat.eq_dec (di dt i c) inv) as [E|]; [|lia]. exfalso. rewrite E, (nth_of_nth_error _ _ _ _ Hinv) in Edi. discriminate.
Qed.

Lemma set_periodic_loop_values es : forall d d', set_periodic_loop d es = Some d' -> d_distvals d' = d_distvals d /\ d_invalid_distidx d' = d_invalid_distidx d.
Proof.
  induction es as [|[i pn] es IH]; intros d d' H; cbn [set_periodic_loop] in H; [injection H as <-; auto|].
  destruct (set_periodic_step d (i, pn)) as [d1|] eqn:E; [|discriminate]. destruct (IH _ _ H) as [-> ->]. unfold set_periodic_step in E.
  destruct (get_neighbors d i None (Some false) false); [|discriminate].
  repeat match type of E with (match ?t with _ => _ end) = _ => destruct t; try discriminate end.
  assert (forall a b : data, Some a = Some b -> b = a) as Hi by congruence. apply Hi in E. rewrite E. auto.
Qed.

(** [set_periodic] keeps the list of distances. *)
Lemma set_periodic_values query argsort l axes l' d d' : set_periodic query argsort l (AxList axes) = (l', Ok tt) -> lt_data l = Some d -> lt_data l' = Some d' ->
  d_distvals d' = d_distvals d /\ d_invalid_distidx d' = d_invalid_distidx d.
Proof.
  intros E Ed Ed'. unfold set_periodic in E. destruct (lt_shape l); [|discriminate]. rewrite Ed in E.
  destruct (call_remove_periodic d) as [d1|] eqn:Er; [|discriminate].
  assert (d_distvals d1 = d_distvals d /\ d_invalid_distidx d1 = d_invalid_distidx d) as [V1 V2].
  { unfold call_remove_periodic in Er. destruct (length (d_pmask d) =? length (d_neighbors d)); [|discriminate]. injection Er as <-. auto. }
  rewrite <- V1, <- V2. destruct (st_analysis _) as [an|]; [|discriminate]. destruct (compute_pneighbors _ _ _ _ _ _ _) as [[|p ps]|]; [| |discriminate].
  - injection E as <-. cbn [set_data lt_data] in Ed'. injection Ed' as <-. auto.
  - destruct (DataModel.set_periodic d1 (p :: ps)) as [d2|] eqn:E2; [|discriminate]. injection E as <-. cbn [lt_data] in Ed'. injection Ed' as <-.
    unfold DataModel.set_periodic, call_remove_periodic in E2. destruct (length (d_pmask d1) =? length (d_neighbors d1)); [|discriminate].
    destruct (set_periodic_loop_values _ _ _ E2) as [-> ->]. auto.
Qed.

Lemma data_set_regular I P Nb Ds dt : data_set I P Nb Ds = Some dt -> forall i, regular_links dt i = links dt i.
Proof.
  intros E i. apply regular_all. unfold data_set in E. destruct (create_lookup_table2 _ _ _) as [v x]. destruct (nat_max _) as [inv|]; [|discriminate]. injection E as <-.
  intros s Hs. unfold slots in Hs. apply in_map_iff in Hs. destruct Hs as [c [<- _]]. unfold slot_at. cbn [s_per d_pmask]. unfold pm, cell. cbn [d_pmask].
  destruct (lt_dec i (length Nb)) as [Hi|Hi].
  - rewrite (nth_map_in _ _ _ []) by auto. destruct (lt_dec c (length (nth i Nb []))) as [Hc|Hc].
    + rewrite (nth_map_in _ _ _ 0) by auto. reflexivity.
    + apply nth_overflow. rewrite map_length. lia.
  - rewrite (nth_overflow _ []) by (rewrite map_length; lia). destruct c; reflexivity.
Qed.

(** [build] stores no distance without use. *)
Lemma built_values query argsort norms l sh primitive pos check mn callback l' dt :
  build query argsort norms l sh primitive pos check mn None callback = (l', Ok tt) -> lt_data l' = Some dt -> wf_core dt ->
  forall x, In x (d_distvals dt) -> x = Inf \/ exists i j, i < nsites dt /\ In (j, x) (regular_links dt i).
Proof.
  intros E Ed W. unfold build in E. destruct (build_tables _ _ _ _ _ _ _ _ _ _) as [[[I P] rows]|e]; [|discriminate].
  destruct (data_set I P (map (map fst) rows) (map (map snd) rows)) as [d1|] eqn:E1; [|discriminate].
  assert (dt = d1) as ->.
  { injection E as <-. unfold update_shape in Ed. destruct (limits _) in Ed; cbn [lt_data set_data] in Ed; congruence. }
  intros x Hx. destruct (data_set_values _ _ _ _ E1 W x Hx) as [->|[i [j [Hi Hj]]]]; auto. right. exists i, j. split; auto. rewrite (data_set_regular _ _ _ _ _ E1). auto.
Qed.

Lemma nth_firstn_lt {T} (l : list T) k n x : k < n -> nth k (firstn n l) x = nth k l x.
Proof. revert k n. induction l as [|y l IH]; intros [|k] [|n] H; cbn; auto; try lia. apply IH. lia. Qed.

Lemma csum_app l l' : csum (l ++ l') = cadd (csum l) (csum l').
Proof. induction l as [|x l IH]; cbn [app csum]; [ring|]. rewrite IH. ring. Qed.

Lemma csum_flat {T U} (f : U -> cplx) (F : T -> list U) l : csum (map f (flat_map F l)) = csum (map (fun k => csum (map f (F k))) l).
Proof. induction l as [|x l IH]; cbn [flat_map map csum]; [reflexivity|]. rewrite map_app, csum_app, IH. reflexivity. Qed.

(** On a lattice with one atom per cell and all axes periodic, plane waves are eigenvectors of every Hamiltonian; the
    eigenvalues are given by [fourier_weights] at the distances of the structure. *)
Theorem C93_dispersion :
  forall query argsort argsort' norms s s' conns an r m cells l sh primitive pos check callback I P o L axes values,
    correct_tree query -> is_argsort dleb argsort -> is_argsort Nat.leb argsort' ->
    valid_basis (st_basis s) -> 1 <= b_dim (st_basis s) -> in_step s -> st_connections s = Some conns ->
    analyze query s = (s', Ok tt) -> st_analysis s' = Some an -> query_radius an = Some r -> lt_structure l = s' ->
    (forall a c, nth c (nth a conns []) 0 <= m) -> (exists a c, nth c (nth a conns []) 0 = m) ->
    get_neighbor_cells (st_basis s) (2 * m) true Qle_bool = Some cells ->
    let d := b_dim (st_basis s) in
    let V := b_mat (st_basis s) in
    let A := st_positions s in
    let allowed a c := among_first (nth c (nth a conns []) 0) (occurs d V A cells a c) in
    (* one atom, all axes, all neighbours among the searched cells *)
    length A = 1 -> (forall k, k < d -> In k axes) -> (forall n x, bond d V A allowed 0 0 n x -> In n cells) ->
    (* the lattice of C90 *)
    (primitive = true -> length norms = d) -> fitting d sh primitive pos -> incongruent d V A ->
    build_indices (st_basis s) norms A (AShape (build_shape (st_basis s) sh primitive pos)) primitive pos check callback = Ok (I, P) ->
    (forall k, k < d -> (1 <= nth k L 0)%Z) ->
    (forall t, In t I <-> exists n a, t = n ++ [Z.of_nat a] /\ length n = d /\ box d o L n /\ a < length A) ->
    (exists dists, length dists <= 255 /\ forall a c x, a < length A -> c < length A -> allowed a c x -> In x dists) ->
    ((exists i i', i < length P /\ i' < length P /\ fewer (connected_sites allowed I P) i i') \/
     (forall i j p, i <> j -> nth_error P i = Some p -> within P p (r * r)%Q j -> exists x, connected_sites allowed I P i j x)) ->
    (primitive = true \/ axis_aligned d V) -> NoDup axes -> (forall k, In k axes -> k < d) ->
    (forall a b n x, bond d V A allowed a b n x -> short L axes n /\ (d <= 2 \/ along_two axes n)) ->
    (forall a c x, a < length A -> c < length A -> occurs d V A cells a c x -> dleb (Fin 6) x = true) ->
    crowd d V A (query_count an) r ->
    Forall not_negative values ->
    exists l' dt M K (W : nat -> list (list Q)),
      build query argsort norms l sh primitive pos check None (Some (AxList axes)) callback = (l', Ok tt) /\
      lt_structure l' = s' /\ lt_data l' = Some dt /\ d_indices dt = I /\ d_positions dt = P /\
      (let mp := fst (data_map argsort' dt) in build_csr cadd c0 mp (assign_all mp (dm_zeros c0 mp) values) None = Some M) /\
      m_rows M = length I /\ m_cols M = length I /\
      (* the neighbour vectors of the structure, for all of its distances *)
      (forall k, k < K -> get_neighbor_vectors s' 0 k false = Ok (W k)) /\ get_neighbor_vectors s' 0 K false = Raise IndexError /\
      forall q, fitting_wave d V L q -> forall i, i < length I ->
        row_product M (fun j => wave q (nth j P [])) i =
          cmul (cadd (onsite_value c0 values 0)
                     (csum (map (fun k => cmul (hopping_value c0 values k) (fourier_weights q (map rpoint (W k)))) (seq 0 K))))
               (wave q (nth i P [])).
Proof.
  intros query argsort argsort' norms s s' conns an r m cells l sh primitive pos check callback I P o L axes values Hq Harg Harg' Hb Hd Hs Ec Ha Ean Er El Hm1 Hm2 Ecells d V A allowed
    H1 Hall Hcells Hnorms Hfit Hinc EI HL HI Hval Hpad Hpa HN Hax Hbond Hsep Hcrowd Hv.
  destruct (C90_built_block query argsort norms s s' conns an r m cells l sh primitive pos check callback I P o L Hq Harg Hb Hd Hs Ec Ha Ean Er El Hm1 Hm2 Ecells
    Hnorms Hfit Hinc EI HL HI Hval Hpad Hsep Hcrowd) as (l1 & dt1 & Ebuild & Es1 & _ & _ & Edt1 & EI1 & EP1 & G).
  destruct (C90_built_torus query argsort norms s s' conns an r m cells l sh primitive pos check callback I P o L axes Hq Harg Hb Hd Hs Ec Ha Ean Er El Hm1 Hm2 Ecells
    Hnorms Hfit Hinc EI HL HI Hval Hpad Hpa HN Hax Hbond Hsep Hcrowd) as (l' & dt & Eb & Es & Edt & EI2 & EP2 & _ & TB & _).
  fold d V A in G, TB. fold allowed in G, TB.
  assert (full_torus d V A allowed o L axes dt) as F.
  { constructor; auto.
    - rewrite EI2, <- EI1. apply (bl_once _ _ _ _ _ _ _ G).
    - rewrite EI2. exact HI.
    - intros x Hx. apply Hs. exact Hx.
    - intros i Hi. rewrite EI2, EP2. pose proof (bl_positions _ _ _ _ _ _ _ G i) as Hp. rewrite EI1, EP1 in Hp. apply Hp. unfold nsites in *. congruence.
    - intros a b n x B. apply (Hbond a b n x B). }
  destruct (C92_fresh_after_build _ _ _ _ _ _ _ _ _ _ _ _ Eb) as [dt' [Edt' Hfresh]]. rewrite Edt in Edt'. injection Edt' as <-.
  pose proof Eb as Eset. rewrite (build_periodic _ _ _ _ _ _ _ _ _ _ axes _ Ebuild) in Eset.
  destruct (set_periodic_values _ _ _ _ _ _ _ Eset Edt1 Edt) as [Evals Einv].
  destruct (C29_neighbors_translation_covariant query s s' conns Hq Hb Hd Hs Ec Ha) as [m' [cells' [Hm1' [Hm2' [Ecells' Hn]]]]].
  assert (m' = m) as -> by (destruct Hm2 as [a1 [c2 E1]]; destruct Hm2' as [a2 [c3 E2]]; specialize (Hm1' a1 c2); specialize (Hm1 a2 c3); lia).
  rewrite Ecells in Ecells'. injection Ecells' as <-. fold d V A in Hn.
  destruct (Hn 0 ltac:(lia)) as [Ds [HDs1 [HDs2 Hget]]].
  destruct (cells_props (st_basis s) m Hb Hd cells Ecells) as [_ [Hlen _]]. fold d in Hlen.
  pose proof (H1 : @length (list Q) A = 1) as H1q.
  assert (forall n x, linked d V A cells conns 0 0 n x <-> bond d V A allowed 0 0 n x) as Hlb.
  { intros n x. split.
    - intros [G1 [G2 G3]]. unfold bond. rewrite H1q. auto 10.
    - intros B. split; [eapply Hcells; eauto|]. destruct B as [_ [_ [_ [B1 B2]]]]. auto. }
  pose proof (tb_wf _ _ _ _ _ _ _ TB) as W. set (K := d_invalid_distidx dt).
  assert (0 < length I) as HNI.
  { assert (In (map (fun k => nth k o 0%Z) (seq 0 d) ++ [Z.of_nat 0]) I) as Hin.
    { apply HI. eexists _, 0. split; [reflexivity|]. split; [rewrite map_length, seq_length; auto|]. split; [|lia].
      intros k Hk. rewrite (nth_map_in _ _ _ 0) by (rewrite seq_length; auto). rewrite seq_nth by auto. specialize (HL k Hk). cbn. lia. }
    destruct I; [destruct Hin|cbn; lia]. }
  (* the distances of the lattice are those of the structure *)
  assert (firstn K (d_distvals dt) = Ds) as EDs.
  { apply (strict_unique dleb dleb_antisym); [apply increasing_firstn, (wf_distvals _ W)|exact HDs1|]. intro x. rewrite HDs2, In_firstn. split.
    - intros [i [Hi Hx]]. rewrite Evals in Hx. apply nth_error_In in Hx as Hin.
      destruct (built_values _ _ _ _ _ _ _ _ _ _ _ _ Ebuild Edt1 (wf_c _ (bl_wf _ _ _ _ _ _ _ G)) x Hin) as [->|[i0 [j0 [Hi0 Hj0]]]].
      + exfalso. pose proof (increasing_inj dleb _ (wf_distvals _ W) i K Inf) as Hinj. rewrite Evals in Hinj. specialize (Hinj Hx).
        rewrite <- Evals in Hinj. specialize (Hinj (wf_invalid _ W)). lia.
      + apply (bl_links _ _ _ _ _ _ _ G i0 Hi0) in Hj0. destruct Hj0 as [_ [Hsd Hal]].
        assert (forall j, atom_of (d_indices dt1) j < length A -> atom_of (d_indices dt1) j = 0) as Hz by (intros; lia).
        assert (forall j p, nth_error (d_positions dt1) j = Some p -> atom_of (d_indices dt1) j = 0) as Hz'.
        { intros j p Hp. apply Hz. rewrite EI1, EP1 in *. destruct (wf_positions _ W) as [LP _]. rewrite EP2 in LP.
          pose proof (torus_cell _ _ _ _ _ _ _ _ F j) as Hc. rewrite EI2 in Hc. apply Hc. rewrite <- LP. eapply nth_error_length_lt; eauto. }
        destruct Hsd as (p & p' & zz & Hp & Hp' & Hrest). rewrite (Hz' _ _ Hp), (Hz' _ _ Hp') in Hal. unfold allowed in Hal. pose proof Hal as (Lx & _ & HLx & ii & _ & Hii).
        apply nth_error_In in Hii. apply HLx in Hii. destruct Hii as [_ [n [Hn1 Hn2]]]. exists 0, n. split; [lia|]. split; auto.
    - intros [c [n [Hc Hl]]]. assert (c = 0) as -> by lia. apply Hlb in Hl.
      assert (atom_of (d_indices dt) 0 = 0) as A0.
      { destruct (torus_cell _ _ _ _ _ _ _ _ F 0) as [_ [La _]]; [unfold nsites; rewrite EI2; auto|]. lia. }
      rewrite <- A0 in Hl at 1. destruct (torus_target _ _ _ _ _ _ _ _ F 0 0 n x ltac:(unfold nsites; rewrite EI2; auto) Hl) as [j [Hj [_ T]]].
      assert (In j (map s_nbr (slots dt 0))) as Hin by (apply (tb_neighbors _ _ _ _ _ _ _ TB); eauto; unfold nsites; rewrite EI2; auto).
      apply in_map_iff in Hin. destruct Hin as [st [Est Hst]].
      destruct (tb_slot _ _ _ _ _ _ _ TB 0 st ltac:(unfold nsites; rewrite EI2; auto) Hst) as [n' [T' _]]. rewrite Est in T'.
      destruct (torus_same _ _ _ _ _ _ _ _ F _ _ _ _ _ _ T T') as [_ ->]. unfold slots in Hst. apply in_map_iff in Hst. destruct Hst as [c [<- Hc']].
      unfold valid_slots in Hc'. apply filter_In in Hc'. destruct Hc' as [Hc1 Hc2]. apply Nat.ltb_lt in Hc2. apply in_seq in Hc1. exists (di dt 0 c). split; [exact Hc2|].
      cbn [slot_at s_dist]. apply nth_error_nth'. apply (wf_di _ W); [unfold nsites; rewrite EI2; auto|lia]. }
  assert (length Ds = K) as LDs.
  { rewrite <- EDs, firstn_length, (inf_last _ _ (wf_distvals _ W) (wf_invalid _ W)). fold K. lia. }
  assert (forall k, k < K -> nth k Ds Inf = nth k (d_distvals dt) Inf) as Hnth.
  { intros k Hk. rewrite <- EDs. apply nth_firstn_lt. exact Hk. }
  (* the neighbours of the structure *)
  assert (forall k, exists T, k < K -> StructureModel.get_neighbors s' (repeat 0%Z d) 0 k = Ok T /\ NoDup T /\
    forall t, In t T <-> exists n, t = n ++ [0%Z] /\ bond d V A allowed 0 0 n (nth k Ds Inf)) as HT.
  { intro k. destruct (lt_dec k K) as [Hk|Hk]; [|exists []; intro; lia]. specialize (Hget (repeat 0%Z d) k (repeat_length _ _)).
    rewrite (nth_error_nth' Ds Inf) in Hget by lia. destruct Hget as [T [T0 [E1 [_ [_ [E4 [E5 _]]]]]]]. exists T. intros _. split; auto. split; auto.
    assert (forall n, length n = d -> map2 Z.add n (repeat 0%Z d) = n) as Hz.
    { intros n Ln. apply (list_eq_nth _ _ 0%Z); [rewrite map2_length, repeat_length; lia|]. intros k' Hk'. rewrite map2_length, repeat_length in Hk'.
      rewrite (nth_map2 _ _ _ _ 0%Z 0%Z) by (rewrite ?repeat_length; lia). rewrite nth_repeat. lia. }
    intro t. rewrite E5. split.
    - intros [n [c [Hc [-> Hl]]]]. assert (c = 0) as -> by lia. exists n. split; [rewrite Hz; [reflexivity|apply Hlen, Hl]|]. apply Hlb. exact Hl.
    - intros [n [-> Hl]]. apply Hlb in Hl. exists n, 0. split; [lia|]. split; auto. rewrite Hz; [reflexivity|apply Hlen, Hl]. }
  assert (exists T : nat -> list (list Z), forall k, k < K -> StructureModel.get_neighbors s' (repeat 0%Z d) 0 k = Ok (T k) /\ NoDup (T k) /\
    forall t, In t (T k) <-> exists n, t = n ++ [0%Z] /\ bond d V A allowed 0 0 n (nth k Ds Inf)) as [T HT'].
  { exists (fun k => match StructureModel.get_neighbors s' (repeat 0%Z d) 0 k with Ok t => t | Raise _ => [] end). intros k Hk. destruct (HT k) as [t Ht]. destruct (Ht Hk) as [E1 E2]. rewrite E1. auto. }
  clear HT. set (Wk := fun k => match get_neighbor_vectors s' 0 k false with Ok w => w | Raise _ => [] end).
  assert (forall k, k < K -> get_neighbor_vectors s' 0 k false = Ok (Wk k) /\ length (Wk k) = length (T k) /\
     (forall j n c, nth_error (T k) j = Some (n ++ [Z.of_nat c]) ->
         exists w, nth_error (Wk k) j = Some w /\ length w = d /\
           forall c', c' < d -> (nth c' w 0 == nth c' (lattice_point d V (nth c A []) n) 0 - nth c' (nth 0 A []) 0)%Q)) as HW.
  { intros k Hk. destruct (HT' k Hk) as [E1 _]. destruct (C67_neighbor_vectors query s s' conns 0 k (T k) Hq Hb Hd Hs Ec Ha ltac:(fold A; lia) E1) as [w [x [E2 [E3 [E4 _]]]]].
    unfold Wk. rewrite E2. auto. }
  (* the bonds *)
  set (B := fun _ : nat => flat_map (fun k => map (fun t => (0, removelast t, nth k Ds Inf)) (T k)) (seq 0 K)).
  assert (forall b n x, In (b, n, x) (B 0) <-> bond d V A allowed 0 b n x) as HB.
  { intros b n x. unfold B. rewrite in_flat_map. split.
    - intros [k [Hk Hin]]. apply in_seq in Hk. apply in_map_iff in Hin. destruct Hin as [t [E Ht]]. injection E as <- <- <-. apply (HT' k ltac:(lia)) in Ht.
      destruct Ht as [n' [-> Hb']]. rewrite removelast_last. exact Hb'.
    - intro Hb'. assert (b = 0) as -> by (destruct Hb' as [_ [Hb1 _]]; lia). assert (In x Ds) as Hx by (apply HDs2; exists 0, n; split; [lia|apply Hlb; auto]).
      apply (In_nth _ _ Inf) in Hx. destruct Hx as [k [Hk Ex]]. exists k. split; [apply in_seq; lia|]. apply in_map_iff. exists (n ++ [0%Z]). rewrite removelast_last, Ex. split; auto.
      apply (HT' k ltac:(lia)). exists n. rewrite Ex. auto. }
  assert (NoDup (B 0)) as HBn.
  { unfold B. assert (forall a, a + K - a = K) as _ by lia. assert (forall k1 k2, k1 + k2 <= K -> NoDup (flat_map (fun k => map (fun t => (0, removelast t, nth k Ds Inf)) (T k)) (seq k1 k2))) as H.
    { intros k1 k2. revert k1. induction k2 as [|k2 IH]; intros k1 Hk; cbn [seq flat_map]; [constructor|]. apply NoDup_app_intro.
      - destruct (HT' k1 ltac:(lia)) as [_ [Hnd Hin]]. apply NoDup_map_in; auto. intros t t' Ht Ht' E. injection E as E. apply Hin in Ht. apply Hin in Ht'.
        destruct Ht as [n [-> _]]. destruct Ht' as [n' [-> _]]. rewrite !removelast_last in E. congruence.
      - apply IH. lia.
      - intros e He1 He2. apply in_map_iff in He1. destruct He1 as [t [<- _]]. apply in_flat_map in He2. destruct He2 as [k [Hk' Hin]]. apply in_seq in Hk'.
        apply in_map_iff in Hin. destruct Hin as [t' [E _]]. injection E as _ E. 
        assert (k = k1); [|lia]. apply (increasing_inj dleb Ds HDs1 k k1 (nth k Ds Inf)); [apply nth_error_nth'; lia|rewrite E; apply nth_error_nth'; lia]. }
    apply H. lia. }
  set (t := fun x => match find (fun k => deqb (nth k (d_distvals dt) Inf) x) (seq 0 K) with Some k => hopping_value c0 values k | None => c0 end).
  assert (forall k, k < K -> t (nth k (d_distvals dt) Inf) = hopping_value c0 values k) as Ht.
  { intros k Hk. unfold t. destruct (find _ (seq 0 K)) as [k'|] eqn:Ef.
    - apply find_some in Ef. destruct Ef as [Hk' Ef]. apply in_seq in Hk'. apply dist_eq in Ef. f_equal. pose proof (inf_last _ _ (wf_distvals _ W) (wf_invalid _ W)) as Hl. fold K in Hl.
      apply (increasing_inj dleb _ (wf_distvals _ W) k' k (nth k' (d_distvals dt) Inf)); [apply nth_error_nth'; lia|rewrite Ef; apply nth_error_nth'; lia].
    - exfalso. pose proof (find_none _ _ Ef k ltac:(apply in_seq; lia)) as Hf. cbn beta in Hf. rewrite (proj2 (dist_eq (nth k (d_distvals dt) Inf) (nth k (d_distvals dt) Inf)) eq_refl) in Hf. discriminate. }
  assert (forall q, fitting_wave d V L q -> exists M, (let mp := fst (data_map argsort' dt) in build_csr cadd c0 mp (assign_all mp (dm_zeros c0 mp) values) None = Some M) /\
    m_rows M = length I /\ m_cols M = length I /\
    forall i, i < length I -> row_product M (fun j => wave q (nth j P [])) i =
          cmul (cadd (onsite_value c0 values 0)
                     (csum (map (fun k => cmul (hopping_value c0 values k) (fourier_weights q (map rpoint (Wk k)))) (seq 0 K))))
               (wave q (nth i P []))) as Hmain.
  { intros q Hfit'.
    destruct (C93_bloch argsort' d V A allowed o L axes dt values q (fun _ => c1) t B Harg' F ltac:(lia) Hfresh Hv Hfit') as [M [E [R1 [R2 HM]]]].
    { intros k Hk. symmetry. apply Ht. exact Hk. }
    { intros a Ha'. assert (a = 0) as -> by lia. split; auto. }
    unfold nsites in *. rewrite EI2 in *. exists M. split; [exact E|]. split; auto. split; auto. intros i Hi. specialize (HM i Hi). cbv zeta in HM. rewrite EP2 in HM.
    assert (row_product M (fun j => wave q (nth j P [])) i = row_product M (fun j => cmul c1 (wave q (nth j P []))) i) as -> by (unfold row_product; f_equal; apply map_ext; intro j; ring).
    rewrite HM. destruct (torus_cell _ _ _ _ _ _ _ _ F i ltac:(unfold nsites; rewrite EI2; auto)) as [_ [La _]]. rewrite EI2 in La. assert (atom_of I i = 0) as -> by lia.
    assert (csum (map (fun e => let '(b, m, x) := e in cmul (cmul (t x) (wave q (bond_vector d V A 0 b m))) c1) (B 0)) =
      csum (map (fun k => cmul (hopping_value c0 values k) (fourier_weights q (map rpoint (Wk k)))) (seq 0 K))) as ->; [|change (Z.of_nat 0) with 0%Z; ring].
    unfold B. rewrite csum_flat. f_equal. apply map_ext_in. intros k Hk. apply in_seq in Hk. rewrite map_map.
    destruct (HW k ltac:(lia)) as [_ [LW HWk]]. destruct (HT' k ltac:(lia)) as [_ [_ HTk0]].
    assert (forall t0, In t0 (T k) -> exists n, t0 = n ++ [0%Z]) as HTk by (intros t0 Ht0; apply HTk0 in Ht0; destruct Ht0 as [n [E0 _]]; eauto). clear HTk0.
    assert (t (nth k Ds Inf) = hopping_value c0 values k) as <- by (rewrite Hnth by lia; apply Ht; lia).
    clear - LW HWk HTk Hfit' H1. set (h := t (nth k Ds Inf)). clearbody h. set (x := nth k Ds Inf) in *. clearbody x.
    generalize dependent (Wk k). generalize dependent (T k). clear k. intro l. induction l as [|a l IH]; intros HT Ws LW HW; destruct Ws as [|w Ws]; try discriminate; cbn [map csum fourier_weights fold_right].
    - change (0, 0)%R with c0. ring.
    - change (fold_right (fun (v : rvec) (acc : cplx) => cadd (cexp_i (rdot q v)) acc) (0%R, 0%R) (map rpoint Ws)) with (fourier_weights q (map rpoint Ws)).
      rewrite (IH (fun t0 Ht0 => HT t0 (or_intror Ht0)) Ws ltac:(cbn in LW; lia) (fun j n c Hj => HW (S j) n c Hj)).
      destruct (HT a (or_introl eq_refl)) as [n ->]. destruct (HW 0 n 0 eq_refl) as [w' [E [Lw Hw]]]. injection E as <-. rewrite removelast_last.
      assert (wave q (bond_vector d V A 0 0 n) = cexp_i (rdot q (rpoint w))) as ->; [|ring].
      unfold wave. f_equal. rewrite !(rpoint_ph d) by (auto; unfold bond_vector; rewrite map_length, seq_length; auto). apply ph_ext. intros j Hj.
      rewrite Hw by auto. unfold bond_vector. rewrite (nth_map_in _ _ _ 0) by (rewrite seq_length; auto). rewrite seq_nth by auto. reflexivity. }
  destruct (Hmain (repeat 0%R d)) as [M [EM [R1 [R2 _]]]].
  { split; [apply repeat_length|]. intros k Hk. exists 0%Z. assert (forall n v, rdot (repeat 0%R n) v = 0%R) as ->; [|ring].
    induction n as [|n IH]; intros [|x v]; cbn [repeat rdot]; try reflexivity. rewrite IH. ring. }
  exists l', dt, M, K, Wk. split; auto. split; auto. split; auto. split; auto. split; auto. split; auto. split; auto. split; auto. split; [intros k Hk; apply HW; auto|]. split.
  - specialize (Hget (repeat 0%Z d) K (repeat_length _ _)). rewrite (proj2 (nth_error_None Ds K)) in Hget by lia.
    unfold get_neighbor_vectors, get_neighbor_positions. rewrite Ean.
    destruct (analysed_table query s s' Hb Hd Hs Ha) as [? [? [_ [_ [_ [_ [_ [_ [_ Es']]]]]]]]].
    assert (st_positions s' = A /\ st_basis s' = st_basis s) as [-> ->] by (rewrite Es'; auto). fold d. rewrite Hget. destruct (nth_error A 0); reflexivity.
  - intros q Hq'. destruct (Hmain q Hq') as [M' [EM' [_ [_ HM]]]]. cbv zeta in EM, EM'. rewrite EM in EM'. injection EM' as <-. exact HM.
Qed.

(** *** Examples: the periodic block of nine cells of the skew lattice *)

Definition skew_values_of (e t1 t2 : R) : list (assignment cplx) :=
  [Onsite None (e, 0%R); Hopping (Some 0%Z) (t1, 0%R); Hopping (Some 1%Z) (t2, 0%R)].

Example C93_product_example : forall e t1 t2 psi,
  exists dt, lt_data skew_torus = Some dt /\ wf_core dt /\ few_atoms dt /\ d_dmap dt = None /\ nsites dt = 9 /\ Forall not_negative (skew_values_of e t1 t2) /\
    let m := fst (data_map nat_argsort dt) in
    exists M, build_csr cadd c0 m (assign_all m (dm_zeros c0 m) (skew_values_of e t1 t2)) None = Some M /\
      row_product M psi 0 = cadd (cmul (e, 0%R) (psi 0))
        (cadd (cmul (t2, 0%R) (cadd (cadd (psi 1) (psi 2)) (cadd (psi 3) (psi 6)))) (cmul (t1, 0%R) (cadd (psi 5) (psi 7)))).
Proof.
  intros e t1 t2 psi. eexists. split; [reflexivity|].
  match goal with |- wf_core ?t /\ _ => set (dt := t) end.
  assert (wf_core dt) as W.
  { destruct C90_example as (l & dt0 & cells & an & r & Eb & _ & _ & _ & _ & _ & _ & _ & _ & _ & _ & l' & dt' & Es & Ed & TB & _).
    rewrite build_skew_block in Eb. injection Eb as <-. rewrite set_skew_torus in Es. injection Es as <-. injection Ed as <-. apply (wf_c _ (tb_wf _ _ _ _ _ _ _ TB)). }
  assert (few_atoms dt) as Hf by (intros i Hi; cbn in Hi; do 9 (destruct i as [|i]; [vm_compute; split; congruence|]); lia).
  assert (Forall not_negative (skew_values_of e t1 t2)) as Hv by (repeat constructor; cbn; lia).
  split; [exact W|]. split; [exact Hf|]. split; [reflexivity|]. split; [reflexivity|]. split; [exact Hv|].
  destruct (C93_product nat_argsort dt (skew_values_of e t1 t2) psi nat_argsort_ok W Hf eq_refl ltac:(cbn; lia) Hv) as [M [E [_ [_ H]]]].
  exists M. split; [exact E|]. rewrite H by (cbn; lia).
  replace (valid_slots dt 0) with [0; 1; 2; 3; 4; 5] by (vm_compute; reflexivity).
  cbn [map csum]. cbn [nb di dt cell nth d_neighbors d_distances]. unfold hopping_value, onsite_value, skew_values_of. cbn [fold_left Z.eqb Z.of_nat]. cbn. ring.
Qed.

(** The neighbours of an atom of the skew lattice. *)
Definition skew_bonds : list (nat * list Z * dist) :=
  [(0, [1; -1]%Z, Fin 4472136); (0, [-1; 1]%Z, Fin 4472136); (0, [1; 0]%Z, Fin 5000000); (0, [-1; 0]%Z, Fin 5000000);
   (0, [0; 1]%Z, Fin 5000000); (0, [0; -1]%Z, Fin 5000000)].

Lemma skew_bonds_once : NoDup skew_bonds.
Proof. unfold skew_bonds. repeat (constructor; [intro H; cbn in H; repeat (destruct H as [H|H]; [discriminate H|]); destruct H|]). constructor. Qed.

Lemma skew_bond_cells n : length n = 2 -> short [3; 3]%Z [0; 1] n ->
  let x := Fin (sqrt_micro (sqdist [0; 0]%Q (lattice_point 2 (b_mat ex_skew) [0; 0]%Q n))) in In x [Fin 4472136; Fin 5000000] -> In (0, n, x) skew_bonds.
Proof.
  intros Ln Hs. cbv zeta. destruct n as [|n1 [|n2 [|? ?]]]; try discriminate Ln.
  pose proof (Hs 0 ltac:(cbn; tauto)) as B1. pose proof (Hs 1 ltac:(cbn; tauto)) as B2. cbn [nth] in B1, B2. clear Hs Ln.
  assert (n1 = 0 \/ n1 = 1 \/ n1 = -1)%Z as [-> | [-> | ->]] by lia; assert (n2 = 0 \/ n2 = 1 \/ n2 = -1)%Z as [-> | [-> | ->]] by lia;
    match goal with |- In (Fin ?x) _ -> _ => let y := eval vm_compute in x in replace x with y by (vm_compute; reflexivity) end; intro Hal;
    (exfalso; destruct Hal as [Hal|[Hal|[]]]; discriminate Hal) || (clear; unfold skew_bonds; repeat ((left; reflexivity) || right)).
Qed.

(** The wave vector (2 pi / 15, - pi / 10) turns once along the first axis and not at all along the second. *)
Example C93_bloch_example :
  exists dt cells, lt_data skew_torus = Some dt /\ get_neighbor_cells ex_skew 4 true Qle_bool = Some cells /\
    let allowed a c := among_first (nth c (nth a [[2]] []) 0) (occurs 2 (b_mat ex_skew) [[0; 0]]%Q cells a c) in
    full_torus 2 (b_mat ex_skew) [[0; 0]]%Q allowed [0; 0]%Z [3; 3]%Z [0; 1] dt /\ d_dmap dt = None /\
    fitting_wave 2 (b_mat ex_skew) [3; 3]%Z [2 * PI / 15; - PI / 10]%R /\
    d_invalid_distidx dt = 2 /\ d_distvals dt = [Fin 4472136; Fin 5000000; Inf] /\
    NoDup skew_bonds /\ forall b n x, In (b, n, x) skew_bonds <-> bond 2 (b_mat ex_skew) [[0; 0]]%Q allowed 0 b n x.
Proof.
  destruct C90_built_torus_example as (HV & Hstep & _ & _ & Hconn & Hinc & Hfit & s' & an & r & cells & Ha & Ean & Er & Ecells & EI & HI & HA & Hf & Hb & Hsep & Hcr & _).
  destruct C90_example as (l & dt0 & cells' & an' & r' & Eb & _ & _ & _ & Ecells' & Ed0 & _ & _ & Hblock & _ & _ & l' & dt' & Es & Ed & TB & _).
  pose proof (eq_trans (eq_sym Ecells) Ecells') as E. injection E as <-.
  rewrite build_skew_block in Eb. injection Eb as <-. rewrite set_skew_torus in Es. injection Es as <-.
  assert (d_indices dt' = d_indices dt0 /\ d_positions dt' = d_positions dt0 /\ d_dmap dt' = None /\ d_invalid_distidx dt' = 2 /\ d_distvals dt' = [Fin 4472136; Fin 5000000; Inf]) as (F1 & F2 & F3 & F4 & F5).
  { clear - Ed Ed0. injection Ed as <-. injection Ed0 as <-. repeat split. }
  exists dt', cells. split; [exact Ed|]. split; [exact Ecells|]. cbv zeta. split; [|split; [exact F3|split; [|split; [exact F4|split; [exact F5|split]]]]].
  - destruct Hblock as [W Lay Dim Once Sites Pos Links]. constructor; try rewrite F1; try rewrite F2; auto.
    + intros [|[|k]] Hk; cbn; auto; lia.
    + intros [|[|k]] Hk; cbn; lia.
    + intros x [<-|[]]. reflexivity.
    + intros i Hi. unfold nsites in Hi. rewrite F1 in Hi. apply Pos. exact Hi.
  - split; [reflexivity|]. intros [|[|k]] Hk; [exists 1%Z|exists 0%Z|lia]; unfold lattice_column, entry, rpoint; cbn -[PI Q2R]; unfold Q2R; cbn; field.
  - exact skew_bonds_once.
  - intros b n x. split.
    + intro Hin. unfold bond. assert (In n [[1; -1]; [-1; 1]; [1; 0]; [-1; 0]; [0; 1]; [0; -1]]%Z /\ b = 0 /\ In x [Fin 4472136; Fin 5000000] /\ x = Fin (sqrt_micro (sqdist [0; 0] (lattice_point 2 [[5; 3]; [0; 4]] [0; 0] n))%Q)) as (G1 & -> & G2 & G3).
      { unfold skew_bonds in Hin. repeat (destruct Hin as [E|Hin]; [injection E as <- <- <-; split; [cbn; tauto|]; split; [reflexivity|]; split; [cbn; tauto|]; vm_compute; reflexivity|]). destruct Hin. }
      split; [cbn; lia|]. split; [cbn; lia|]. split; [repeat (destruct G1 as [<-|G1]; [reflexivity|]); destruct G1|]. split.
      * eexists. split; [exact G3|]. apply sqrt_micro_rounds, sqdist_nonneg.
      * apply HA; auto.
    + intro B. pose proof (Hb _ _ _ _ B) as Hs. destruct B as (_ & Lb & Ln & (z & -> & Hz) & Hal). cbn in Lb. assert (b = 0) as -> by lia. apply HA in Hal; [|lia|lia].
      rewrite (rounds_unique _ _ _ _ Hz (sqrt_micro_rounds _ (sqdist_nonneg _ _)) (Qeq_refl _)) in *. clear Hz.
      exact (skew_bond_cells n Ln Hs Hal).
Qed.

(** The energies e + 2 t1 cos(2 q1 - 4 q2) + 2 t2 (cos(5 q1) + cos(3 q1 + 4 q2)). *)
Example C93_dispersion_example : forall e t1 t2,
  exists dt M, lt_data skew_torus = Some dt /\ d_positions dt = skew_points /\
    (let m := fst (data_map nat_argsort dt) in build_csr cadd c0 m (assign_all m (dm_zeros c0 m) (skew_values_of e t1 t2)) None = Some M) /\
    forall q1 q2 z1 z2, (3 * (5 * q1) = 2 * PI * IZR z1)%R -> (3 * (3 * q1 + 4 * q2) = 2 * PI * IZR z2)%R -> forall i, i < 9 ->
      row_product M (fun j => wave [q1; q2] (nth j skew_points [])) i =
        cmul (e + 2 * t1 * cos (2 * q1 - 4 * q2) + 2 * t2 * (cos (5 * q1) + cos (3 * q1 + 4 * q2)), 0)%R (wave [q1; q2] (nth i skew_points [])).
Proof.
  intros e t1 t2.
  destruct C90_built_torus_example as (HV & Hstep & _ & _ & Hconn & Hinc & Hfit & s' & an & r & cells & Ha & Ean & Er & Ecells & EI & HI & HA & Hf & Hb & Hsep & Hcr & _).
  assert (s' = skew_atom) as -> by (vm_compute in Ha; injection Ha as <-; reflexivity).
  destruct (C93_dispersion brute dist_argsort nat_argsort [5; 5]%Q skew_atom skew_atom [[2]] an r 2 cells (new_lattice skew_atom) (ASize [2; 2]%Q) true None true None
    skew_indices skew_points [0; 0]%Z [3; 3]%Z [0; 1] (skew_values_of e t1 t2)) as (l' & dt & M & K & Wk & Eb & _ & Ed & _ & EP & EM & _ & _ & HW & HK & H);
    auto using dist_argsort_ok, nat_argsort_ok; try exact brute_nearest.
  { cbn; lia. }
  { intros [|[|a]] [|[|c]]; cbn; lia. }
  { exists 0, 0. reflexivity. }
  { clear. intros [|[|k]] Hk; cbn in Hk |- *; lia. }
  { intros n x B. assert (length n = 2) as Ln by apply B. apply Hb in B. clear - B Ln Ecells. destruct n as [|n1 [|n2 [|? ?]]]; try discriminate Ln.
    pose proof (B 0 ltac:(cbn; tauto)) as B1. pose proof (B 1 ltac:(cbn; tauto)) as B2. cbn [nth] in B1, B2. apply (skew_cells _ n1 n2 Ecells); lia. }
  { clear. intros [|[|k]] Hk; cbn in Hk |- *; lia. }
  { exists [Fin 4472136; Fin 5000000]. split; [cbn; lia|]. intros a c x H1 H2 H3. apply (HA a c x) in H3; auto. }
  { left. exists 0, 4. split; [cbn; lia|]. split; [cbn; lia|]. exact Hf. }
  { clear. repeat constructor; cbn; intuition congruence. }
  { clear. intros k [<-|[<-|[]]]; cbn; lia. }
  { intros a b n x B. split; [eapply Hb; eauto|left; cbn; lia]. }
  { clear. repeat constructor; cbn; lia. }
  pose proof Eb as Eb'. match type of Eb' with ?b = _ => assert (b = (skew_torus, Ok tt)) as Eb2 by exact build_skew_torus end. rewrite Eb2 in Eb'. injection Eb' as <-.
  assert (K = 2) as ->.
  { destruct K as [|[|[|K]]]; auto; [discriminate HK|discriminate HK|]. specialize (HW 2 ltac:(lia)). discriminate HW. }
  pose proof (HW 0 ltac:(lia)) as W0. pose proof (HW 1 ltac:(lia)) as W1. vm_compute in W0, W1. injection W0 as W0. injection W1 as W1.
  exists dt, M. split; [exact Ed|]. split; [exact EP|]. split; [exact EM|]. intros q1 q2 z1 z2 F1 F2 i Hi.
  rewrite H; [| |exact Hi].
  - f_equal. cbn [seq map csum]. rewrite <- W0, <- W1. unfold skew_values_of, onsite_value, hopping_value. cbn [fold_left Z.eqb Z.of_nat Pos.of_succ_nat].
    unfold fourier_weights, rpoint. cbn [map fold_right rdot]. unfold cadd, cmul, cexp_i, c0, Q2R. cbn [fst snd Qnum Qden].
    replace (q1 * (-2 * / 1) + (q2 * (4 * / 1) + 0))%R with (- (2 * q1 - 4 * q2))%R by field.
    replace (q1 * (2 * / 1) + (q2 * (-4 * / 1) + 0))%R with (2 * q1 - 4 * q2)%R by field.
    replace (q1 * (-5 * / 1) + (q2 * (0 * / 1) + 0))%R with (- (5 * q1))%R by field.
    replace (q1 * (5 * / 1) + (q2 * (0 * / 1) + 0))%R with (5 * q1)%R by field.
    replace (q1 * (-3 * / 1) + (q2 * (-4 * / 1) + 0))%R with (- (3 * q1 + 4 * q2))%R by field.
    replace (q1 * (3 * / 1) + (q2 * (4 * / 1) + 0))%R with (3 * q1 + 4 * q2)%R by field.
    rewrite ?cos_neg, ?sin_neg. f_equal; cbn [Pos.eqb fst snd]; ring.
  - split; [reflexivity|]. intros [|[|k]] Hk; [exists z1; rewrite <- F1|exists z2; rewrite <- F2|cbn in Hk; lia];
      unfold lattice_column, entry, rpoint; cbn -[PI Q2R]; unfold Q2R; cbn; field.
Qed.

Print Assumptions C93_product.
Print Assumptions C93_bloch.
Print Assumptions C93_eigenvector.
Print Assumptions C93_dispersion.
