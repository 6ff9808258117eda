(** * C59: repeating a lattice *)
From Coq Require Import String List ZArith QArith Bool Arith Lia Permutation.
From Verif Require Import Np NpFacts LinAlg LinFacts AtomModel BasisModel SpatialModel ShapeModel StructureModel DataModel KDBrute
  SpecUtils SpecBasis SpecSpatial SpecStructure SpecBuild SpecData SpecLattice BasisProofs StructureFacts DataFacts DataOps DataProofs StructureProofs AnalyzeProofs
  TranslationFacts PropData PropStructure PropBuild LatticeModel LatticeExamples PropAnalyze PropMinDist RepeatProofs.
Import ListNotations.
Open Scope nat_scope.
Open Scope list_scope.

(** The site with index [i'] and position [p'] is the one with [i] and [p] moved by [n] cells. *)
Definition moved_site (d : nat) (V : list (list Q)) (n : list Z) (i : list Z) (p : list Q) (i' : list Z) (p' : list Q) : Prop :=
  length i' = S d /\ (forall k, k < d -> nth k i' 0%Z = (nth k i 0 + nth k n 0)%Z) /\ nth d i' 0%Z = nth d i 0%Z /\
  same p' (lattice_point d V p n).

(** [n] points along axis [a]. *)
Definition along (d a : nat) (z : Z) (n : list Z) : Prop := length n = d /\ forall k, k < d -> nth k n 0%Z = if k =? a then z else 0%Z.

Lemma along_unit d a z n : along d a z n <-> n = unit d a z.
Proof.
  split.
  - intros [L H]. apply (nth_ext n (unit d a z) 0%Z 0%Z); [rewrite unit_length; auto|]. intros k Hk. rewrite nth_unit by lia. apply H. lia.
  - intros ->. split; [apply unit_length|]. intros k Hk. apply nth_unit. auto.
Qed.

Lemma copied_moved d b n i p : b_dim b = d -> valid_basis b -> length n = d -> length i = S d -> length p = d ->
  moved_site d (b_mat b) n i p (fst (copied b n (i, p))) (snd (copied b n (i, p))).
Proof.
  intros Hd Hb Hn Hi Hp. unfold copied. cbn [fst snd]. split; [apply shift_index_length; auto|]. split; [|split].
  - intros k Hk. apply (nth_shift_index n i d); auto.
  - rewrite (nth_shift_index n i d) by auto. rewrite (nth_overflow n) by lia. lia.
  - apply same_veq. pose proof (repeat_length 0%Q (b_dim b)) as Lz. change (length (vzero (b_dim b)) = b_dim b) in Lz.
    assert (veq (translate b n (vzero (b_dim b))) (lattice_point d (b_mat b) (vzero (b_dim b)) n) /\ length (translate b n (vzero (b_dim b))) = d) as [E L].
    { apply translate_point; auto; [rewrite <- Hd; apply Hb|congruence]. }
    apply veq_nth. rewrite lattice_point_length. assert (length (vadd p (translate b n (vzero (b_dim b)))) = d) as L2.
    { unfold vadd. rewrite LinFacts.map2_length. unfold vec in *. lia. }
    split; auto. intro c. destruct (Nat.lt_ge_cases c d) as [Hc|Hc].
    + unfold vadd. rewrite (nth_map2 _ _ _ _ 0%Q 0%Q) by (unfold vec in *; lia). apply veq_nth in E. destruct E as [_ E]. rewrite (E c).
      rewrite !nth_lattice_point by auto. unfold vzero. rewrite nth_repeat. ring.
    + rewrite !nth_overflow; [reflexivity| |]; unfold vec in *; rewrite ?lattice_point_length; lia.
Qed.

(** The site itself. *)
Lemma itself_moved d b i p : b_dim b = d -> length i = S d -> length p = d -> moved_site d (b_mat b) (repeat 0%Z d) i p i p.
Proof.
  intros Hd Hi Hp. split; auto. split; [intros k Hk; rewrite nth_repeat; lia|]. split; auto.
  apply same_veq. apply veq_nth. rewrite lattice_point_length. split; auto. intro c. destruct (Nat.lt_ge_cases c d) as [Hc|Hc].
  - rewrite nth_lattice_point by auto. rewrite sum_zero; [ring|]. intros k Hk. rewrite nth_repeat. change (inject_Z 0) with 0%Q. ring.
  - rewrite !nth_overflow; [reflexivity| |]; rewrite ?lattice_point_length; lia.
Qed.

Lemma unit_zero d a : unit d a 0 = repeat 0%Z d.
Proof.
  apply (nth_ext _ _ 0%Z 0%Z); [rewrite unit_length, repeat_length; auto|]. intros k Hk. rewrite unit_length in Hk. rewrite nth_unit, nth_repeat by auto.
  destruct (k =? a); reflexivity.
Qed.

Lemma nth_error_copies {A} (f : nat -> A -> A) k l c j x : c <= k -> nth_error l j = Some x ->
  nth_error (copies f k l) (c * length l + j) = Some (if c =? 0 then x else f c x).
Proof.
  intros Hc Hj. pose proof (nth_error_length_lt _ _ _ Hj) as Hlt. induction k as [|k IH].
  - assert (c = 0) as -> by lia. cbn. unfold copies. cbn. rewrite app_nil_r. auto.
  - rewrite copies_S. destruct (Nat.eq_dec c (S k)) as [->|Hne].
    + rewrite nth_error_app2 by (rewrite copies_length; lia). rewrite copies_length. replace (S k * length l + j - S k * length l) with j by lia.
      rewrite nth_error_map', Hj. reflexivity.
    + rewrite nth_error_app1; [apply IH; lia|]. rewrite copies_length. nia.
Qed.

Lemma nth_error_sites l j i p : length (lt_indices l) = length (lt_positions l) ->
  nth_error (lsites l) j = Some (i, p) <-> nth_error (lt_indices l) j = Some i /\ nth_error (lt_positions l) j = Some p.
Proof.
  intros _. unfold lsites. generalize (lt_positions l). revert j. induction (lt_indices l) as [|x I IH]; intros j [|y P]; destruct j as [|j]; cbn; try (split; [discriminate|intros [? ?]; discriminate]).
  - split; [intro H; injection H as -> ->; auto|intros [H1 H2]; injection H1 as ->; injection H2 as ->; auto].
  - apply IH.
Qed.

(** Appending copies on the right: the copies are next to each other, no site is there twice. *)
Theorem C59_repeat_right :
  forall ball argsort ws d l ax e side sort_axis rv l',
    built d l -> ax < d -> extent (lt_indices l) ax e -> (lt_primitive l = Some true \/ axis_aligned d (b_mat (lt_basis l))) -> (0 < side)%Z ->
    repeat_lattice ball argsort ws l ax side sort_axis rv = Some l' ->
    let N := lt_num_sites l in
    let K := length ws in
    lt_num_sites l' = S K * N /\ length (lt_positions l') = S K * N /\
    (NoDup (lt_indices l) -> NoDup (lt_indices l')) /\
    extent (lt_indices l') ax (Z.of_nat (S K) * e) /\
    (forall c n j i p, c <= K -> along d ax (Z.of_nat c * e) n -> nth_error (lt_indices l) j = Some i -> nth_error (lt_positions l) j = Some p ->
       exists j' i' p', nth_error (lt_indices l') j' = Some i' /\ nth_error (lt_positions l') j' = Some p' /\
         moved_site d (b_mat (lt_basis l)) n i p i' p' /\ (sort_axis = None -> j' = c * N + j)).
Proof.
  intros ball argsort ws d l ax e side sort_axis rv l' B Ha He Hal Hs H N K.
  pose proof (repeat_sites ball argsort d l B ax Ha e He Hal sort_axis rv ws side l' H) as R.
  replace (0 <? side)%Z with true in R by (symmetry; apply Z.ltb_lt; auto). fold K in R.
  pose proof (repeated_right_indices d l B ax e sort_axis K l' R) as PI.
  destruct R as [R1 [R2 [R3 [R4 R5]]]]. pose proof (bt_sites _ _ B) as L0. pose proof (bt_indices _ _ B) as HI.
  assert (length (lsites l) = N) as LN. { unfold lsites. rewrite combine_length, <- L0. unfold N, lt_num_sites. lia. }
  assert (lt_num_sites l' = S K * N) as E1. { unfold lt_num_sites. rewrite (Permutation_length PI), copies_length. reflexivity. }
  split; auto. split; [unfold lt_num_sites in E1; congruence|]. split; [|split].
  - intro Hnd. apply (Permutation_NoDup (Permutation_sym PI)). apply NoDup_copies; auto.
  - apply (extent_perm _ _ _ _ (Permutation_sym PI)). apply extent_copies; auto.
  - intros c n j i p Hc Hn Hi Hp. apply along_unit in Hn. subst n.
    assert (nth_error (lsites l) j = Some (i, p)) as Hj by (apply nth_error_sites; auto).
    assert (length i = S d) as Li by (apply HI; eapply nth_error_In; eauto).
    assert (length p = d) as Lp by (apply (bt_positions _ _ B); eapply nth_error_In; eauto).
    set (s := if c =? 0 then (i, p) else copied (lt_basis l) (unit d ax (Z.of_nat c * e)) (i, p)).
    assert (nth_error (copies (fun j => copied (lt_basis l) (unit d ax (Z.of_nat j * e))) K (lsites l)) (c * N + j) = Some s) as Hs'.
    { rewrite <- LN. exact (nth_error_copies (fun j => copied (lt_basis l) (unit d ax (Z.of_nat j * e))) K (lsites l) c j (i, p) Hc Hj). }
    assert (moved_site d (b_mat (lt_basis l)) (unit d ax (Z.of_nat c * e)) i p (fst s) (snd s)) as HM.
    { unfold s. destruct (Nat.eqb_spec c 0) as [->|Hc0].
      - change (Z.of_nat 0 * e)%Z with 0%Z. rewrite unit_zero. apply itself_moved; auto. apply (bt_dim _ _ B).
      - apply copied_moved; auto; [apply (bt_dim _ _ B)|apply (bt_basis _ _ B)|apply unit_length]. }
    assert (exists j', nth_error (lsites l') j' = Some s /\ (sort_axis = None -> j' = c * N + j)) as [j' [Hj' Hsort]].
    { destruct sort_axis as [a|].
      - apply nth_error_In in Hs'. apply (Permutation_in _ (Permutation_sym R4)) in Hs'. apply In_nth_error in Hs'. destruct Hs' as [j' Hj'].
        exists j'. split; auto. discriminate.
      - exists (c * N + j). split; auto. rewrite (R5 eq_refl). auto. }
    destruct s as [i' p']. apply nth_error_sites in Hj'; auto. exists j', i', p'. destruct Hj'. auto.
Qed.

(** Copies on the left all go to the same place. *)
Theorem C59_repeat_left :
  forall ball argsort ws d l ax e side sort_axis rv l',
    built d l -> ax < d -> extent (lt_indices l) ax e -> (lt_primitive l = Some true \/ axis_aligned d (b_mat (lt_basis l))) -> (side <= 0)%Z ->
    repeat_lattice ball argsort ws l ax side sort_axis rv = Some l' ->
    let N := lt_num_sites l in
    let K := length ws in
    lt_num_sites l' = S K * N /\ length (lt_positions l') = S K * N /\
    (K <= 1 -> NoDup (lt_indices l) -> NoDup (lt_indices l')) /\
    (forall n j i p, 1 <= K -> along d ax (- e) n -> nth_error (lt_indices l) j = Some i -> nth_error (lt_positions l) j = Some p ->
       exists i' p' js, NoDup js /\ length js = K /\ moved_site d (b_mat (lt_basis l)) n i p i' p' /\
         forall j', In j' js -> nth_error (lt_indices l') j' = Some i' /\ nth_error (lt_positions l') j' = Some p').
Proof.
  intros ball argsort ws d l ax e side sort_axis rv l' B Ha He Hal Hs H N K.
  pose proof (repeat_sites ball argsort d l B ax Ha e He Hal sort_axis rv ws side l' H) as R.
  replace (0 <? side)%Z with false in R by (symmetry; apply Z.ltb_ge; auto). fold K in R.
  destruct R as [R1 [R2 [R3 [R4 R5]]]]. pose proof (bt_sites _ _ B) as L0. pose proof (bt_indices _ _ B) as HI.
  assert (length (lsites l) = N) as LN. { unfold lsites. rewrite combine_length, <- L0. unfold N, lt_num_sites. lia. }
  assert (length (lsites l') = lt_num_sites l') as LN'. { unfold lsites. rewrite combine_length, <- R3. unfold lt_num_sites. lia. }
  assert (lt_num_sites l' = S K * N) as E1. { rewrite <- LN', (Permutation_length R4), copies_length, LN. reflexivity. }
  split; auto. split; [unfold lt_num_sites in E1; congruence|].
  assert (neg (unit d ax e) = unit d ax (- e)) as En.
  { unfold neg, unit. rewrite map_map. apply map_ext. intro k. destruct (k =? ax); reflexivity. }
  assert (Permutation (lt_indices l') (copies (fun _ => shift_index (unit d ax (- e))) K (lt_indices l))) as PI.
  { rewrite <- (map_fst_lsites l' R3). apply (Permutation_map fst) in R4. rewrite R4.
    rewrite (map_copies fst _ (fun _ => shift_index (unit d ax (- e)))) by (intros; unfold copied; rewrite En; reflexivity).
    rewrite map_fst_lsites by auto. reflexivity. }
  split.
  - intros HK Hnd. apply (Permutation_NoDup (Permutation_sym PI)). destruct K as [|[|K]]; [| |lia].
    + unfold copies. cbn. rewrite app_nil_r. auto.
    + rewrite copies_S. unfold copies. cbn. rewrite app_nil_r. apply NoDup_app'; auto; [apply (NoDup_shift d); auto using unit_length|].
      intros x H1 H2. apply in_map_iff in H2. destruct H2 as [y [<- Hy]]. destruct He as [lo [hi [Ee [_ [_ Hb]]]]].
      pose proof (Hb _ H1) as B1. pose proof (Hb _ Hy) as B2. rewrite (nth_shift_index _ _ d) in B1 by (auto using unit_length).
      rewrite nth_unit, Nat.eqb_refl in B1 by auto. lia.
  - intros n j i p HK Hn Hi Hp. apply along_unit in Hn. subst n.
    assert (nth_error (lsites l) j = Some (i, p)) as Hj by (apply nth_error_sites; auto).
    assert (length i = S d) as Li by (apply HI; eapply nth_error_In; eauto).
    assert (length p = d) as Lp by (apply (bt_positions _ _ B); eapply nth_error_In; eauto).
    set (s := copied (lt_basis l) (unit d ax (- e)) (i, p)). exists (fst s), (snd s).
    set (js0 := map (fun c => c * N + j) (seq 1 K)).
    assert (NoDup js0) as Hnd0.
    { unfold js0. pose proof (nth_error_length_lt _ _ _ Hj) as Hlt. rewrite LN in Hlt. generalize (seq_NoDup K 1). generalize (seq 1 K).
      induction 1 as [|c L Hc HL IH]; cbn; constructor; auto. rewrite in_map_iff. intros [c' [E Hc']]. apply Hc. assert (c = c') as -> by nia. auto. }
    assert (forall j', In j' js0 -> nth_error (copies (fun _ => copied (lt_basis l) (neg (unit d ax e))) K (lsites l)) j' = Some s) as Hjs0.
    { intros j' Hj'. unfold js0 in Hj'. apply in_map_iff in Hj'. destruct Hj' as [c [<- Hc]]. apply in_seq in Hc. rewrite <- LN.
      rewrite (nth_error_copies _ K (lsites l) c j (i, p)) by (auto; lia). destruct (Nat.eqb_spec c 0); [lia|]. rewrite En. reflexivity. }
    apply Permutation_nth_error in R4. destruct R4 as [_ [f [Hf HfE]]].
    exists (map f js0). split; [|split; [|split]].
    + clear -Hnd0 Hf. induction Hnd0 as [|x L Hx HL IH]; cbn; constructor; auto. rewrite in_map_iff. intros [y [E Hy]]. apply Hf in E. subst. auto.
    + unfold js0. rewrite !map_length, seq_length. reflexivity.
    + apply copied_moved; auto; [apply (bt_dim _ _ B)|apply (bt_basis _ _ B)|apply unit_length].
    + intros j' Hj'. apply in_map_iff in Hj'. destruct Hj' as [x [<- Hx]]. apply nth_error_sites; auto. rewrite <- HfE, (Hjs0 x Hx).
      destruct s; reflexivity.
Qed.

(** Two rounds on the left: two sites at the same place. *)
Corollary C59_repeat_left_refuted :
  forall ball argsort ws d l ax e side sort_axis rv l',
    built d l -> ax < d -> extent (lt_indices l) ax e -> (lt_primitive l = Some true \/ axis_aligned d (b_mat (lt_basis l))) -> (side <= 0)%Z ->
    2 <= length ws -> repeat_lattice ball argsort ws l ax side sort_axis rv = Some l' ->
    exists j1 j2 i p, j1 <> j2 /\ nth_error (lt_indices l') j1 = Some i /\ nth_error (lt_indices l') j2 = Some i /\
      nth_error (lt_positions l') j1 = Some p /\ nth_error (lt_positions l') j2 = Some p.
Proof.
  intros ball argsort ws d l ax e side sort_axis rv l' B Ha He Hal Hs HK H.
  destruct (C59_repeat_left _ _ _ _ _ _ _ _ _ _ _ B Ha He Hal Hs H) as [_ [_ [_ HL]]].
  destruct He as [lo [hi [_ [[i [Hi _]] _]]]]. apply In_nth_error in Hi. destruct Hi as [j Hj].
  destruct (nth_error (lt_positions l) j) as [p|] eqn:Ep.
  2: { apply nth_error_None in Ep. pose proof (nth_error_length_lt _ _ _ Hj). pose proof (bt_sites _ _ B). unfold vec in *. lia. }
  destruct (HL (unit d ax (- e)) j i p) as [i' [p' [js [N1 [N2 [_ N3]]]]]]; auto; [lia|apply along_unit; auto|].
  destruct js as [|j1 [|j2 js]]; cbn in N2; try lia. exists j1, j2, i', p'. split.
  - intro E. subst. inversion N1; subst. apply H2. left. auto.
  - destruct (N3 j1) as [A1 A2]; [left; auto|]. destruct (N3 j2) as [B1 B2]; [right; left; auto|]. auto.
Qed.

(** The points of [Q] within the squared radius [r2] of every point of [P]. *)
Definition brute_ball (P R : list vec) (r2 : Q) : list (list nat) :=
  map (fun p => filter (fun j => Qle_bool (dist2 p (nth j R [])) r2) (seq 0 (length R))) P.

Definition keep : conversions := mkConv (fun n => n) (fun n => n) (fun n => n).

Example C59_example :
  built 1 chain5 /\ axis_aligned 1 (b_mat (lt_basis chain5)) /\ extent (lt_indices chain5) 0 5 /\ NoDup (lt_indices chain5) /\
  (exists l', repeat_lattice brute_ball dist_argsort [keep; keep] chain5 0 1 None false = Some l' /\
     lt_indices l' = map (fun k => [Z.of_nat k; 0%Z]) (seq 0 15)) /\
  (exists l', repeat_lattice brute_ball dist_argsort [keep; keep] chain5 0 (-1) (Some 0) false = Some l' /\
     map (fun i => nth 0 i 0%Z) (lt_indices l') = [-5; -5; -4; -4; -3; -3; -2; -2; -1; -1; 0; 1; 2; 3; 4]%Z) /\
  exists l', repeat_lattice brute_ball dist_argsort [keep] chain5 0 (-1) (Some 0) false = Some l' /\
     map (fun i => nth 0 i 0%Z) (lt_indices l') = [-5; -4; -3; -2; -1; 0; 1; 2; 3; 4]%Z.
Proof.
  split. { apply built_checked; [|vm_compute; reflexivity]. apply inverse1_check; reflexivity. }
  split. { split; [split; [reflexivity|intros r [<-|[]]; reflexivity]|]. intros [|i] [|j] Hi Hj; try lia. vm_compute. reflexivity. }
  split. { exists 0%Z, 4%Z. split; [reflexivity|]. split; [exists [0;0]%Z; vm_compute; auto|]. split; [exists [4;0]%Z; vm_compute; auto 8|].
    intros i Hi. vm_compute in Hi. intuition (subst; cbn; lia). }
  split. { vm_compute. repeat constructor; cbn; intuition discriminate. }
  split; [|split]; eexists; (split; [vm_compute; reflexivity|vm_compute; reflexivity]).
Qed.

(** A tube: the square of 3 x 3 sites, periodic along the first axis, repeated along its open axis.  The first copy keeps its periodic
    neighbours as ordinary ones, in the second copy a site that does not exist has taken their place. *)
Definition square9 : lattice :=
  Eval vm_compute in fst (build brute dist_argsort [1; 1]%Q (new_lattice square_atom) (ASize [2; 2]%Q) false None true None None None).
Definition tube9 : lattice := Eval vm_compute in fst (set_periodic brute dist_argsort square9 (AxList [0])).

Theorem C59_periodic_refuted :
  build brute dist_argsort [1; 1]%Q (new_lattice square_atom) (ASize [2; 2]%Q) false None true None None None = (square9, Ok tt) /\
  set_periodic brute dist_argsort square9 (AxList [0]) = (tube9, Ok tt) /\
  map (fun i => neighbors tube9 i None false) (seq 0 9) =
    map Some [[1; 3; 6]; [0; 2; 4; 7]; [1; 5; 8]; [0; 4; 6]; [1; 3; 5; 7]; [2; 4; 8]; [3; 7; 0]; [4; 6; 8; 1]; [5; 7; 2]] /\
  (exists l, repeat_lattice brute_ball dist_argsort [keep] tube9 1 1 None false = Some l /\
     map (fun i => neighbors l i None false) (seq 9 9) =
       map Some [[10; 12; 15; 2]; [9; 11; 13; 16]; [10; 14; 17]; [9; 13; 15; 5]; [10; 12; 14; 16]; [11; 13; 17]; [12; 16; 9; 8]; [13; 15; 17; 10]; [14; 16; 11]]) /\
  exists l, repeat_lattice brute_ball dist_argsort [keep; keep] tube9 1 1 None false = Some l /\ lt_num_sites l = 27 /\
    map (fun i => neighbors l i None false) (seq 18 9) =
      map Some [[19; 21; 27; 11]; [18; 20; 22; 27]; [19; 23; 27]; [18; 22; 24; 14]; [19; 21; 23; 25]; [20; 22; 26]; [21; 25; 27; 17]; [22; 24; 26; 27]; [23; 25; 27]].
Proof.
  split; [vm_compute; reflexivity|]. split; [vm_compute; reflexivity|]. split; [vm_compute; reflexivity|].
  split; eexists; split; [vm_compute; reflexivity|vm_compute; reflexivity|vm_compute; reflexivity|]. split; vm_compute; reflexivity.
Qed.

(** Rows without padding: a ring that is repeated loses all neighbours, those of the seam too. *)
Theorem C59_ring_refuted :
  map (fun i => neighbors ring5 i None false) (seq 0 5) = map Some [[1; 4]; [0; 2]; [1; 3]; [2; 4]; [3; 0]] /\
  exists l, repeat_lattice brute_ball dist_argsort [keep] ring5 0 1 None false = Some l /\
    map (fun i => neighbors l i None false) (seq 0 10) = repeat (Some []) 10.
Proof. split; [vm_compute; reflexivity|]. eexists. split; vm_compute; reflexivity. Qed.

Print Assumptions C59_repeat_right.
Print Assumptions C59_repeat_left.
Print Assumptions C59_repeat_left_refuted.
Print Assumptions C59_periodic_refuted.
Print Assumptions C59_ring_refuted.
