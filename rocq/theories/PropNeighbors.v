(** * Properties of lattpy/structure.py: the neighbours of built sites (C34, C35) *)
From Coq Require Import String List ZArith QArith Bool Arith Lia Permutation Sorting.Sorted.
From Verif Require Import Np NpFacts LinAlg LinFacts SpecUtils UtilsModel UtilsProofs SpecBasis AtomModel BasisModel BasisProofs
  NeighborCellProofs PropBasis SpatialModel SpecSpatial KDProofs SpecStructure StructureModel KDBrute RoundFacts StructureFacts
  DataModel SpecData DataFacts PropData
  AnalyzeProofs StructureProofs PropStructure PropAnalyze FilterProofs SpecNeighbors NeighborProofs RadiusProofs.
Import ListNotations.
Open Scope nat_scope.
Open Scope list_scope.

(** ** C34 *)

Lemma among_first_ext k (A B : dist -> Prop) x : (forall y, A y <-> B y) -> among_first k A x -> among_first k B x.
Proof. intros H [L [H1 [H2 H3]]]. exists L. split; auto. split; auto. intro y. rewrite H2. apply H. Qed.

Lemma rounds_sqdist_sym p q z : length p = length q -> rounds_to_micro (sqdist p q) z -> rounds_to_micro (sqdist q p) z.
Proof. intro H. apply rounds_ext. apply sqdist_sym. auto. Qed.

Lemma occurs_sym d V R cells a c y :
  length (nth a R []) = d -> length (nth c R []) = d ->
  (forall m, In m cells -> length m = d) -> (forall m, In m cells -> In (map Z.opp m) cells) ->
  occurs d V R cells a c y <-> occurs d V R cells c a y.
Proof.
  intros La Lc Hl Hneg. split; intros [Hy [m [Hm Hpm]]]; split; auto; exists (map Z.opp m); split; auto; apply pair_distance_sym; auto.
Qed.

Theorem C34_computed_neighbors_are_the_connected_sites :
  forall query argsort s s' conns an I P r,
    correct_tree query -> is_argsort dleb argsort ->
    valid_basis (st_basis s) -> 1 <= b_dim (st_basis s) -> in_step s ->
    st_connections s = Some conns -> analyze query s = (s', Ok tt) -> st_analysis s' = Some an ->
    let d := b_dim (st_basis s) in
    let V := b_mat (st_basis s) in
    let R := st_positions s in
    (* the sites *)
    distinct_points d P -> length I = length P -> (forall i, In i I -> 0 <= last i 0 < Z.of_nat (length R))%Z ->
    (* not more sites in range than asked for *)
    query_radius an = Some r -> (forall p, In p P -> at_most (query_count an) (within P p (r * r)%Q)) ->
    exists m cells,
      (forall a c, nth c (nth a conns []) 0 <= m) /\ (exists a c, nth c (nth a conns []) 0 = m) /\
      get_neighbor_cells (st_basis s) (2 * m) true Qle_bool = Some cells /\
      let connected := connected_sites (fun a c => among_first (nth c (nth a conns []) 0) (occurs d V R cells a c)) I P in
      (* sites are not nearer than 6e-6 *)
      ((forall a c x, a < length R -> c < length R -> occurs d V R cells a c x -> dleb (Fin 6) x = true) ->
       exists T, compute_neighbors query argsort an I P = Some T /\ neighbor_table (length P) connected T) /\
      (forall i j x, i < length P -> j < length P -> connected i j x <-> connected j i x) /\
      (forall i x, ~ connected i i x).
Proof.
  intros query argsort s s' conns an I P r Hq Harg Hb Hd Hs Ec0 Ha Ean d V R HP Hlen Hat Hr Hroom.
  destruct (analysed_table query s s' Hb Hd Hs Ha) as [conns' [cells [Ec [Hcne [HRne [Hm0 [Ecells [[Hcl [Hcr Hcs]] [HR Es]]]]]]]]].
  rewrite Ec0 in Ec. injection Ec as <-. fold R in HRne, HR, Es, Hcl, Hcr, Hcs. fold d in HR.
  rewrite Es in Ean. cbn in Ean. injection Ean as <-.
  set (an := analyze_raw (raw_dicts query (st_basis s) R (max_connections conns) cells) conns (length R)) in *.
  destruct (cells_props (st_basis s) (max_connections conns) Hb Hd cells Ecells) as [_ [Hclen Hneg]]. fold d in Hclen.
  assert (forall i, i < length P -> atom_of I i < length R) as Hrange.
  { intros i Hi. unfold atom_of. assert (In (nth i I []) I) as Hin by (apply nth_In; lia). specialize (Hat _ Hin). lia. }
  exists (max_connections conns), cells.
  split; [exact (in_max_connections conns)|]. split; [exact (max_connections_reached conns Hm0)|]. split; auto.
  cbv zeta. split; [|split].
  - intro Hsep.
    destruct (radius_spec query (st_basis s) R cells conns Hq Hb Hd HR Ecells r Hr Hsep) as [Hr0 Hreach]. fold an in Hreach.
    assert (length (an_distmat an) = length R) as HD by apply distmat_length.
    assert (2 <= query_count an) as Hk.
    { exact (count_spec query (st_basis s) R cells conns Hq Hb Hd HR Ecells r Hr). }
    destruct (compute_table query argsort an d I P r Hq Harg HP Hlen) as [T [HT1 HT2]]; auto.
    { rewrite HD. exact Hat. }
    exists T. split; auto. destruct HT2 as [T1 [W T2]]. split; auto. exists W. intros i row Hrow. destruct (T2 i row Hrow) as [A1 [A2 A3]].
    split; auto. split; auto. intros j x Hx. rewrite A2 by auto. unfold connected_sites.
    pose proof (In_distmat query (st_basis s) R cells conns Hq Hb Hd HR Ecells (atom_of I i) (atom_of I j) x) as HinD. fold an in HinD.
    rewrite HinD. split; [tauto|]. intros [H1 [H2 H3]]. split; auto. split; auto. split; [|split; auto].
    + apply Hrange. unfold site_distance in H2. destruct H2 as [p [_ [_ [Hp _]]]]. apply nth_error_length_lt in Hp. auto.
    + apply Hrange. unfold site_distance in H2. destruct H2 as [_ [p [_ [_ [Hp _]]]]]. apply nth_error_length_lt in Hp. auto.
  - assert (forall i j x, i < length P -> j < length P ->
      connected_sites (fun a c => among_first (nth c (nth a conns []) 0) (occurs d V R cells a c)) I P i j x ->
      connected_sites (fun a c => among_first (nth c (nth a conns []) 0) (occurs d V R cells a c)) I P j i x) as Hsym.
    { intros i j x Hi Hj [Hne [[p [q [z [Hp [Hq' [-> Hz]]]]]] Hal]]. split; auto. split.
      - exists q, p, z. split; auto. split; auto. split; auto. apply rounds_sqdist_sym; auto.
        destruct HP as [HPl _]. rewrite (HPl p (nth_error_In _ _ Hp)), (HPl q (nth_error_In _ _ Hq')). reflexivity.
      - rewrite Hcs. eapply among_first_ext; [|exact Hal]. intro y. apply occurs_sym; auto.
        + apply HR, nth_In, Hrange. auto.
        + apply HR, nth_In, Hrange. auto. }
    intros i j x Hi Hj. split; apply Hsym; auto.
  - intros i x [H _]. congruence.
Qed.

(** A check for the distance condition. *)
Definition apart_check (d : nat) (V R : list (list Q)) (cells : list (list Z)) : bool :=
  forallb (fun a => forallb (fun c => forallb (fun n =>
    let z := sqrt_micro (sqdist (nth a R []) (lattice_point d V (nth c R []) n)) in (z =? 0)%Z || (6 <=? z)%Z) cells)
    (seq 0 (length R))) (seq 0 (length R)).

Lemma apart_checked d V R cells : apart_check d V R cells = true ->
  forall a c x, a < length R -> c < length R -> occurs d V R cells a c x -> dleb (Fin 6) x = true.
Proof.
  intros H a c x Ha Hc [Hx [n [Hn [z [-> Hz]]]]]. unfold apart_check in H. rewrite forallb_forall in H.
  specialize (H a ltac:(apply in_seq; lia)). rewrite forallb_forall in H. specialize (H c ltac:(apply in_seq; lia)).
  rewrite forallb_forall in H. specialize (H n Hn). cbv zeta in H.
  rewrite <- (rounds_unique _ _ _ _ Hz (sqrt_micro_rounds _ (sqdist_nonneg _ _)) (Qeq_refl _)) in H.
  apply orb_true_iff in H. destruct H as [H|H]; [apply Z.eqb_eq in H; congruence|exact H].
Qed.

Lemma few_sites k P p r2 : length P <= k -> at_most k (within P p r2).
Proof.
  intros H L Hnd HL. transitivity (length P); auto. rewrite <- (seq_length (length P) 0). apply NoDup_incl_length; auto.
  intros j Hj. destruct (HL j Hj) as [q [Hq _]]. apply in_seq. apply nth_error_length_lt in Hq. lia.
Qed.

(** A chain of A and B at distance 1/2, connected to each other, of which three sites are built. *)
Definition ab_calls : list call :=
  [CAddAtom (Some [0]%Q) (ex_atom "A") false 0; CAddAtom (Some [1#2]%Q) (ex_atom "B") false 0;
   CAddConnection (RName "A") (RName "B") 1 false].
Definition ab_chain : structure := run_calls brute ex_chain ab_calls.
Definition ab_indices : list (list Z) := [[0; 0]; [0; 1]; [1; 0]]%Z.
Definition ab_points : list (list Q) := [[0]; [1#2]; [1]]%Q.

Example C34_example :
  valid_basis (st_basis ab_chain) /\ in_step ab_chain /\ st_connections ab_chain = Some [[0; 1]; [1; 0]] /\
  distinct_points 1 ab_points /\ (forall i, In i ab_indices -> 0 <= last i 0 < 2)%Z /\
  exists s' an r cells, analyze brute ab_chain = (s', Ok tt) /\ st_analysis s' = Some an /\ query_radius an = Some r /\
    get_neighbor_cells (st_basis ab_chain) 2 true Qle_bool = Some cells /\
    (forall p, In p ab_points -> at_most (query_count an) (within ab_points p (r * r)%Q)) /\
    (forall a c x, a < 2 -> c < 2 -> occurs 1 [[1%Q]] [[0]; [1#2]]%Q cells a c x -> dleb (Fin 6) x = true) /\
    compute_neighbors brute dist_argsort an ab_indices ab_points =
      Some [[(1, Fin 500000); (3, Inf)]; [(0, Fin 500000); (2, Fin 500000)]; [(1, Fin 500000); (3, Inf)]].
Proof.
  split; [apply inverse1_check; reflexivity|]. split.
  { apply (reachable_in_step brute ex_chain). unfold ab_chain, run_calls. cbn [fold_left ab_calls].
    repeat (apply r_call; [|intro; reflexivity || discriminate]). apply r_new. }
  split; [reflexivity|]. split.
  { split; [intros p [<-|[<-|[<-|[]]]]; reflexivity|].
    intros [|[|[|i]]] [|[|[|j]]] p q; cbn; intros E1 E2 H; try reflexivity; try (destruct i; discriminate); try (destruct j; discriminate);
      injection E1 as <-; injection E2 as <-; specialize (H 0); cbn in H; discriminate. }
  split; [intros i [<-|[<-|[<-|[]]]]; cbn; lia|].
  eexists _, _, _, _. split; [vm_compute; reflexivity|]. split; [reflexivity|]. split; [vm_compute; reflexivity|]. split; [vm_compute; reflexivity|].
  split; [intros p _; apply few_sites; vm_compute; lia|]. split; [|vm_compute; reflexivity].
  apply (apart_checked 1 [[1%Q]] [[0]; [1#2]]%Q). vm_compute. reflexivity.
Qed.

(** More sites in range than asked for: lattice vectors (1, 0) and (0, 10), A at the origin, B at (0, 5), connected to
    each other.  The A in the middle of a chain of 11 has 10 A in range, none of them a neighbour, and k = 9: the B
    above it is not found, although the sites are connected. *)
Definition flat_basis : basis := mkBasis [[1; 0]; [0; 10]]%Q [[1; 0]; [0; 1#10]]%Q.
Definition flat_calls : list call :=
  [CAddAtom (Some [0; 0]%Q) (ex_atom "A") false 0; CAddAtom (Some [0; 5]%Q) (ex_atom "B") false 0;
   CAddConnection (RName "A") (RName "B") 1 false].
Definition flat : structure := run_calls brute flat_basis flat_calls.


Theorem C34_too_few_refuted :
  exists s' an I P T i j,
    in_step flat /\ valid_basis (st_basis flat) /\ st_connections flat = Some [[0; 1]; [1; 0]] /\
    analyze brute flat = (s', Ok tt) /\ st_analysis s' = Some an /\
    build_indices flat_basis [1; 10]%Q (st_positions flat) (ASize [10; 5]%Q) false None true None = Ok (I, P) /\
    compute_neighbors brute dist_argsort an I P = Some T /\
    nth_error I i = Some [5; 0; 0]%Z /\ nth_error I j = Some [5; 0; 1]%Z /\
    site_distance P i j (Fin 5000000) /\ In (Fin 5000000) (nth 1 (nth 0 (an_distmat an) []) []) /\
    (* an A at the end of the chain finds its B *)
    (exists i' j', nth_error I i' = Some [0; 0; 0]%Z /\ nth_error I j' = Some [0; 0; 1]%Z /\ In (j', Fin 5000000) (nth i' T [])) /\
    (* the one in the middle does not *)
    (forall x, ~ In (j, x) (nth i T [])).
Proof.
  eexists _, _, _, _, _, 10, 11.
  split. { apply (reachable_in_step brute flat_basis). unfold flat, run_calls. cbn [fold_left flat_calls].
    repeat (apply r_call; [|intro; reflexivity || discriminate]). apply r_new. }
  split; [apply inverse2_check; reflexivity|]. split; [reflexivity|].
  split; [vm_compute; reflexivity|]. split; [reflexivity|]. split; [vm_compute; reflexivity|]. split; [vm_compute; reflexivity|].
  split; [reflexivity|]. split; [reflexivity|]. split.
  { exists [5; 0]%Q, [5; 5]%Q, 5000000%Z. split; [reflexivity|]. split; [reflexivity|]. split; [reflexivity|].
    exact (sqrt_micro_rounds (sqdist [5; 0]%Q [5; 5]%Q) (sqdist_nonneg _ _)). }
  split; [left; reflexivity|]. split; [exists 0, 1; split; [reflexivity|]; split; [reflexivity|]; left; reflexivity|].
  intros x H. cbn in H. destruct H as [H|H]; [discriminate|]. exact H.
Qed.

(** ** C35 *)

(** The entries of a row of a site with atom [a] that belong to connected pairs. *)
Definition kept (D : list (list (list dist))) (I : list (list Z)) (a : nat) (row : list (nat * dist)) : list (nat * dist) :=
  filter (fun e => dfinite (snd e) && existsb (deqb (snd e)) (nth (atom_of I (fst e)) (nth a D []) [])) row.

Lemma full_count argsort D I a row : is_argsort dleb argsort -> (0 <= a < Z.of_nat (length D))%Z ->
  (forall e, In e row -> (snd e = Inf /\ fst e = length I) \/ (fst e < length I /\ (0 <= last (nth (fst e) I []) 0 < Z.of_nat (length D))%Z)) ->
  length (full argsort D I a row) = length (kept D I (Z.to_nat a) row).
Proof.
  intros Harg Ha Hrow. unfold full. destruct (sort_row_spec argsort (map (clean I D a) row) Harg) as [Hp _].
  rewrite (Permutation_length (Permutation_filter fin _ _ Hp)). clear Hp. unfold kept.
  induction row as [|e row IH]; [reflexivity|]. cbn [map filter].
  assert (fin (clean I D a e) = dfinite (snd e) && existsb (deqb (snd e)) (nth (atom_of I (fst e)) (nth (Z.to_nat a) D []) [])) as E.
  { destruct (Hrow e (or_introl eq_refl)) as [[E1 E2]|[E1 E2]].
    - destruct e as [j x]. cbn in E1, E2. subst j x. rewrite clean_invalid. reflexivity.
    - rewrite (clean_in_range I D a e (atom_of I (fst e))); auto.
      + unfold entry2. destruct (existsb (deqb (snd e)) _) eqn:Ex; cbn.
        * rewrite andb_true_r. unfold fin. destruct (snd e); reflexivity.
        * rewrite andb_false_r. reflexivity.
      + unfold padded_alpha, atom_of. rewrite (nth_indep I [-1]%Z []) by auto. rewrite Z2Nat.id; lia.
      + unfold atom_of. lia. }
  rewrite E. specialize (IH (fun e He => Hrow e (or_intror He))).
  destruct (_ && _); cbn [length]; congruence.
Qed.

(** The table ends with a padding entry somewhere if and only if no entry at all was missing or two sites have
    different numbers of neighbours. *)
Theorem C35_padding_entry :
  forall argsort D I alphas rows M,
    is_argsort dleb argsort -> rows <> [] -> length alphas = length rows ->
    (forall a, In a alphas -> 0 <= a < Z.of_nat (length D))%Z ->
    (forall row, In row rows -> length row = M) ->
    (forall row e, In row rows -> In e row ->
       (snd e = Inf /\ fst e = length I) \/ (snd e <> Inf /\ fst e < length I /\ (0 <= last (nth (fst e) I []) 0 < Z.of_nat (length D))%Z)) ->
    let number i := length (kept D I (Z.to_nat (nth i alphas 0%Z)) (nth i rows [])) in
    (exists row e, In row (filter_neighbors argsort D I alphas rows) /\ In e row /\ snd e = Inf) <->
    ((forall i, i < length rows -> number i = M) \/
     exists i j, i < length rows /\ j < length rows /\ number i < number j).
Proof.
  intros argsort D I alphas rows M Harg Hne Hlen Ha Hrect Hent number.
  destruct (filter_neighbors_eq argsort D I alphas rows M Harg Hlen Hrect) as [-> Hle].
  { intros row e Hrow He Hx. destruct (Hent row e Hrow He) as [[_ H]|[H1 H2]]; [auto|congruence]. }
  set (F := map2 (full argsort D I) alphas rows) in *.
  assert (length F = length rows) as HlF by (unfold F; rewrite map2_length; lia).
  assert (forall i, i < length rows -> length (nth i F []) = number i) as Hnum.
  { intros i Hi. unfold F. rewrite (nth_map2 _ _ _ _ 0%Z []) by lia. apply full_count; auto.
    - apply Ha, nth_In. lia.
    - intros e He. destruct (Hent (nth i rows []) e (nth_In _ _ Hi) He) as [H|[_ H]]; auto. }
  assert (forall f, In f F -> exists i, i < length rows /\ f = nth i F []) as HF.
  { intros f Hf. apply (In_nth _ _ []) in Hf. destruct Hf as [i [Hi <-]]. exists i. split; auto. lia. }
  assert (forall f e, In f F -> In e f -> snd e <> Inf) as Hfin.
  { intros f e Hf He. destruct (HF f Hf) as [i [Hi ->]]. unfold F in He. rewrite (nth_map2 _ _ _ _ 0%Z []) in He by lia.
    unfold full in He. apply filter_In in He. apply fin_spec. tauto. }
  assert ((exists row e, In row (map (padded_row (length I) (out_width M F)) F) /\ In e row /\ snd e = Inf) <-> exists f, In f F /\ length f < out_width M F) as ->.
  { split.
    - intros [row [e [Hrow [He Hx]]]]. apply in_map_iff in Hrow. destruct Hrow as [f [<- Hf]]. exists f. split; auto.
      unfold padded_row in He. apply in_app_iff in He. destruct He as [He|He]; [exfalso; eapply Hfin; eauto|].
      destruct (out_width M F - length f) eqn:E; [destruct He|lia].
    - intros [f [Hf Hlt]]. exists (padded_row (length I) (out_width M F) f), (length I, Inf). split; [apply in_map; auto|]. split; auto.
      unfold padded_row. apply in_app_iff. right. destruct (out_width M F - length f) eqn:E; [lia|left; reflexivity]. }
  unfold out_width in *. destruct (forallb (fun f => length f =? M) F) eqn:Eall.
  - rewrite forallb_forall in Eall. split.
    + intros _. left. intros i Hi. rewrite <- Hnum by auto. apply Nat.eqb_eq, Eall, nth_In. lia.
    + intros _. assert (0 < length rows) as H0 by (destruct rows; [congruence|cbn; lia]).
      exists (nth 0 F []). split; [apply nth_In; lia|]. assert (length (nth 0 F []) = M) by (apply Nat.eqb_eq, Eall, nth_In; lia). lia.
  - assert (~ forall i, i < length rows -> number i = M) as Hnot.
    { intro H. apply not_true_iff_false in Eall. apply Eall. apply forallb_forall. intros f Hf. destruct (HF f Hf) as [i [Hi ->]].
      rewrite Hnum by auto. apply Nat.eqb_eq. auto. }
    split.
    + intros [f [Hf Hlt]]. right. destruct (HF f Hf) as [i [Hi ->]].
      assert (In (list_max' (map (@length _) F)) (map (@length _) F)) as Hin by (apply list_max_in; destruct F; [destruct Hf|discriminate]).
      apply in_map_iff in Hin. destruct Hin as [g [Eg Hg]]. destruct (HF g Hg) as [j [Hj ->]].
      exists i, j. split; auto. split; auto. rewrite <- !Hnum by auto. lia.
    + intros [H|[i [j [Hi [Hj Hlt]]]]]; [tauto|]. exists (nth i F []). split; [apply nth_In; lia|].
      assert (length (nth j F []) <= list_max' (map (@length _) F)) by (apply list_max_ge, in_map, nth_In; lia).
      rewrite Hnum in * by auto. lia.
Qed.

(** With a padding entry the lattice data holds exactly the neighbours of the table. *)
Theorem C35_neighbors_survive :
  forall indices positions N dim nb T (values : list dist),
    0 < N -> rect N (S dim) indices -> rect N dim positions -> neighbor_table N nb T ->
    (exists row e, In row T /\ In e row /\ snd e = Inf) ->
    incl (map snd (concat T)) values -> length values <= 256 ->
    exists d, data_set indices positions (map (map fst) T) (map (map snd) T) = Some d /\
      forall i, i < N -> exists L, get_neighbors d i None None false = Some L /\
        forall j, In j L <-> exists x, x <> Inf /\ nb i j x.
Proof.
  intros indices positions N dim nb T values HN Ri Rp [HT [W Hrows]] [prow [pe [Hprow [Hpe Hpx]]]] Hincl Hlen.
  assert (rect N W T) as RT.
  { split; auto. intros row Hin. apply In_nth_error in Hin. destruct Hin as [i Hi]. apply (Hrows i row Hi). }
  assert (forall A (f : nat * dist -> A), rect N W (map (map f) T)) as Rm.
  { intros A f. destruct RT as [R1 R2]. split; [rewrite map_length; auto|]. intros row Hin. apply in_map_iff in Hin. destruct Hin as [r [<- Hr]].
    rewrite map_length. auto. }
  destruct (C39_set_neighbors indices positions (map (map fst) T) (map (map snd) T) N dim W values) as [d [Ed [_ [_ [_ Hd]]]]]; auto.
  { apply in_concat. exists (map snd prow). split; [apply in_map; auto|]. rewrite <- Hpx. apply in_map. auto. }
  { rewrite <- concat_map. auto. }
  exists d. split; auto. intros i Hi. destruct (Hd i Hi) as [Hg _]. eexists. split; [exact Hg|]. intro j.
  destruct (nth_error T i) as [row|] eqn:Erow; [|apply nth_error_None in Erow; lia].
  destruct (Hrows i row Erow) as [Hw [Hin _]].
  assert (forall A (dflt : A) (f : nat * dist -> A) c, c < W -> cell dflt (map (map f) T) i c = f (nth c row (0, Inf))) as Hcell.
  { intros A dflt f c Hc. unfold cell. rewrite (nth_map_in _ _ _ []) by lia. rewrite (nth_of_nth_error _ _ _ _ Erow).
    rewrite (nth_map_in _ _ _ (0, Inf)) by lia. reflexivity. }
  rewrite in_map_iff. split.
  - intros [c [<- Hc]]. apply filter_In in Hc. destruct Hc as [Hc Hf]. apply in_seq in Hc. rewrite Hcell in Hf by lia. rewrite Hcell by lia.
    exists (snd (nth c row (0, Inf))). assert (snd (nth c row (0, Inf)) <> Inf) as Hx by (intro E; rewrite E in Hf; discriminate).
    split; auto. apply Hin; auto. rewrite <- surjective_pairing. apply nth_In. lia.
  - intros [x [Hx Hn]]. apply Hin in Hn; auto. apply (In_nth _ _ (0, Inf)) in Hn. destruct Hn as [c [Hc Ec]].
    exists c. rewrite Hcell by lia. rewrite Ec. split; auto. apply filter_In. split; [apply in_seq; lia|]. rewrite Hcell by lia. rewrite Ec.
    destruct x; [reflexivity|congruence].
Qed.

Example C35_example :
  let rows := [[(1, Fin 500000); (3, Inf)]; [(0, Fin 500000); (2, Fin 500000)]; [(1, Fin 500000); (3, Inf)]] in
  (forall row e, In row rows -> In e row ->
     (snd e = Inf /\ fst e = 3) \/ (snd e <> Inf /\ fst e < 3 /\ (0 <= last (nth (fst e) ab_indices []) 0 < 2)%Z)) /\
  neighbor_table 3 (connected_sites (fun a c x => x = Fin 500000) ab_indices ab_points) rows /\
  exists row e, In row rows /\ In e row /\ snd e = Inf.
Proof.
  cbv zeta. split; [|split].
  - cbn [In]. intros row e Hrow He.
    repeat match goal with H : _ \/ _ |- _ => destruct H | H : False |- _ => destruct H end; subst; cbn in *;
    repeat match goal with H : _ \/ _ |- _ => destruct H | H : False |- _ => destruct H end; subst; cbn; auto; right; (split; [discriminate|lia]).
  - split; [reflexivity|]. exists 2.
    assert (forall i j x, connected_sites (fun _ _ x => x = Fin 500000) ab_indices ab_points i j x ->
      x = Fin 500000 /\ i < 3 /\ j < 3 /\ i <> j /\ sqrt_micro (sqdist (nth i ab_points []) (nth j ab_points [])) = 500000%Z) as Hc.
    { intros i j x [H1 [[p [q [z [H2 [H3 [-> H4]]]]]] H5]]. split; auto. injection H5 as ->.
      pose proof (nth_error_length_lt _ _ _ H2). pose proof (nth_error_length_lt _ _ _ H3). split; auto. split; auto. split; auto.
      rewrite (nth_of_nth_error _ _ _ _ H2), (nth_of_nth_error _ _ _ _ H3).
      exact (rounds_unique _ _ _ _ (sqrt_micro_rounds _ (sqdist_nonneg p q)) H4 (Qeq_refl _)). }
    assert (forall i j p q, i <> j -> nth_error ab_points i = Some p -> nth_error ab_points j = Some q -> sqrt_micro (sqdist p q) = 500000%Z ->
      connected_sites (fun _ _ x => x = Fin 500000) ab_indices ab_points i j (Fin 500000)) as Hc'.
    { intros i j p q Hij Hp Hq E. split; auto. split; auto. exists p, q, 500000%Z. split; auto. split; auto. split; auto. rewrite <- E. apply sqrt_micro_rounds, sqdist_nonneg. }
    intros i row Hrow. destruct i as [|[|[|i]]]; cbn in Hrow; [| | |destruct i; discriminate]; injection Hrow as <-;
    (split; [reflexivity|]);
    (split; [intros j x Hx; split; intro H|split; [intros j Hj|split; [intros [|[|c]] [|[|c']] j x x'; cbn; intros|]]]).
    all: try solve [cbn in *; repeat match goal with H : _ \/ _ |- _ => destruct H | H : False |- _ => destruct H end; congruence].
    all: try solve [repeat constructor].
    all: try solve [try (destruct c; discriminate); destruct c'; discriminate].
    all: try solve [apply Hc in H; destruct H as [-> [_ [Hj [Hij E]]]]; destruct j as [|[|[|j]]]; [| | |lia]; cbn; auto; try lia;
      vm_compute in E; discriminate].
    all: cbn in H; repeat match goal with H : _ \/ _ |- _ => destruct H | H : False |- _ => destruct H end; try congruence;
       match goal with H : (_, _) = (_, _) |- _ => injection H as <- <- end; (eapply Hc'; [lia|reflexivity|reflexivity|reflexivity]).
  - exists [(1, Fin 500000); (3, Inf)], (3, Inf). cbn. auto.
Qed.

(** A and B at distance 1/2, each connected to its own kind: all four built sites have one neighbour, there is no
    padding entry and the lattice data contains no neighbours at all. *)
Definition two_chains : structure :=
  run_calls brute ex_chain
    [CAddAtom (Some [0]%Q) (ex_atom "A") false 0; CAddAtom (Some [1#2]%Q) (ex_atom "B") false 0;
     CAddConnection (RName "A") (RName "A") 1 false; CAddConnection (RName "B") (RName "B") 1 false].

Theorem C35_neighbors_vanish_refuted :
  exists s' an I P T d,
    in_step two_chains /\ valid_basis (st_basis two_chains) /\
    analyze brute two_chains = (s', Ok tt) /\ st_analysis s' = Some an /\
    build_indices ex_chain [1]%Q (st_positions two_chains) (ASize [3#2]%Q) false None true None = Ok (I, P) /\
    compute_neighbors brute dist_argsort an I P = Some T /\
    T = [[(2, Fin 1000000)]; [(3, Fin 1000000)]; [(0, Fin 1000000)]; [(1, Fin 1000000)]] /\
    data_set I P (map (map fst) T) (map (map snd) T) = Some d /\
    forall i, i < 4 -> get_neighbors d i None None false = Some [].
Proof.
  eexists _, _, _, _, _, _.
  split. { apply (reachable_in_step brute ex_chain). unfold two_chains, run_calls. cbn [fold_left].
    repeat (apply r_call; [|intro; reflexivity || discriminate]). apply r_new. }
  split; [apply inverse1_check; reflexivity|].
  split; [vm_compute; reflexivity|]. split; [reflexivity|]. split; [vm_compute; reflexivity|]. split; [vm_compute; reflexivity|].
  split; [reflexivity|]. split; [vm_compute; reflexivity|].
  intros [|[|[|[|i]]]] Hi; try lia; vm_compute; reflexivity.
Qed.

Print Assumptions C34_computed_neighbors_are_the_connected_sites.
Print Assumptions C34_too_few_refuted.
Print Assumptions C35_padding_entry.
Print Assumptions C35_neighbors_survive.
Print Assumptions C35_neighbors_vanish_refuted.
