(** * Properties C70, C71 (lattpy/lattice.py, structure.py: what a build finds) *)
From Coq Require Import String List ZArith QArith Bool Arith Lia Lqa Permutation Sorting.Sorted.
From Verif Require Import Np NpFacts LinAlg LinFacts SpecUtils UtilsModel UtilsProofs PropUtils SpecBasis AtomModel BasisModel BasisProofs
  NeighborCellProofs PropBasis SpatialModel SpecSpatial KDProofs SpecStructure SpecBuild ShapeModel StructureModel KDBrute RoundFacts StructureFacts
  DataModel SpecData DataFacts DataProofs PropData AnalyzeProofs StructureProofs PropStructure PropAnalyze FilterProofs SpecNeighbors
  NeighborProofs RadiusProofs RangeProofs PropNeighbors BuiltProofs BuildProofs PropBuild LatticeModel LatticeExamples PropFailed SpecGrid.
Import ListNotations.
Open Scope nat_scope.
Open Scope list_scope.

(** ** C70 *)

(** What compute_neighbors asks the tree for.  The radius is the greatest allowed distance plus a tenth of the smallest
    one occurring between any two atoms; the number is one more than the number of sites that [max] distances of every
    pair of atoms account for, [max] being the greatest number of connections. *)
Theorem C70_search_range :
  forall query s s' conns an,
    correct_tree query -> valid_basis (st_basis s) -> 1 <= b_dim (st_basis s) -> in_step s ->
    st_connections s = Some conns -> analyze query s = (s', Ok tt) -> st_analysis s' = Some an ->
    let d := b_dim (st_basis s) in
    let V := b_mat (st_basis s) in
    let R := st_positions s in
    exists m cells,
      (forall a c, nth c (nth a conns []) 0 <= m) /\ (exists a c, nth c (nth a conns []) 0 = m) /\
      get_neighbor_cells (st_basis s) (2 * m) true Qle_bool = Some cells /\
      let occ := occurs d V R cells in
      let allowed a c := among_first (nth c (nth a conns []) 0) (occ a c) in
      (forall r, query_radius an = Some r ->
        exists mx mn : Z, (r == (inject_Z mx + (1#10) * inject_Z mn) * (1#1000000))%Q /\
          (mx = 0%Z \/ exists a c, a < length R /\ c < length R /\ allowed a c (Fin mx)) /\
          (forall a c z, a < length R -> c < length R -> allowed a c (Fin z) -> (z <= mx)%Z) /\
          (exists a c, a < length R /\ c < length R /\ occ a c (Fin mn)) /\
          (forall a c z, a < length R -> c < length R -> occ a c (Fin z) -> (mn <= z)%Z)) /\
      ((forall a c, a < length R -> c < length R -> exists L, NoDup L /\ length L = m /\ forall x, In x L -> occ a c x) ->
       query_radius an <> None) /\
      exists found : list (nat * nat * list Z), NoDup found /\ query_count an = S (length found) /\
        forall a c n, In (a, c, n) found <-> a < length R /\ c < length R /\ In n cells /\
          exists x, pair_distance d V R a c n x /\ among_first m (occ a c) x.
Proof.
  intros query s s' conns an Hq Hb Hd Hs Ec0 Ha Ean d V R.
  destruct (analysed_table query s s' Hb Hd Hs Ha) as [conns' [cells [Ec [Hcne [HRne [Hm0 [Ecells [Hsym [HR Es]]]]]]]]].
  rewrite Ec0 in Ec. injection Ec as <-. fold R in HRne, HR, Es, Hsym.
  rewrite Es in Ean. cbn in Ean. injection Ean as <-.
  exists (max_connections conns), cells. split; [exact (in_max_connections conns)|]. split; [exact (max_connections_reached conns Hm0)|]. split; auto.
  cbv zeta. split; [|split].
  - intros r Hr. exact (radius_exact query (st_basis s) R cells conns Hq Hb Hd HR Ecells Hm0 r Hr).
  - intro Hmany. exact (radius_defined query (st_basis s) R cells conns Hq Hb Hd HR Ecells Hm0 Hsym HRne Hmany).
  - exact (count_exact query (st_basis s) R cells conns Hq Hb Hd HR Ecells).
Qed.

(** The chain of A at 0 and B at 1/2 with A-B connections: the greatest allowed distance and the smallest one are both
    1/2, the radius is 0.55; A and B have two neighbours at 1/2, two of their own kind at 1, so that 9 sites are asked for. *)
Example C70_example :
  valid_basis (st_basis ab_chain) /\ in_step ab_chain /\ st_connections ab_chain = Some [[0; 1]; [1; 0]] /\
  exists s' an, analyze brute ab_chain = (s', Ok tt) /\ st_analysis s' = Some an /\ query_count an = 9 /\
    exists r, query_radius an = Some r /\ (r == 55#100)%Q.
Proof.
  destruct C34_example as [H1 [H2 [H3 _]]]. split; auto. split; auto. split; auto.
  eexists _, _. split; [vm_compute; reflexivity|]. split; [reflexivity|]. split; [vm_compute; reflexivity|].
  eexists. split; vm_compute; reflexivity.
Qed.

(** ** C71 *)

Lemma point_injective b r n m :
  valid_basis b -> length r = b_dim b -> length n = b_dim b -> length m = b_dim b ->
  (forall i, i < b_dim b -> (nth i (lattice_point (b_dim b) (b_mat b) r n) 0 == nth i (lattice_point (b_dim b) (b_mat b) r m) 0)%Q) -> n = m.
Proof.
  intros Hb Hr Hn Hm H. apply (list_eq_nth _ _ 0%Z); [lia|]. intros i Hi. rewrite Hn in Hi.
  pose proof (coord_point b r n i Hb Hn Hr Hi) as E1. pose proof (coord_point b r m i Hb Hm Hr Hi) as E2.
  rewrite (coord_ext b _ _ i H) in E1. rewrite E2 in E1. apply inject_Z_injective. lra.
Qed.

Lemma nth_zsub (n m : list Z) k : length n = length m -> nth k (map2 Z.sub n m) 0%Z = (nth k n 0 - nth k m 0)%Z.
Proof. revert m k. induction n as [|x n IH]; intros [|y m] [|k] H; cbn in *; try discriminate; auto. Qed.

Lemma built_points_distinct b norms R sh primitive pos check callback I P :
  valid_basis b -> (primitive = true -> length norms = b_dim b) -> (forall r, In r R -> length r = b_dim b) ->
  incongruent (b_dim b) (b_mat b) R ->
  build_indices b norms R sh primitive pos check callback = Ok (I, P) -> distinct_points (b_dim b) P.
Proof.
  intros Hb Hn HR Hinc E.
  destruct (C31_indices_and_positions_aligned _ _ _ _ _ _ _ _ _ _ Hb Hn HR E) as [Hlen [Hal _]].
  pose proof (C33_no_site_twice _ _ _ _ _ _ _ _ _ _ Hb Hn HR E) as Hnd.
  assert (forall i p, nth_error P i = Some p -> exists s, nth_error I i = Some s) as Hs.
  { intros i p Hp. apply nth_error_lt. apply nth_error_length_lt in Hp. lia. }
  split.
  - intros p Hp. apply In_nth_error in Hp. destruct Hp as [i Hp]. destruct (Hs i p Hp) as [s Es].
    destruct (Hal i s p Es Hp) as [n [a [r [_ [_ [_ [Hl _]]]]]]]. rewrite Hl. apply lattice_point_length.
  - intros i j p q Hp Hq H. destruct (Hs i p Hp) as [s Es]. destruct (Hs j q Hq) as [t Et].
    destruct (Hal i s p Es Hp) as [n [a [r [-> [Hln [Ha [_ Hpv]]]]]]]. destruct (Hal j t q Et Hq) as [n' [a' [r' [-> [Hln' [Ha' [_ Hqv]]]]]]].
    assert (length r = b_dim b) as Hr by (apply HR; eapply nth_error_In; eauto). assert (length r' = b_dim b) as Hr' by (apply HR; eapply nth_error_In; eauto).
    assert (forall k, k < b_dim b -> (nth k (lattice_point (b_dim b) (b_mat b) r n) 0 == nth k (lattice_point (b_dim b) (b_mat b) r' n') 0)%Q) as Heq.
    { intros k Hk. rewrite <- Hpv, <- Hqv. apply H. }
    assert (a = a') as <-.
    { apply (Hinc a a' (map2 Z.sub n' n)).
      - apply nth_error_length_lt in Ha. auto.
      - apply nth_error_length_lt in Ha'. auto.
      - rewrite map2_length. lia.
      - rewrite (nth_of_nth_error _ _ _ _ Ha), (nth_of_nth_error _ _ _ _ Ha'). split; [rewrite lattice_point_length; auto|]. intro k.
        destruct (lt_dec k (b_dim b)) as [Hk|Hk]; [|rewrite !nth_overflow; [reflexivity|rewrite lattice_point_length; lia|lia]].
        specialize (Heq k Hk). rewrite !nth_lattice_point in * by auto.
        rewrite (sum_ext _ _ (fun c => entry (b_mat b) k c * inject_Z (nth c n' 0%Z) + (-1) * (entry (b_mat b) k c * inject_Z (nth c n 0%Z)))%Q).
        + rewrite sum_plus, sum_scale. lra.
        + intros c Hc. rewrite nth_zsub by lia. unfold Z.sub. rewrite inject_Z_plus, inject_Z_opp. ring. }
    rewrite Ha in Ha'. injection Ha' as <-. assert (n = n') as <- by (eapply point_injective; eauto).
    eapply (proj1 (NoDup_nth_error I) Hnd); [apply nth_error_length_lt in Es; auto|]. rewrite Es, Et. reflexivity.
Qed.

(** The stored data of a table [T] of neighbours. *)
Record stored (dim : nat) (T : list (list (nat * dist))) (d : data) : Prop := {
  st_dim : d_dim d = dim;
  st_neighbors : d_neighbors d = map (map fst) T;
  st_distances : distance_table d = map (map snd) T;
  st_padding : exists i c, i < nsites d /\ c < d_cols d /\ valid d i c = false;
  st_values : forall x, In x (d_distvals d) -> x = Inf \/ exists i j, i < nsites d /\ In (j, x) (links d i);
  st_regular : forall i s, i < nsites d -> In s (slots d i) -> s_per s = false;
  st_packed : packed d;
  st_padded : padded d }.

(** Stored data has no periodic neighbours. *)
Lemma stored_layered dim T d : wf d -> stored dim T d -> layered d.
Proof.
  intros W St i Hi. destruct (st_packed _ _ _ St i Hi) as [m [Hm Hv]]. exists m, m. split; [lia|]. split; auto. intros c Hc. split; auto.
  assert (pm d i c = false) as ->.
  { destruct (pm d i c) eqn:E; auto. pose proof (wf_pm _ W i c Hi Hc E) as V. rewrite <- E.
    apply (st_regular _ _ _ St i (slot_at d i c) Hi). unfold slots. apply in_map. apply filter_In. split; auto. apply in_seq. lia. }
  destruct (Nat.leb_spec m c), (Nat.ltb_spec c m); cbn; auto; lia.
Qed.

(** In a sorted row the finite distances come first. *)
Lemma sorted_prefix (row : list (nat * dist)) : StronglySorted (fun e f => dleb (snd e) (snd f) = true) row ->
  exists m, m <= length row /\ forall c, c < length row -> fin (nth c row (0, Inf)) = (c <? m).
Proof.
  induction 1 as [|e row Hs [m [Hm IH]] Hall]; [exists 0; split; auto; cbn; lia|].
  destruct (fin e) eqn:E.
  - exists (S m). split; [cbn; lia|]. intros [|c] Hc; [exact E|]. cbn [nth]. rewrite IH by (cbn in Hc; lia). reflexivity.
  - exists 0. split; [lia|]. intros [|c] Hc; [exact E|]. cbn [nth]. rewrite Forall_forall in Hall.
    assert (In (nth c row (0, Inf)) row) as Hin by (apply nth_In; cbn in Hc; lia). specialize (Hall _ Hin).
    unfold fin in *. destruct (snd e); [discriminate|]. destruct (snd (nth c row (0, Inf))); [discriminate|reflexivity].
Qed.

Lemma cell_const_false {A} (M : list (list A)) i c : cell false (map (map (fun _ => false)) M) i c = false.
Proof.
  unfold cell. revert i. induction M as [|r M IH]; intros [|i]; cbn [map nth]; [destruct c; auto|destruct c; auto| |apply IH].
  clear. revert c. induction r as [|x r IH]; intros [|c]; cbn; auto.
Qed.

(** The links of the stored data are the finite entries of the table. *)
Lemma table_data indices positions N dim nb T (values : list dist) :
  0 < N -> rect N (S dim) indices -> rect N dim positions -> neighbor_table N nb T ->
  (forall i j x, nb i j x -> j < N /\ x <> Inf) ->
  (exists row e, In row T /\ In e row /\ snd e = Inf) ->
  incl (map snd (concat T)) values -> length values <= 256 ->
  exists d, data_set indices positions (map (map fst) T) (map (map snd) T) = Some d /\
    d_indices d = indices /\ d_positions d = positions /\ wf d /\ stored dim T d /\
    forall i, i < N -> NoDup (map fst (links d i)) /\ forall j x, In (j, x) (links d i) <-> nb i j x.
Proof.
  intros HN Ri Rp [HT [W Hrows]] Hnb [prow [pe [Hprow [Hpe Hpx]]]] Hincl Hlen.
  assert (rect N W T) as RT.
  { split; auto. intros row Hin. apply In_nth_error in Hin. destruct Hin as [i Hi]. apply (Hrows i row Hi). }
  assert (forall A (f : nat * dist -> A), rect N W (map (map f) T)) as Rm.
  { intros A f. destruct RT as [R1 R2]. split; [rewrite map_length; auto|]. intros row Hin. apply in_map_iff in Hin. destruct Hin as [r [<- Hr]].
    rewrite map_length. auto. }
  assert (In Inf (concat (map (map snd) T))) as Hinf.
  { apply in_concat. exists (map snd prow). split; [apply in_map; auto|]. rewrite <- Hpx. apply in_map. auto. }
  assert (length (fst (create_lookup_table2 dleb deqb (map (map snd) T))) <= 256) as Hfew.
  { destruct (create_lookup_table2 dleb deqb (map (map snd) T)) as [vals ind] eqn:E. cbn [fst].
    destruct (C01_lookup_decodes_table dist dleb deqb dist_order dist_eq (map (map snd) T) W vals ind Inf (proj2 (Rm _ snd)) E) as [Hinc [Hval _]].
    apply Nat.le_trans with (length values); auto. apply NoDup_incl_length; [apply (strict_NoDup dleb); exact Hinc|].
    intros x Hx. apply Hincl. apply Hval in Hx. rewrite <- in_concat, <- concat_map in Hx. auto. }
  destruct (data_set_spec _ _ _ _ _ _ _ HN Ri Rp (Rm _ fst) (Rm _ snd) Hinf Hfew) as (d & E1 & Edim & Ecols & Eind & Epos & Enb
    & Edt & Rdd & Hinc & Hinv & Hval & Hrange & Hvalid & Epm & _).
  exists d. split; auto. split; auto. split; auto.
  assert (forall A (dflt : A) (f : nat * dist -> A) i c row, nth_error T i = Some row -> c < W -> cell dflt (map (map f) T) i c = f (nth c row (0, Inf))) as Hcell.
  { intros A dflt f i c row Erow Hc. unfold cell. rewrite (nth_map_in _ _ _ []) by (apply nth_error_length_lt in Erow; auto). rewrite (nth_of_nth_error _ _ _ _ Erow).
    rewrite (nth_map_in _ _ _ (0, Inf)) by (destruct (Hrows i row Erow) as [-> _]; auto). reflexivity. }
  split.
  { refine (proj1 (data_set_wf _ _ _ _ _ _ _ d HN Ri Rp (Rm _ fst) (Rm _ snd) Hinf Hfew _ E1)). intros i c Hi Hc Hx.
    destruct (nth_error_lt T i) as [row Erow]; [lia|]. rewrite (Hcell _ _ _ _ _ row) in Hx by auto. rewrite (Hcell _ _ _ _ _ row) by auto.
    destruct (Hrows i row Erow) as [Hw [Hin _]]. assert (In (nth c row (0, Inf)) row) as H by (apply nth_In; lia). rewrite (surjective_pairing (nth c row (0, Inf))) in H.
    apply Hin in H; auto. apply Hnb in H. apply H. }
  assert (nsites d = N) as En by (unfold nsites; rewrite Eind; apply Ri).
  match goal with |- _ /\ ?L => assert L as HL end.
  2:{ split; auto. constructor; auto.
      - apply In_nth_error in Hprow. destruct Hprow as [i Erow]. apply (In_nth _ _ (0, Inf)) in Hpe. destruct Hpe as [c [Hc Ec]].
        destruct (Hrows i prow Erow) as [Hw _]. exists i, c. pose proof (nth_error_length_lt _ _ _ Erow). rewrite En, Ecols. split; [lia|]. split; [lia|].
        rewrite Hvalid by lia. rewrite (Hcell _ _ _ _ _ prow) by (auto; lia). rewrite Ec, Hpx. reflexivity.
      - intros x Hx. destruct x as [z|]; auto. right. apply Hval in Hx. apply in_concat in Hx. destruct Hx as [xs [Hxs Hx]]. apply in_map_iff in Hxs.
        destruct Hxs as [row [<- Hrow]]. apply in_map_iff in Hx. destruct Hx as [[j x] [Ex Hx]]. cbn in Ex. subst x. apply In_nth_error in Hrow. destruct Hrow as [i Erow].
        pose proof (nth_error_length_lt _ _ _ Erow). exists i, j. rewrite En. split; [lia|]. apply HL; [lia|]. apply (Hrows i row Erow); auto. discriminate.
      - intros i s Hi Hs. unfold slots in Hs. apply in_map_iff in Hs. destruct Hs as [c [<- _]]. cbn. unfold pm. rewrite Epm.
        apply cell_const_false.
      - intros i Hi. rewrite En in Hi. destruct (nth_error_lt T i) as [row Erow]; [lia|]. destruct (Hrows i row Erow) as [Hw [_ [_ [_ Hsorted]]]].
        destruct (sorted_prefix row Hsorted) as [k [Hk Hpre]]. exists k. rewrite Ecols, <- Hw. split; auto. intros c Hc. rewrite <- Hpre by auto.
        rewrite Hvalid by lia. rewrite (Hcell _ _ _ _ _ row) by (auto; lia). unfold fin. destruct (snd (nth c row (0, Inf))); reflexivity.
      - intros i c Hi Hc V. rewrite En in *. rewrite Ecols in Hc. destruct (nth_error_lt T i) as [row Erow]; [lia|]. destruct (Hrows i row Erow) as [Hw [_ [Hend _]]].
        rewrite Hvalid in V by lia. rewrite (Hcell _ _ _ _ _ row) in V by auto. unfold SpecData.nb. rewrite Enb, (Hcell _ _ _ _ _ row) by auto.
        apply Hend. assert (In (nth c row (0, Inf)) row) as Hin by (apply nth_In; lia). destruct (nth c row (0, Inf)) as [j [z|]]; [discriminate|exact Hin]. }
  intros i Hi. destruct (nth_error_lt T i) as [row Erow]; [lia|]. destruct (Hrows i row Erow) as [Hw [Hin [_ [Honce _]]]].
  assert (links d i = filter fin row) as ->.
  { unfold links, valid_slots. rewrite Ecols.
    assert (filter (valid d i) (seq 0 W) = filter (fun c => fin (nth c row (0, Inf))) (seq 0 W)) as ->.
    { apply filter_ext_seq. intros c _ Hc. rewrite Hvalid by auto. rewrite (Hcell _ _ _ _ _ row) by auto. unfold fin. destruct (snd (nth c row (0, Inf))); reflexivity. }
    transitivity (map (fun c => nth c row (0, Inf)) (filter (fun c => fin (nth c row (0, Inf))) (seq 0 W))).
    - apply map_ext_in. intros c Hc. apply filter_In in Hc. destruct Hc as [Hc _]. apply in_seq in Hc. unfold link_at. unfold SpecData.nb. rewrite Enb.
      rewrite (Hcell _ _ _ _ _ row) by (auto; lia). assert (nth (di d i c) (d_distvals d) Inf = snd (nth c row (0, Inf))) as ->; [|symmetry; apply surjective_pairing].
      assert (nth (di d i c) (d_distvals d) Inf = cell Inf (distance_table d) i c) as -> by (unfold distance_table; rewrite (cell_map_map _ 0 Inf _ _ _ _ _ Rdd Hi) by lia; reflexivity).
      rewrite Edt. apply Hcell; auto. lia.
    - rewrite <- Hw. clear. assert (forall k, map (fun c => nth (c - k) row (0, Inf)) (filter (fun c => fin (nth (c - k) row (0, Inf))) (seq k (length row))) = filter fin row) as H.
      { induction row as [|e row IH]; intro k; cbn [length seq filter map]; auto. replace (nth (k - k) (e :: row) (0, Inf)) with e by (rewrite Nat.sub_diag; reflexivity).
        assert (forall c, In c (seq (S k) (length row)) -> nth (c - k) (e :: row) (0, Inf) = nth (c - S k) row (0, Inf)) as Hsh.
        { intros c Hc. apply in_seq in Hc. replace (c - k) with (S (c - S k)) by lia. reflexivity. }
        assert (filter (fun c => fin (nth (c - k) (e :: row) (0, Inf))) (seq (S k) (length row)) = filter (fun c => fin (nth (c - S k) row (0, Inf))) (seq (S k) (length row))) as E.
        { apply filter_ext_in. intros c Hc. rewrite Hsh by auto. reflexivity. }
        assert (map (fun c => nth (c - k) (e :: row) (0, Inf)) (filter (fun c => fin (nth (c - k) (e :: row) (0, Inf))) (seq (S k) (length row))) = filter fin row) as E2.
        { rewrite E, <- (IH (S k)). apply map_ext_in. intros c Hc. apply filter_In in Hc. apply Hsh. apply Hc. }
        destruct (fin e); cbn [map]; rewrite E2; [|reflexivity]. rewrite Nat.sub_diag. reflexivity. }
      specialize (H 0). rewrite <- H. erewrite map_ext; [|intro c; rewrite <- (Nat.sub_0_r c) at 1; reflexivity].
      f_equal. apply filter_ext. intro c. rewrite Nat.sub_0_r. reflexivity. }
  split; [apply NoDup_finite; auto|]. intros j x. rewrite filter_In, fin_spec. cbn [snd]. split.
  - intros [H1 H2]. apply Hin; auto.
  - intro H. destruct (Hnb i j x H) as [_ Hx]. split; auto. apply Hin; auto.
Qed.

Lemma in_D_allowed query b R cells conns (Hq : correct_tree query) (Hb : valid_basis b) (Hd : 1 <= b_dim b)
  (HR : forall r, In r R -> length r = b_dim b) (Hc : get_neighbor_cells b (2 * max_connections conns) true Qle_bool = Some cells) I P :
  (forall i, i < length P -> atom_of I i < length R) ->
  let an := analyze_raw (raw_dicts query b R (max_connections conns) cells) conns (length R) in
  forall i j x,
    connected_sites (fun a c x => In x (nth c (nth a (an_distmat an) []) [])) I P i j x <->
    connected_sites (fun a c => among_first (nth c (nth a conns []) 0) (occurs (b_dim b) (b_mat b) R cells a c)) I P i j x.
Proof.
  intros Hrange an i j x. unfold connected_sites.
  pose proof (In_distmat query b R cells conns Hq Hb Hd HR Hc (atom_of I i) (atom_of I j) x) as HinD.
  split; intros [H1 [H2 H3]]; split; auto; split; auto; [apply HinD in H3; tauto|]. apply HinD. split; [|split; auto].
  - apply Hrange. destruct H2 as [p [_ [_ [Hp _]]]]. apply nth_error_length_lt in Hp. auto.
  - apply Hrange. destruct H2 as [_ [p [_ [_ [Hp _]]]]]. apply nth_error_length_lt in Hp. auto.
Qed.

(** The shape fits: a shape object, or a size of the length of the position, of the dimension for primitive boxes. *)
Definition fitting (d : nat) (sh : shape_arg) (primitive : bool) (pos : option vec) : Prop :=
  match sh with
  | AShape _ => True
  | ASize size => (forall p, pos = Some p -> length p = length size) /\ (primitive = true -> length size = d)
  end.

Lemma fitting_ok b sh primitive pos : fitting (b_dim b) sh primitive pos -> shape_ok b sh primitive pos = true.
Proof.
  destruct sh as [size|S]; [|reflexivity]. intros [H1 H2]. cbn. apply andb_true_iff. split.
  - destruct pos; auto. apply Nat.eqb_eq. auto.
  - destruct primitive; auto. apply Nat.eqb_eq. auto.
Qed.

(** The neighbours computed for the sites of build_indices: every site lists exactly the sites connected with it. *)
Lemma connect_sites :
  forall query argsort norms s s' conns an sh primitive pos check callback I P r,
    correct_tree query -> is_argsort dleb argsort ->
    valid_basis (st_basis s) -> 1 <= b_dim (st_basis s) -> in_step s ->
    st_connections s = Some conns -> analyze query s = (s', Ok tt) -> st_analysis s' = Some an ->
    let d := b_dim (st_basis s) in
    let V := b_mat (st_basis s) in
    let R := st_positions s in
    (* the sites *)
    (primitive = true -> length norms = d) -> incongruent d V R ->
    build_indices (st_basis s) norms R sh primitive pos check callback = Ok (I, P) ->
    I <> [] ->
    (* not more sites in range than asked for *)
    query_radius an = Some r -> (forall p, In p P -> at_most (query_count an) (within P p (r * r)%Q)) ->
    exists m cells,
      (forall a c, nth c (nth a conns []) 0 <= m) /\ (exists a c, nth c (nth a conns []) 0 = m) /\
      get_neighbor_cells (st_basis s) (2 * m) true Qle_bool = Some cells /\
      let allowed a c := among_first (nth c (nth a conns []) 0) (occurs d V R cells a c) in
      let connected := connected_sites allowed I P in
      (* sites are not nearer than 6e-6 *)
      (forall a c x, a < length R -> c < length R -> occurs d V R cells a c x -> dleb (Fin 6) x = true) ->
      (* few distances *)
      (exists values, length values <= 255 /\ forall a c x, a < length R -> c < length R -> allowed a c x -> In x values) ->
      (* two sites have different numbers of neighbours, or all sites in range are connected *)
      ((exists i i', i < length P /\ i' < length P /\ fewer connected i i') \/
       (forall i j p, i <> j -> nth_error P i = Some p -> within P p (r * r)%Q j -> exists x, connected i j x)) ->
      no_connections s' = false /\ not_analyzed s' = false /\ st_basis s' = st_basis s /\ st_positions s' = R /\
      exists T dt, compute_neighbors query argsort an I P = Some T /\ data_set I P (map (map fst) T) (map (map snd) T) = Some dt /\
        stored d T dt /\ wf dt /\ d_indices dt = I /\ d_positions dt = P /\
        forall i, i < length P -> NoDup (map fst (links dt i)) /\ forall j x, In (j, x) (links dt i) <-> connected i j x.
Proof.
  intros query argsort norms s s' conns an sh primitive pos check callback I P r Hq Harg Hb Hd Hs Ec0 Ha Ean d V R
    Hnorms Hinc EI HI0 Hr Hroom.
  destruct (analysed_table query s s' Hb Hd Hs Ha) as [conns' [cells [Ec [Hcne [HRne [Hm0 [Ecells [Hsym [HR Es]]]]]]]]].
  rewrite Ec0 in Ec. injection Ec as <-. fold R in HRne, HR, Es, Hsym.
  rewrite Es in Ean. cbn in Ean. injection Ean as <-.
  set (an := analyze_raw (raw_dicts query (st_basis s) R (max_connections conns) cells) conns (length R)) in *.
  exists (max_connections conns), cells. split; [exact (in_max_connections conns)|]. split; [exact (max_connections_reached conns Hm0)|]. split; auto.
  cbv zeta. intros Hsep [values [Hvl Hval]] Hpad.
  destruct (C31_indices_and_positions_aligned _ _ _ _ _ _ _ _ _ _ Hb Hnorms HR EI) as [Hlen [Hal _]].
  pose proof (built_points_distinct _ _ _ _ _ _ _ _ _ _ Hb Hnorms HR Hinc EI) as HP.
  assert (forall i, In i I -> exists n a, i = n ++ [Z.of_nat a] /\ length n = d /\ a < length R) as Hind.
  { intros i Hi. apply In_nth_error in Hi. destruct Hi as [k Hk]. destruct (nth_error_lt P k) as [p Hp]; [apply nth_error_length_lt in Hk; lia|].
    destruct (Hal k i p Hk Hp) as [n [a [r0 [-> [Hn [Hr0 _]]]]]]. exists n, a. split; auto. split; auto. apply nth_error_length_lt in Hr0. auto. }
  assert (forall i, In i I -> (0 <= last i 0 < Z.of_nat (length R))%Z) as Hat.
  { intros i Hi. destruct (Hind i Hi) as [n [a [-> [_ Hlt]]]]. rewrite last_last. lia. }
  assert (forall i, i < length P -> atom_of I i < length R) as Hrange.
  { intros i Hi. unfold atom_of. assert (In (nth i I []) I) as Hin by (apply nth_In; lia). specialize (Hat _ Hin). lia. }
  destruct (radius_spec query (st_basis s) R cells conns Hq Hb Hd HR Ecells r Hr Hsep) as [Hr0 Hreach]. fold an in Hreach.
  assert (length (an_distmat an) = length R) as HD by apply distmat_length.
  assert (2 <= query_count an) as Hk by exact (count_spec query (st_basis s) R cells conns Hq Hb Hd HR Ecells r Hr).
  assert (forall i, In i I -> (0 <= last i 0 < Z.of_nat (length (an_distmat an)))%Z) as Hat' by (rewrite HD; auto).
  destruct (compute_table query argsort an d I P r Hq Harg HP Hlen Hat' Hr Hr0 Hk Hroom Hreach) as [T [HT1 HT2]].
  pose proof (in_D_allowed query (st_basis s) R cells conns Hq Hb Hd HR Ecells I P Hrange) as Hconn. cbv zeta in Hconn. fold an d V in Hconn.
  set (allowed := fun a c => among_first (nth c (nth a conns []) 0) (occurs d V R cells a c)) in *.
  assert (0 < length P) as HN by (rewrite <- Hlen; destruct I; [congruence|cbn; lia]).
  assert (neighbor_table (length P) (connected_sites allowed I P) T) as HT3.
  { destruct HT2 as [T1 [W T2]]. split; auto. exists W. intros i row Hrow. destruct (T2 i row Hrow) as [A1 [A2 A3]].
    split; auto. split; auto. intros j x Hx. rewrite A2 by auto. apply Hconn. }
  assert (forall i j x, connected_sites allowed I P i j x -> j < length P /\ x <> Inf) as Hfin.
  { intros i j x [_ [[p [q [z [_ [H2 [-> _]]]]]] _]]. split; [|discriminate]. apply nth_error_length_lt in H2. auto. }
  assert (exists row e, In row T /\ In e row /\ snd e = Inf) as Hpadding.
  { destruct Hpad as [[i [i' [Hi [Hi' [L' [HL1 [HL2 HL3]]]]]]]|Hall].
    - apply (padding_different (length P) (connected_sites allowed I P) T i i' L'); auto.
      + intros j Hj. destruct (HL2 j Hj) as [x Hx]. exists x. split; auto. apply (Hfin _ _ _ Hx).
      + intros L HL Hnd. apply HL3; auto. intros j Hj. destruct (HL j Hj) as [x [_ Hx]]. eauto.
    - apply (padding_all query argsort an d I P r); auto.
      + intro E. rewrite E in HN. cbn in HN. lia.
      + intros i j p Hij Hp Hw. destruct (Hall i j p Hij Hp Hw) as [x Hx]. exists x. apply Hconn. auto. }
  destruct (table_data I P (length P) d (connected_sites allowed I P) T (Inf :: values)) as [dt [Edt [Edi [Edp [Hwf [Hst Hlinks]]]]]]; auto.
  { split; auto. intros i Hi. destruct (Hind i Hi) as [n [a [-> [Hn _]]]]. rewrite app_length, Hn. cbn. lia. }
  { split; auto. apply HP. }
  { intros x Hx. destruct (deqb x Inf) eqn:Ex; [apply deqb_eq in Ex; left; auto|]. apply deqb_neq in Ex. right.
    apply in_map_iff in Hx. destruct Hx as [[j x'] [Exx Hx]]. cbn in Exx. subst x'. apply in_concat in Hx. destruct Hx as [row [Hrow Hx]].
    apply In_nth_error in Hrow. destruct Hrow as [i Hrow]. destruct HT3 as [HT3 [W HT4]]. destruct (HT4 i row Hrow) as [_ [Hin _]].
    apply Hin in Hx; auto. pose proof Hx as [_ [[p [q [z [Hp1 [Hp2 _]]]]] Hx3]]. apply nth_error_length_lt in Hp1. apply nth_error_length_lt in Hp2.
    apply (Hval (atom_of I i) (atom_of I j)); auto. }
  { cbn. lia. }
  assert (no_connections s' = false) as En.
  { rewrite Es. cbn [no_connections st_connections]. destruct (max_connections_reached conns Hm0) as [a [c E]]. unfold entry2 in E.
    destruct (forallb (forallb (Nat.eqb 0)) conns) eqn:Ef; auto. exfalso. rewrite forallb_forall in Ef.
    destruct (lt_dec a (length conns)) as [La|La]; [|rewrite (nth_overflow conns) in E by lia; destruct c; cbn in E; lia].
    specialize (Ef (nth a conns []) (nth_In _ _ La)). rewrite forallb_forall in Ef.
    destruct (lt_dec c (length (nth a conns []))) as [Lc|Lc]; [|rewrite nth_overflow in E by lia; lia].
    specialize (Ef _ (nth_In _ 0 Lc)). apply Nat.eqb_eq in Ef. congruence. }
  assert (not_analyzed s' = false) as Ena.
  { rewrite Es. unfold not_analyzed. cbn [st_analysis]. apply Nat.eqb_neq. unfold an. rewrite analyze_raw_base_length. intro E. apply length_zero_iff_nil in E. auto. }
  split; auto. split; auto. split; [rewrite Es; reflexivity|]. split; [rewrite Es; reflexivity|].
  exists T, dt. auto 8.
Qed.

(** A build of an analysed structure: the sites are those of build_indices and every site lists exactly the sites
    connected with it. *)
Theorem C71_build_connects_the_sites :
  forall query argsort norms s s' conns an l sh primitive pos check callback I P r,
    correct_tree query -> is_argsort dleb argsort ->
    valid_basis (st_basis s) -> 1 <= b_dim (st_basis s) -> in_step s ->
    st_connections s = Some conns -> analyze query s = (s', Ok tt) -> st_analysis s' = Some an -> lt_structure l = s' ->
    let d := b_dim (st_basis s) in
    let V := b_mat (st_basis s) in
    let R := st_positions s in
    (* the sites *)
    (primitive = true -> length norms = d) -> fitting d sh primitive pos -> incongruent d V R ->
    build_indices (st_basis s) norms R (AShape (build_shape (st_basis s) sh primitive pos)) primitive pos check callback = Ok (I, P) ->
    I <> [] ->
    (* not more sites in range than asked for *)
    query_radius an = Some r -> (forall p, In p P -> at_most (query_count an) (within P p (r * r)%Q)) ->
    exists m cells,
      (forall a c, nth c (nth a conns []) 0 <= m) /\ (exists a c, nth c (nth a conns []) 0 = m) /\
      get_neighbor_cells (st_basis s) (2 * m) true Qle_bool = Some cells /\
      let allowed a c := among_first (nth c (nth a conns []) 0) (occurs d V R cells a c) in
      let connected := connected_sites allowed I P in
      (* sites are not nearer than 6e-6 *)
      (forall a c x, a < length R -> c < length R -> occurs d V R cells a c x -> dleb (Fin 6) x = true) ->
      (* few distances *)
      (exists values, length values <= 255 /\ forall a c x, a < length R -> c < length R -> allowed a c x -> In x values) ->
      (* two sites have different numbers of neighbours, or all sites in range are connected *)
      ((exists i i', i < length P /\ i' < length P /\ fewer connected i i') \/
       (forall i j p, i <> j -> nth_error P i = Some p -> within P p (r * r)%Q j -> exists x, connected i j x)) ->
      exists l' dt, build query argsort norms l sh primitive pos check None None callback = (l', Ok tt) /\
        lt_structure l' = s' /\ lt_primitive l' = Some primitive /\ lt_shape l' <> None /\ lt_data l' = Some dt /\
        wf dt /\ layered dt /\ padded dt /\ d_dim dt = d /\ d_indices dt = I /\ d_positions dt = P /\
        (forall i s, i < nsites dt -> In s (slots dt i) -> s_per s = false) /\
        forall i, i < length P -> NoDup (map fst (links dt i)) /\ forall j x, In (j, x) (links dt i) <-> connected i j x.
Proof.
  intros query argsort norms s s' conns an l sh primitive pos check callback I P r Hq Harg Hb Hd Hs Ec0 Ha Ean El d V R
    Hnorms Hfit Hinc EI HI0 Hr Hroom. assert (shape_ok (st_basis s) sh primitive pos = true) as Hshape by (apply fitting_ok; exact Hfit).
  destruct (connect_sites query argsort norms s s' conns an _ primitive pos check callback I P r Hq Harg Hb Hd Hs Ec0 Ha Ean Hnorms Hinc EI HI0 Hr Hroom)
    as [m [cells [H1 [H2 [H3 H4]]]]].
  exists m, cells. split; auto. split; auto. split; auto. cbv zeta. intros Hsep Hval Hpad.
  destruct (H4 Hsep Hval Hpad) as [En [Ena [Eb [ER [T [dt [ET [Edt [Hst [Hwf [Edi [Edp Hlinks]]]]]]]]]]]].
  set (l1 := mkLattice (lt_structure l) (Some dt) (lt_shape l) (lt_pos l) (lt_axes l) (Some primitive)).
  destruct (update_shape_same l1) as [U1 [U2 [_ U3]]].
  exists (update_shape l1), dt. split; [|split; [rewrite U1; exact El|split; [exact U3|split; [|split; [exact U2|]]]]].
  2:{ unfold update_shape, limits, lt_positions. cbn [l1 lt_data]. pose proof (proj1 (wf_positions _ Hwf)) as Lp. unfold nsites in Lp. rewrite Edi in Lp.
      destruct (d_positions dt); [destruct I; [congruence|discriminate]|discriminate]. }
  2:{ split; auto. split; [exact (stored_layered _ _ _ Hwf Hst)|]. split; [exact (st_padded _ _ _ Hst)|]. split; [exact (st_dim _ _ _ Hst)|]. split; auto. split; auto. split; auto. exact (st_regular _ _ _ Hst). }
  unfold build, build_tables.
  change (lt_structure (set_data l None)) with (lt_structure l). unfold l1. rewrite El, En, Ena, Eb, ER, Hshape. cbn [negb].
  unfold R in EI. rewrite EI, Ean, ET, Edt. reflexivity.
Qed.

(** Three sites of the chain of A and B: the ends are connected with the site in the middle. *)
Example C71_example :
  valid_basis (st_basis ab_chain) /\ 1 <= b_dim (st_basis ab_chain) /\ in_step ab_chain /\
  st_connections ab_chain = Some [[0; 1]; [1; 0]] /\ incongruent 1 [[1]]%Q [[0]; [1#2]]%Q /\
  exists s' an r cells, analyze brute ab_chain = (s', Ok tt) /\ st_analysis s' = Some an /\ query_radius an = Some r /\
    fitting 1 (ASize [1]%Q) false None /\
    build_indices (st_basis ab_chain) [] (st_positions ab_chain) (AShape (build_shape (st_basis ab_chain) (ASize [1]%Q) false None))
      false None true None = Ok (ab_indices, ab_points) /\
    get_neighbor_cells (st_basis ab_chain) 2 true Qle_bool = Some cells /\
    (forall p, In p ab_points -> at_most (query_count an) (within ab_points p (r * r)%Q)) /\
    (forall a c x, a < 2 -> c < 2 -> occurs 1 [[1%Q]] [[0]; [1#2]]%Q cells a c x -> dleb (Fin 6) x = true) /\
    let allowed a c := among_first (nth c (nth a [[0; 1]; [1; 0]] []) 0) (occurs 1 [[1%Q]] [[0]; [1#2]]%Q cells a c) in
    (forall a c x, a < 2 -> c < 2 -> allowed a c x <-> a <> c /\ x = Fin 500000) /\
    fewer (connected_sites allowed ab_indices ab_points) 0 1 /\
    (exists dt, lt_data (fst (build brute dist_argsort [] (mkLattice s' None None None [] None) (ASize [1]%Q) false None true None None None)) = Some dt /\
       map (links dt) [0; 1; 2] = [[(1, Fin 500000)]; [(0, Fin 500000); (2, Fin 500000)]; [(1, Fin 500000)]]).
Proof.
  destruct C34_example as [H1 [H2 [H3 _]]]. split; auto. split; [cbn; lia|]. split; auto. split; auto. split.
  { intros a c n Ha Hc Hn [_ H]. destruct a as [|[|a]], c as [|[|c]]; cbn in Ha, Hc; try reflexivity; try lia;
      destruct n as [|n [|n' m]]; try discriminate; specialize (H 0); exfalso; unfold lattice_point, entry in H; cbn -[Qplus Qmult inject_Z] in H.
    - assert (inject_Z (2 * n + 1) == inject_Z 0)%Q as E by (rewrite inject_Z_plus, inject_Z_mult; change (inject_Z 2) with 2%Q;
        change (inject_Z 1) with 1%Q; change (inject_Z 0) with 0%Q; lra).
      apply (proj1 (inject_Z_injective _ _)) in E. lia.
    - assert (inject_Z (2 * n) == inject_Z 1)%Q as E by (rewrite inject_Z_mult; change (inject_Z 2) with 2%Q; change (inject_Z 1) with 1%Q; lra).
      apply (proj1 (inject_Z_injective _ _)) in E. lia. }
  eexists _, _, _, _. split; [vm_compute; reflexivity|]. split; [reflexivity|]. split; [vm_compute; reflexivity|].
  split; [split; [discriminate|discriminate]|]. split; [vm_compute; reflexivity|]. split; [vm_compute; reflexivity|].
  split; [intros p _; apply few_sites; vm_compute; lia|]. split; [apply (apart_checked 1 [[1%Q]] [[0]; [1#2]]%Q); vm_compute; reflexivity|].
  match goal with |- context [occurs _ _ _ ?l] => set (cs := l) end. cbv zeta.
  match goal with |- ?A /\ _ => assert A as HA end.
  { intros a c x Ha Hc.
    assert (forall r, In r [[0]; [1#2]]%Q -> length r = b_dim (st_basis ab_chain)) as HR by (intros r [<-|[<-|[]]]; reflexivity).
    pose proof (in_raw brute (st_basis ab_chain) [[0]; [1#2]]%Q cs [[0; 1]; [1; 0]] brute_nearest H1 ltac:(cbn; lia) HR ltac:(vm_compute; reflexivity) a c x Ha Hc) as H.
    assert (a <> c -> nth c (nth a [[0; 1]; [1; 0]] []) 0 = 1) as E1 by (destruct a as [|[|a]], c as [|[|c]]; intro; try lia; reflexivity).
    assert (a = c -> nth c (nth a [[0; 1]; [1; 0]] []) 0 = 0) as E0 by (destruct a as [|[|a]], c as [|[|c]]; intro; try lia; reflexivity).
    destruct (Nat.eq_dec a c) as [E|E].
    - rewrite (E0 E). split; [intros [L [_ [_ [i [Hi _]]]]]; lia|intros [E' _]; congruence].
    - rewrite (E1 E). refine (iff_trans (iff_sym H) _).
      assert (dd_keys (entry2 [] (raw_dicts brute (st_basis ab_chain) [[0]; [1#2]]%Q (max_connections [[0; 1]; [1; 0]]) cs) a c) = [Fin 500000]) as ->
        by (destruct a as [|[|a]], c as [|[|c]]; try lia; vm_compute; reflexivity).
      cbn [In]. split; [intros [<-|[]]; auto|intros [_ ->]; auto]. }
  split; [exact HA|]. split.
  { exists [0; 2]. split; [repeat constructor; cbn; intuition congruence|]. split.
    - assert (forall q, site_distance ab_points 1 q (Fin 500000) -> atom_of ab_indices q < 2 -> atom_of ab_indices q <> 1 -> q <> 1 ->
        exists x, connected_sites (fun a c => among_first (nth c (nth a [[0; 1]; [1; 0]] []) 0) (occurs 1 [[1%Q]] [[0]; [1#2]]%Q cs a c)) ab_indices ab_points 1 q x) as Hq.
      { intros q Hq1 Hq2 Hq3 Hq4. exists (Fin 500000). split; auto. split; auto. apply HA; [cbn; lia|auto|]. auto. }
      intros j [<-|[<-|[]]]; apply Hq; cbn; try lia; eexists _, _, 500000%Z; (split; [reflexivity|]); (split; [reflexivity|]); (split; [reflexivity|]);
        change 500000%Z with (sqrt_micro (1#4)); (eapply rounds_ext; [|apply sqrt_micro_rounds; lra]); vm_compute; reflexivity.
    - intros L Hnd HL. cbn [length]. apply Nat.lt_succ_r. change 1 with (length [1]). apply NoDup_incl_length; auto. intros j Hj.
      destruct (HL j Hj) as [x [Hx1 [[p [q [z [Hp [Hq [-> Hz]]]]]] Hx3]]]. destruct j as [|[|[|j]]]; [congruence|left; auto| |destruct j; discriminate].
      apply HA in Hx3; [|cbn; lia|cbn; lia]. destruct Hx3 as [E _]. cbn in E. congruence. }
  eexists. split; [vm_compute; reflexivity|]. vm_compute. reflexivity.
Qed.

Print Assumptions C70_search_range.
Print Assumptions C71_build_connects_the_sites.
