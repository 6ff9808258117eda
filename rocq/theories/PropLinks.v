(** * Property C95 (lattpy/lattice.py: nearest neighbours, iteration over neighbours, connections of two lattices) *)
From Coq Require Import String List ZArith QArith Qround Bool Arith Lia Lqa Permutation Sorting.Sorted.
From Verif Require Import PropDataMap.
From Verif Require Import Np NpFacts LinAlg LinFacts AtomModel BasisModel SpatialModel ShapeModel StructureModel DataModel UtilsModel
  SpecUtils SpecBasis SpecSpatial SpecStructure SpecNeighbors SpecBuild SpecData SpecLattice SpecSeam SpecLinks BasisProofs SpatialProofs KDProofs StructureFacts
  DataFacts DataOps DataProofs DataAppend DataInv PropData StructureProofs RangeProofs TranslationFacts AnalyzeProofs LatticeModel LinkModel PropMinDist RepeatProofs KDBrute PropStructure PropBuild LatticeExamples LatticeFacts PropAnalyze PropRepeat SeamProofs FilterProofs PropSeam PropUtils.
Import ListNotations.
Open Scope nat_scope.
Open Scope list_scope.

(** ** Nearest neighbours *)

Lemma first_below_invalid d i j x : wf_core d -> i < nsites d -> In (j, x) (links d i) ->
  0 < d_invalid_distidx d /\ x <> Inf /\ In x (d_distvals d).
Proof.
  intros W Hi H. unfold links in H. apply in_map_iff in H. destruct H as [c [E Hc]]. injection E as E1 E2.
  apply filter_In in Hc. destruct Hc as [Hc V]. apply in_seq in Hc. pose proof (wf_di _ W i c Hi ltac:(lia)) as Hl.
  unfold valid in V. apply Nat.ltb_lt in V. split; [lia|].
  assert (nth_error (d_distvals d) (di d i c) = Some x) as Ex by (rewrite <- E2; apply nth_error_nth'; auto).
  split; [|eapply nth_error_In; eauto]. intros ->.
  pose proof (inf_last _ _ (wf_distvals _ W) (wf_invalid _ W)) as HL.
  assert (NoDup (d_distvals d)) as N by (apply (strict_NoDup dleb); apply (wf_distvals _ W)).
  pose proof (wf_invalid _ W) as HI. rewrite <- HI in Ex.
  rewrite NoDup_nth_error in N. specialize (N _ _ Hl Ex). lia.
Qed.

Theorem C95_nearest_neighbors :
  forall l d i u x, lt_data l = Some d -> wf_core d -> i < nsites d -> all_used d -> smallest_distance d x ->
    nearest_neighbors l i u = Some (neighbors_at d i u x).
Proof.
  intros l d i u x El W Hi U [[i0 [j0 [Hi0 H0]]] Hmin]. unfold nearest_neighbors, neighbors. rewrite El.
  destruct (first_below_invalid d i0 j0 x W Hi0 H0) as [Hz [Hx Hin]].
  rewrite C40_by_distance by auto. unfold neighbors_at.
  assert (nth 0 (d_distvals d) Inf = x) as ->; [|reflexivity].
  destruct (d_distvals d) as [|v vals] eqn:E; [destruct Hin|]. cbn.
  pose proof (wf_distvals _ W) as HS. rewrite E in HS. 
  assert (v <> Inf) as Hv.
  { intros ->. pose proof (wf_invalid _ W) as HI. assert (NoDup (d_distvals d)) as N by (apply (strict_NoDup dleb); apply (wf_distvals _ W)).
    rewrite E in *. rewrite NoDup_nth_error in N. specialize (N 0 (d_invalid_distidx d) ltac:(cbn; lia)). rewrite HI in N. specialize (N eq_refl). lia. }
  destruct (U v ltac:(rewrite E; left; auto) Hv) as [i1 [j1 [Hi1 H1]]]. specialize (Hmin i1 j1 v Hi1 H1).
  destruct Hin as [->|Hin]; auto. apply StronglySorted_inv in HS. destruct HS as [_ HS]. rewrite Forall_forall in HS. specialize (HS x Hin).
  destruct HS as [HS1 HS2]. destruct HS2. apply dleb_antisym; auto.
Qed.

(** Data as it is set by a build. *)
Theorem C95_set_uses_all :
  forall indices positions neighbors distances n dim m d,
    0 < n -> rect n (S dim) indices -> rect n dim positions -> rect n m neighbors -> rect n m distances ->
    In Inf (concat distances) -> (exists values : list dist, incl (concat distances) values /\ length values <= 256) ->
    data_set indices positions neighbors distances = Some d -> all_used d.
Proof.
  intros indices positions neighbors distances n dim m d Hn Ri Rp Rn Rd Hinf [values [Hincl Hlen]] E.
  assert (length (fst (create_lookup_table2 dleb deqb distances)) <= 256) as Hfew.
  { destruct (create_lookup_table2 dleb deqb distances) as [vals ind] eqn:E1. simpl.
    destruct (C01_lookup_decodes_table dist dleb deqb dist_order dist_eq distances m vals ind Inf (proj2 Rd) E1)
      as [Hinc [Hval _]].
    apply Nat.le_trans with (length values); auto. apply NoDup_incl_length.
    - apply (strict_NoDup dleb). exact Hinc.
    - intros x Hx. apply Hincl. apply Hval in Hx. rewrite <- in_concat in Hx. auto. }
  destruct (data_set_spec _ _ _ _ _ _ _ Hn Ri Rp Rn Rd Hinf Hfew) as (d' & E1 & Edim & Ecols & Eind & Epos & Enb
    & Edt & Rdd & Hinc & Hinv & Hval & Hrange & Hvalid & Epm & Env & Eax & Einv & Edm).
  rewrite E in E1. injection E1 as <-. assert (nsites d = n) as En by (unfold nsites; rewrite Eind; apply Ri).
  intros x Hx Hfin. apply Hval in Hx. apply in_concat in Hx. destruct Hx as [row [Hrow Hx]].
  apply In_nth_error in Hrow. destruct Hrow as [i Hrow]. assert (i < n) as Hi by (rewrite <- (proj1 Rd); eapply nth_error_length_lt; eauto).
  apply In_nth_error in Hx. destruct Hx as [c Hx]. assert (length row = m) as Lrow by (apply (proj2 Rd); eapply nth_error_In; eauto).
  assert (c < m) as Hc by (rewrite <- Lrow; eapply nth_error_length_lt; eauto).
  assert (cell Inf distances i c = x) as Ecell.
  { unfold cell. rewrite (nth_of_nth_error _ _ [] _ Hrow). apply (nth_of_nth_error _ _ Inf _ Hx). }
  exists i, (nb d i c). split; [lia|]. unfold links. apply in_map_iff. exists c. split.
  - unfold link_at. f_equal. rewrite <- Ecell, <- Edt. unfold distance_table. rewrite (cell_map_map _ 0 Inf _ _ _ _ _ Rdd Hi Hc). reflexivity.
  - apply filter_In. split; [apply in_seq; lia|]. rewrite Hvalid by auto. rewrite Ecell. destruct x; auto; congruence.
Qed.

(** ** Iteration *)

Lemma filter_concat {A} (p : A -> bool) ls : filter p (concat ls) = concat (map (filter p) ls).
Proof. induction ls as [|x ls IH]; cbn; auto. rewrite filter_app, IH. reflexivity. Qed.

Lemma get_neighbors_unique d i k u : wf_core d -> i < nsites d ->
  get_neighbors d i k None u = option_map (filter (fun j => if u then i <? j else true)) (get_neighbors d i k None false).
Proof.
  intros W Hi. rewrite !get_neighbors_core by assumption. cbn. f_equal. rewrite map_filter_comm, filter_filter. f_equal. apply filter_ext.
  intro c. unfold selects. rewrite !andb_true_r. destruct u; rewrite ?andb_true_r; auto.
Qed.

Lemma iter_neighbors_unique d i u : wf_core d -> i < nsites d ->
  iter_neighbors d i u = option_map (map (fun c => (fst c, filter (fun j => if u then i <? j else true) (snd c)))) (iter_neighbors d i false).
Proof.
  intros W Hi. unfold iter_neighbors. destruct (nth_error (d_distances d) i) as [dr|]; auto. cbn. f_equal.
  induction (unique Nat.leb dr) as [|k ks IH]; cbn; auto. rewrite map_app, IH. f_equal.
  destruct (k =? d_invalid_distidx d); auto. rewrite (get_neighbors_unique d i (Some k) u) by auto.
  destruct (get_neighbors d i (Some k) None false); auto.
Qed.

Theorem C95_iter_neighbors :
  forall l d i u, lt_data l = Some d -> wf_core d -> i < nsites d ->
    exists classes, lattice_iter_neighbors l i u = Some classes /\
      StronglySorted lt (map fst classes) /\
      (forall k ns, In (k, ns) classes <->
         exists x, nth_error (d_distvals d) k = Some x /\ (exists j, In (j, x) (links d i)) /\ ns = neighbors_at d i u x) /\
      forall all, neighbors l i None u = Some all -> Permutation all (concat (map snd classes)).
Proof.
  intros l d i u El W Hi. unfold lattice_iter_neighbors, neighbors. rewrite El.
  destruct (C40_iter_neighbors d i W Hi) as [classes [E [S [Hin Hall]]]]. rewrite (iter_neighbors_unique d i u W Hi), E. cbn [option_map].
  pose proof (inf_last _ _ (wf_distvals _ W) (wf_invalid _ W)) as HL.
  eexists. split; [reflexivity|]. split; [rewrite map_map; exact S|]. split.
  - intros k ns. rewrite in_map_iff. split.
    + intros [[k' ns'] [E' H]]. injection E' as <- <-. apply Hin in H. destruct H as [Hk [Hj G]]. cbn [fst snd].
      exists (nth k' (d_distvals d) Inf). split; [apply nth_error_nth'; lia|]. split; auto.
      rewrite C40_by_distance in G by auto. injection G as <-. unfold neighbors_at. rewrite filter_filter.
      apply filter_ext. intro j. auto.
    + intros [x [Hx [[j Hj] ->]]]. destruct (first_below_invalid d i j x W Hi Hj) as [_ [Hfin _]].
      assert (nth k (d_distvals d) Inf = x) as Ex by (apply nth_of_nth_error; auto).
      assert (k < d_invalid_distidx d) as Hk.
      { pose proof (nth_error_length_lt _ _ _ Hx). assert (k <> d_invalid_distidx d); [|lia]. intros ->. rewrite (wf_invalid _ W) in Hx. congruence. }
      exists (k, neighbors_at d i false x). split.
      * cbn [fst snd]. f_equal. unfold neighbors_at. rewrite filter_filter. apply filter_ext. auto.
      * apply Hin. split; auto. split; [exists j; rewrite Ex; auto|]. rewrite C40_by_distance by auto. rewrite Ex. reflexivity.
  - intros all G. rewrite (get_neighbors_unique d i None u W Hi) in G. destruct (get_neighbors d i None None false) as [all0|] eqn:E0; [|discriminate].
    injection G as <-. specialize (Hall all0 eq_refl). rewrite map_map. cbn [snd].
    rewrite <- (map_map snd (filter (fun j => if u then i <? j else true))). rewrite <- filter_concat. apply Permutation_filter. exact Hall.
Qed.

(** ** Connections of two lattices *)

Theorem C95_compute_connections :
  forall ball l l' d d' an r dim, correct_ball ball ->
    lt_data l = Some d -> lt_data l' = Some d' -> (forall p, In p (d_positions d ++ d_positions d') -> length p = dim) ->
    st_analysis (lt_structure l) = Some an -> query_radius an = Some r ->
    exists pairs, compute_connections ball l l' = Some pairs /\
      NoDup (map fst pairs) /\ StronglySorted le (map (fun t => fst (fst t)) pairs) /\
      (forall i j, In (i, j) (map fst pairs) <-> close_points (d_positions d) (d_positions d') r i j) /\
      forall i j q, In (i, j, q) pairs -> (q == sqdist (nth i (d_positions d) []) (nth j (d_positions d') []))%Q.
Proof.
  intros ball l l' d d' an r dim Hball El El' Hdim Ean Er. unfold compute_connections. rewrite Ean, El, El'. unfold connection_neighbors. rewrite Er.
  eexists. split; [reflexivity|].
  assert (forall p, In p (d_positions d) -> length p = dim) as H1 by (intros; apply Hdim; apply in_or_app; auto).
  assert (forall p, In p (d_positions d') -> length p = dim) as H2 by (intros; apply Hdim; apply in_or_app; auto).
  destruct (Hball dim (d_positions d) (d_positions d') (r * r)%Q H1 H2) as [LB HB]. set (B := ball (d_positions d) (d_positions d') (r * r)%Q) in *.
  set (f := fun ic : nat * list nat => map (fun j => (fst ic, j, dist2 (nth (fst ic) (d_positions d) []) (nth j (d_positions d') []))) (snd ic)).
  assert (forall i c, In (i, c) (enumerate B) -> exists p, nth_error (d_positions d) i = Some p /\ NoDup c /\ forall j, In j c <-> within (d_positions d') p (r * r) j) as HE.
  { intros i c H. apply In_enumerate in H. assert (i < length (d_positions d)) as Hi by (pose proof (nth_error_length_lt _ _ _ H); unfold vec in *; lia).
    destruct (nth_error (d_positions d) i) as [p|] eqn:Ep; [|apply nth_error_None in Ep; lia]. exists p. split; auto.
    specialize (HB i p Ep). rewrite (nth_of_nth_error _ _ [] _ H) in HB. exact HB. }
  pose proof (enumerate_sorted B) as HS.
  assert (forall L, (forall i c, In (i, c) L -> In (i, c) (enumerate B)) -> StronglySorted (fun p q => fst p < fst q) L ->
    NoDup (map fst (flat_map f L)) /\ StronglySorted le (map (fun t => fst (fst t)) (flat_map f L))) as HN.
  { induction L as [|[i c] L IH]; intros HI HSo; [split; constructor|]. apply StronglySorted_inv in HSo. destruct HSo as [HSo Hlt].
    destruct (IH ltac:(intros; apply HI; right; auto) HSo) as [N1 N2]. destruct (HE i c ltac:(apply HI; left; auto)) as [p [_ [Nc _]]].
    cbn [flat_map]. rewrite !map_app.
    assert (map fst (f (i, c)) = map (fun j => (i, j)) c) as -> by (unfold f; cbn [fst snd]; rewrite map_map; reflexivity).
    assert (map (fun t => fst (fst t)) (f (i, c)) = map (fun _ => i) c) as -> by (unfold f; cbn [fst snd]; rewrite map_map; reflexivity).
    assert (forall t, In t (flat_map f L) -> i < fst (fst t)) as Hgt.
    { intros t Ht. apply in_flat_map in Ht. destruct Ht as [[i' c'] [Hic Ht]]. rewrite Forall_forall in Hlt. specialize (Hlt _ Hic). cbn in Hlt.
      unfold f in Ht. apply in_map_iff in Ht. destruct Ht as [j [<- _]]. exact Hlt. }
    split.
    - apply NoDup_app'; auto.
      + apply FinFun.Injective_map_NoDup; auto. intros x y E. congruence.
      + intros [a b] Ha Hb. apply in_map_iff in Ha. destruct Ha as [j [E _]]. injection E as <- <-. apply in_map_iff in Hb.
        destruct Hb as [t [E Ht]]. specialize (Hgt t Ht). rewrite E in Hgt. cbn in Hgt. lia.
    - clear -N2 Hgt. induction c as [|j c IH]; cbn; auto. constructor; auto. apply Forall_forall. intros x Hx. apply in_app_iff in Hx.
      destruct Hx as [Hx|Hx]; apply in_map_iff in Hx; [destruct Hx as [_ [<- _]]; lia|]. destruct Hx as [t [<- Ht]]. specialize (Hgt t Ht). lia. }
  destruct (HN (enumerate B) ltac:(auto) HS) as [N1 N2]. split; [exact N1|]. split; [exact N2|]. split.
  - intros i j. rewrite in_map_iff. split.
    + intros [t [E Ht]]. apply in_flat_map in Ht. destruct Ht as [[i' c] [Hic Ht]]. apply in_map_iff in Ht. destruct Ht as [j' [<- Hj]]. cbn in E. injection E as -> ->.
      destruct (HE i c Hic) as [p [Hp [_ Hw]]]. apply Hw in Hj. destruct Hj as [q [Hq Hle]]. exists p, q. auto.
    + intros [p [q [Hp [Hq Hle]]]]. assert (i < length B) as Hi by (pose proof (nth_error_length_lt _ _ _ Hp); unfold vec in *; lia).
      destruct (nth_error B i) as [c|] eqn:Ec; [|apply nth_error_None in Ec; lia]. assert (In (i, c) (enumerate B)) as Hic by (apply In_enumerate; auto).
      destruct (HE i c Hic) as [p' [Hp' [_ Hw]]]. assert (p' = p) as -> by (unfold vec in *; congruence).
      exists (i, j, dist2 (nth i (d_positions d) []) (nth j (d_positions d') [])). split; auto. apply in_flat_map. exists (i, c). split; auto.
      apply in_map_iff. exists j. split; auto. apply Hw. exists q. auto.
  - intros i j q Ht. apply in_flat_map in Ht. destruct Ht as [[i' c] [Hic Ht]]. apply in_map_iff in Ht. destruct Ht as [j' [E Hj]]. cbn in E. injection E as -> -> <-.
    destruct (HE i c Hic) as [p [Hp [_ Hw]]]. apply Hw in Hj. destruct Hj as [q [Hq _]]. apply sqdist_dist2.
    unfold vec in *. rewrite (nth_of_nth_error _ _ [] _ Hp), (nth_of_nth_error _ _ [] _ Hq). rewrite H1, H2; auto; eapply nth_error_In; eauto.
Qed.

(** The connections of the second lattice with the first one are the same pairs, the other way round. *)
Theorem C95_connections_symmetric :
  forall ball l l' d d' an an' r dim, correct_ball ball ->
    lt_data l = Some d -> lt_data l' = Some d' -> (forall p, In p (d_positions d ++ d_positions d') -> length p = dim) ->
    st_analysis (lt_structure l) = Some an -> query_radius an = Some r ->
    st_analysis (lt_structure l') = Some an' -> query_radius an' = Some r ->
    exists pairs pairs', compute_connections ball l l' = Some pairs /\ compute_connections ball l' l = Some pairs' /\
      length pairs = length pairs' /\
      (forall i j, In (i, j) (map fst pairs) <-> In (j, i) (map fst pairs')) /\
      forall i j q q', In (i, j, q) pairs -> In (j, i, q') pairs' -> (q == q')%Q.
Proof.
  intros ball l l' d d' an an' r dim Hball El El' Hdim Ean Er Ean' Er'.
  destruct (C95_compute_connections ball l l' d d' an r dim Hball El El' Hdim Ean Er) as [pairs [E [N [_ [Hin Hq]]]]].
  destruct (C95_compute_connections ball l' l d' d an' r dim Hball El' El) as [pairs' [E' [N' [_ [Hin' Hq']]]]]; auto.
  { intros p Hp. apply Hdim. apply in_app_iff in Hp. apply in_or_app. tauto. }
  assert (forall p q, In p (d_positions d) -> In q (d_positions d') -> (sqdist p q == sqdist q p)%Q) as Hsym.
  { intros p q Hp Hq0. apply sqdist_sym. rewrite !Hdim; auto; apply in_or_app; auto. }
  assert (forall i j, close_points (d_positions d) (d_positions d') r i j <-> close_points (d_positions d') (d_positions d) r j i) as Hnear.
  { intros i j. split; intros [p [q [Hp [Hq0 Hle]]]]; exists q, p; (split; [auto|split; [auto|]]).
    - rewrite <- Hsym; [auto| |]; eapply nth_error_In; eauto.
    - rewrite Hsym; [auto| |]; eapply nth_error_In; eauto. }
  assert (forall i j, In (i, j) (map fst pairs) <-> In (j, i) (map fst pairs')) as Hsw by (intros i j; rewrite Hin, Hin'; apply Hnear).
  exists pairs, pairs'. split; auto. split; auto. split; [|split; auto].
  - rewrite <- (map_length fst pairs), <- (map_length fst pairs').
    rewrite <- (map_length (fun t : nat * nat => (snd t, fst t)) (map fst pairs)). apply Permutation_length. apply NoDup_Permutation; auto.
    + apply FinFun.Injective_map_NoDup; auto. intros [a b] [a' b'] H. cbn in H. congruence.
    + intros [j i]. rewrite in_map_iff. rewrite <- Hsw. split.
      * intros [[a b] [H1 H2]]. cbn in H1. injection H1 as <- <-. auto.
      * intro H. exists (i, j). auto.
  - intros i j q q' H H'. rewrite (Hq i j q H), (Hq' j i q' H').
    pose proof (proj1 (Hin i j) (in_map fst _ _ H)) as [p [p' [Hp [Hp' _]]]].
    unfold vec in *. rewrite (nth_of_nth_error _ _ [] _ Hp), (nth_of_nth_error _ _ [] _ Hp'). apply Hsym; eapply nth_error_In; eauto.
Qed.

(** A lattice that is not built has no connections to compute. *)
Theorem C95_connections_unbuilt :
  forall ball l l', lt_data l = None \/ lt_data l' = None \/ st_analysis (lt_structure l) = None -> compute_connections ball l l' = None.
Proof.
  intros ball l l' H. unfold compute_connections. destruct (st_analysis (lt_structure l)); auto. destruct (lt_data l); auto. destruct (lt_data l'); auto.
  intuition discriminate.
Qed.

(** ** Examples *)

Lemma links_checked d (p : nat -> nat -> dist -> bool) : forallb (fun i => forallb (fun e => p i (fst e) (snd e)) (links d i)) (seq 0 (nsites d)) = true ->
  forall i j x, i < nsites d -> In (j, x) (links d i) -> p i j x = true.
Proof.
  intros H i j x Hi Hj. rewrite forallb_forall in H. specialize (H i ltac:(apply in_seq; lia)). rewrite forallb_forall in H. exact (H _ Hj).
Qed.

(** The chain A-B-A-B-A; the last A has lost its B. *)
Lemma pairs3_wf : wf_core pairs3_data.
Proof. apply wf_core_checked. vm_compute. reflexivity. Qed.

Lemma pairs3_used : all_used pairs3_data.
Proof.
  intros x Hx Hfin. vm_compute in Hx. destruct Hx as [<-|[<-|[<-|[]]]].
  - exists 0, 1. split; [vm_compute; lia|vm_compute; auto].
  - exists 0, 2. split; [vm_compute; lia|vm_compute; auto].
  - congruence.
Qed.

Lemma pairs3_smallest : smallest_distance pairs3_data (Fin 300000).
Proof.
  split. { exists 0, 1. split; [vm_compute; lia|vm_compute; auto]. } intros i j y Hi Hj.
  exact (links_checked pairs3_data (fun _ _ y => dleb (Fin 300000) y) ltac:(vm_compute; reflexivity) i j y Hi Hj).
Qed.

Example C95_nearest_example :
  lt_data pairs3 = Some pairs3_data /\ wf_core pairs3_data /\ all_used pairs3_data /\ smallest_distance pairs3_data (Fin 300000) /\
  map (fun i => nearest_neighbors pairs3 i false) (seq 0 5) = [Some [1]; Some [0]; Some [3]; Some [2]; Some []] /\
  lattice_iter_neighbors pairs3 2 false = Some [(0, [3]); (1, [0; 4])] /\ lattice_iter_neighbors pairs3 2 true = Some [(0, [3]); (1, [4])].
Proof.
  split; [reflexivity|]. split; [apply pairs3_wf|]. split; [apply pairs3_used|]. split; [apply pairs3_smallest|].
  split; [vm_compute; reflexivity|]. split; vm_compute; reflexivity.
Qed.

(** The nearest neighbours of a site are not its closest neighbours: the last atom of the chain has a neighbour, but none with the
    smallest distance of the lattice. *)
Theorem C95_closest_refuted :
  neighbors pairs3 4 None false = Some [2] /\ nearest_neighbors pairs3 4 false = Some [] /\
  lattice_iter_neighbors pairs3 4 false = Some [(1, [2])].
Proof. split; [|split]; vm_compute; reflexivity. Qed.

Example C95_set_example :
  exists d, data_set [[0; 0]; [1; 0]]%Z [[0]; [1]]%Q [[1; 2]; [0; 2]] [[Fin 5; Inf]; [Fin 5; Inf]] = Some d /\
    rect 2 2 [[0; 0]; [1; 0]]%Z /\ rect 2 1 [[0]; [1]]%Q /\ rect 2 2 [[1; 2]; [0; 2]] /\ rect 2 2 [[Fin 5; Inf]; [Fin 5; Inf]] /\
    In Inf (concat [[Fin 5; Inf]; [Fin 5; Inf]]) /\
    (exists values : list dist, incl (concat [[Fin 5; Inf]; [Fin 5; Inf]]) values /\ length values <= 256) /\ all_used d.
Proof.
  assert (rect 2 2 [[0; 0]; [1; 0]]%Z) as H1 by (split; [reflexivity|intros r [<-|[<-|[]]]; reflexivity]).
  assert (rect 2 1 [[0]; [1]]%Q) as H2 by (split; [reflexivity|intros r [<-|[<-|[]]]; reflexivity]).
  assert (rect 2 2 [[1; 2]; [0; 2]]) as H3 by (split; [reflexivity|intros r [<-|[<-|[]]]; reflexivity]).
  assert (rect 2 2 [[Fin 5; Inf]; [Fin 5; Inf]]) as H4 by (split; [reflexivity|intros r [<-|[<-|[]]]; reflexivity]).
  assert (In Inf (concat [[Fin 5; Inf]; [Fin 5; Inf]])) as H5 by (cbn; auto).
  assert (exists values : list dist, incl (concat [[Fin 5; Inf]; [Fin 5; Inf]]) values /\ length values <= 256) as H6
    by (exists (concat [[Fin 5; Inf]; [Fin 5; Inf]]); split; [apply incl_refl|cbn; lia]).
  destruct (data_set [[0; 0]; [1; 0]]%Z [[0]; [1]]%Q [[1; 2]; [0; 2]] [[Fin 5; Inf]; [Fin 5; Inf]]) as [d|] eqn:E; [|vm_compute in E; discriminate].
  exists d. repeat (split; [assumption || reflexivity|]).
  refine (C95_set_uses_all _ _ _ _ 2 1 2 d _ H1 H2 H3 H4 H5 H6 E). lia.
Qed.

(** After the removal of sites the smallest distance may be that of no neighbours: no site has a nearest neighbour any more. *)
Theorem C95_removed_refuted :
  exists d l, remove pairs3_data [1; 3] = Some d /\ l = set_data pairs3 (Some d) /\ wf_core d /\ ~ all_used d /\
    map (fun i => neighbors l i None false) (seq 0 3) = [Some [1]; Some [0; 2]; Some [1]] /\
    map (fun i => nearest_neighbors l i false) (seq 0 3) = [Some []; Some []; Some []].
Proof.
  eexists _, _. split; [vm_compute; reflexivity|]. split; [reflexivity|]. split; [apply wf_core_checked; vm_compute; reflexivity|].
  split; [|split; vm_compute; reflexivity].
  intro U. destruct (U (Fin 300000) ltac:(vm_compute; auto) ltac:(discriminate)) as [i [j [Hi Hj]]].
  match type of Hj with In _ (links ?d _) => pose proof (links_checked d (fun _ _ y => negb (deqb y (Fin 300000))) ltac:(vm_compute; reflexivity) i j _ Hi Hj) as H end.
  discriminate H.
Qed.

(** The chain with the sites 5 to 8, next to the one with the sites 0 to 4. *)
Definition chain_5_8 : lattice :=
  Eval vm_compute in fst (build brute dist_argsort [1]%Q (new_lattice one_atom) (ASize [3]%Q) false (Some [5]%Q) true None None None).

Example C95_connections_example :
  correct_ball brute_ball /\ lt_positions chain_5_8 = [[5]; [6]; [7]; [8]]%Q /\
  (forall p, In p (lt_positions chain5 ++ lt_positions chain_5_8) -> length p = 1) /\
  (exists an r, st_analysis (lt_structure chain5) = Some an /\ query_radius an = Some r /\ (r == 11 # 10)%Q) /\
  compute_connections brute_ball chain5 chain_5_8 = Some [(4, 0, 1%Q)] /\
  compute_connections brute_ball chain_5_8 chain5 = Some [(0, 4, 1%Q)].
Proof.
  split; [apply brute_ball_correct|]. split; [vm_compute; reflexivity|]. split; [|split; [|split; vm_compute; reflexivity]].
  - intros p Hp. vm_compute in Hp. repeat (destruct Hp as [<-|Hp]; [reflexivity|]). destruct Hp.
  - eexists. eexists. split; [reflexivity|]. split; vm_compute; reflexivity.
Qed.

(** A site of both lattices is connected with itself; and the atoms are not taken into account, nor is it checked that a distance is one of
    those of the neighbours: only atoms A with distance 1 are connected in the chain with the atoms A and B, none of the pairs below is of that kind. *)
Theorem C95_connections_too_many_refuted :
  compute_connections brute_ball chain_5_8 chain_5_8 =
    Some [(0, 0, 0%Q); (0, 1, 1%Q); (1, 0, 1%Q); (1, 1, 0%Q); (1, 2, 1%Q); (2, 1, 1%Q); (2, 2, 0%Q); (2, 3, 1%Q); (3, 2, 1%Q); (3, 3, 0%Q)] /\
  st_connections aa_atoms = Some [[1; 0]; [0; 0]] /\
  exists l, build brute dist_argsort [1]%Q (new_lattice aa_atoms) (ASize [13#10]%Q) false None true None None None = (l, Ok tt) /\
    map (fun i => neighbors l i None false) (seq 0 4) = [Some [2]; Some []; Some [0]; Some []] /\
    exists pairs, compute_connections brute_ball l l = Some pairs /\ In (0, 1) (map fst pairs) /\ In (1, 2) (map fst pairs) /\ In (1, 3) (map fst pairs).
Proof.
  split; [vm_compute; reflexivity|]. split; [reflexivity|]. eexists. split; [vm_compute; reflexivity|]. split; [vm_compute; reflexivity|].
  eexists. split; [vm_compute; reflexivity|]. split; [|split]; vm_compute; auto 20.
Qed.

(** ** The map *)

(** The map of a lattice is that of its data and is kept: a second call returns the same map and changes nothing. *)
Theorem C95_dmap_kept :
  forall argsort argsort' l m l', dmap argsort l = Some (m, l') ->
    (exists d, lt_data l = Some d /\ fst (data_map argsort d) = m) /\ dmap argsort' l' = Some (m, l') /\
    lt_structure l' = lt_structure l /\ lt_indices l' = lt_indices l /\ lt_positions l' = lt_positions l /\
    forall i k u, neighbors l' i k u = neighbors l i k u.
Proof.
  intros argsort argsort' l m l' E. unfold dmap in E. destruct (lt_data l) as [d|] eqn:El; [|discriminate].
  destruct (data_map argsort d) as [m' d'] eqn:Em. injection E as -> <-.
  assert (d_dmap d' = Some m /\ d_indices d' = d_indices d /\ d_positions d' = d_positions d /\
    forall i k p u, get_neighbors d' i k p u = get_neighbors d i k p u) as [H1 [H2 [H3 H4]]].
  { unfold data_map in Em. destruct (d_dmap d) as [m0|] eqn:E0; [injection Em as <- <-; auto|].
    destruct (pair_table d) as [pairs idx]. injection Em as <- <-. repeat split; auto. }
  split; [exists d; rewrite Em; auto|]. split; [|split; [reflexivity|]].
  - unfold dmap, set_data. cbn [lt_data]. unfold data_map. rewrite H1. reflexivity.
  - unfold lt_indices, lt_positions, neighbors, set_data. cbn [lt_data]. rewrite El. auto.
Qed.

Example C95_dmap_example :
  exists m l', dmap nat_argsort chain5 = Some (m, l') /\ dm_size m = 13 /\ dmap nat_argsort l' = Some (m, l').
Proof. eexists. eexists. split; [vm_compute; reflexivity|]. split; vm_compute; reflexivity. Qed.

Print Assumptions C95_nearest_neighbors.
Print Assumptions C95_set_uses_all.
Print Assumptions C95_iter_neighbors.
Print Assumptions C95_compute_connections.
Print Assumptions C95_connections_symmetric.
Print Assumptions C95_connections_unbuilt.
Print Assumptions C95_closest_refuted.
Print Assumptions C95_removed_refuted.
Print Assumptions C95_connections_too_many_refuted.
Print Assumptions C95_dmap_kept.
