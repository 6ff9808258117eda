(** * Property C97 (lattpy/data.py): lattice data is a graph under any history of operations *)
From Coq Require Import List ZArith QArith Bool Arith Lia Permutation Sorting.Sorted.
From Verif Require Import Np NpFacts LinAlg SpecUtils UtilsModel PropUtils DataModel SpecData DataFacts DataProofs DataOps DataAppend SpecLattice PropData PropDataMap
  FilterProofs SpecGraph.
Import ListNotations.
Open Scope nat_scope.

(** ** Graphs *)

Lemma place_spec l j : NoDup l -> forall k, place l j = Some k <-> nth_error l k = Some j.
Proof.
  induction l as [|x l IH]; intros Hn k; cbn.
  - destruct k; split; discriminate.
  - inversion Hn as [|? ? Hx Hl]; subst. destruct (Nat.eqb_spec x j) as [->|Hne].
    + destruct k as [|k]; cbn; [tauto|]. split; [discriminate|]. intro E. apply nth_error_In in E. contradiction.
    + destruct k as [|k]; cbn.
      * split; [destruct (place l j); discriminate|]. congruence.
      * specialize (IH Hl k). destruct (place l j) as [m|] eqn:E; cbn; rewrite <- IH; split; congruence.
Qed.

Lemma place_In l j : place l j = None <-> ~ In j l.
Proof.
  induction l as [|x l IH]; cbn; [tauto|]. destruct (Nat.eqb_spec x j) as [->|Hne]; [split; [discriminate|tauto]|].
  destruct (place l j); cbn; split; try discriminate; try reflexivity; intros; destruct IH; intuition congruence.
Qed.

Lemma place_nth l k : NoDup l -> k < length l -> place l (nth k l 0) = Some k.
Proof. intros Hn Hk. apply place_spec; auto. apply nth_error_nth'. exact Hk. Qed.

Lemma same_node_refl x : same_node x x.
Proof. unfold same_node. auto. Qed.
Lemma same_graph_refl g : same_graph g g.
Proof. induction g; constructor; auto. apply same_node_refl. Qed.

Lemma same_node_trans x y z : same_node x y -> same_node y z -> same_node x z.
Proof. intros [A [B C]] [A' [B' C']]. split; [congruence|]. split; [congruence|]. etransitivity; eauto. Qed.
Lemma same_graph_trans g h k : same_graph g h -> same_graph h k -> same_graph g k.
Proof.
  unfold same_graph. intro H. revert k. induction H; intros k Hk; inversion Hk; subst; constructor; eauto. eapply same_node_trans; eauto.
Qed.
Lemma same_graph_length g h : same_graph g h -> length g = length h.
Proof. intro H. induction H; cbn; congruence. Qed.

Lemma same_graph_nth g h k : same_graph g h -> same_node (nth k g no_node) (nth k h no_node).
Proof. intro H. revert k. induction H; intros [|k]; cbn; auto using same_node_refl. Qed.

Lemma same_graph_intro g h : length g = length h -> (forall k, k < length g -> same_node (nth k g no_node) (nth k h no_node)) -> same_graph g h.
Proof.
  revert h. induction g as [|x g IH]; intros [|y h] L H; try discriminate; constructor.
  - apply (H 0). cbn. lia.
  - apply IH; [cbn in L; lia|]. intros k Hk. apply (H (S k)). cbn. lia.
Qed.

Lemma change_same f f' x y : same_node x y -> (forall es es', Permutation es es' -> Permutation (f es) (f' es')) -> same_node (change_edges f x) (change_edges f' y).
Proof. intros [A [B C]] H. split; [exact A|]. split; [exact B|]. apply H. exact C. Qed.

Lemma map_same {A} (f f' : A -> node) l : (forall x, In x l -> same_node (f x) (f' x)) -> same_graph (map f l) (map f' l).
Proof. induction l as [|x l IH]; intro H; cbn; constructor; [apply H; left; auto|apply IH; intros; apply H; right; auto]. Qed.

Lemma g_select_same l g h : same_graph g h -> same_graph (g_select l g) (g_select l h).
Proof.
  intro H. apply map_same. intros q _. apply change_same; [apply same_graph_nth; exact H|]. intros es es' P. unfold among. apply Permutation_flat_map. exact P.
Qed.

Lemma g_at_same f g h : (forall k es es', Permutation es es' -> Permutation (f k es) (f k es')) -> same_graph g h -> same_graph (g_at f g) (g_at f h).
Proof.
  intros Hf H. unfold g_at. rewrite (same_graph_length _ _ H). apply map_same. intros q _. apply change_same; [apply same_graph_nth; exact H|]. apply Hf.
Qed.

Lemma g_map_same f g h : (forall es es', Permutation es es' -> Permutation (f es) (f es')) -> same_graph g h -> same_graph (map (change_edges f) g) (map (change_edges f) h).
Proof. intros Hf H. induction H; cbn; constructor; auto. apply change_same; auto. Qed.

Lemma g_union_same g h g' h' : same_graph g g' -> same_graph h h' -> same_graph (g_union g h) (g_union g' h').
Proof.
  intros H H'. unfold g_union. rewrite (same_graph_length _ _ H). apply Forall2_app.
  - apply g_map_same; auto. intros. apply Permutation_map. auto.
  - apply g_map_same; [intros; apply Permutation_map; auto|]. apply g_map_same; auto. intros. apply Permutation_map. auto.
Qed.

Lemma g_at_length f g : length (g_at f g) = length g.
Proof. unfold g_at. rewrite map_length, seq_length. reflexivity. Qed.
Lemma g_at_nth f g k : k < length g -> nth k (g_at f g) no_node = change_edges (f k) (nth k g no_node).
Proof.
  intro H. unfold g_at. rewrite (nth_indep _ no_node (change_edges (f 0) (nth 0 g no_node))) by (rewrite map_length, seq_length; auto).
  rewrite (map_nth (fun k => change_edges (f k) (nth k g no_node))). rewrite seq_nth by auto. reflexivity.
Qed.
Lemma map_node {A} (f : A -> node) l k z : k < length l -> nth k (map f l) no_node = f (nth k l z).
Proof. intro H. rewrite (nth_indep _ no_node (f z)) by (rewrite map_length; auto). apply map_nth. Qed.

Lemma graph_of_length d : length (graph_of d) = nsites d.
Proof. unfold graph_of. rewrite map_length, seq_length. reflexivity. Qed.
Lemma graph_of_nth d i : i < nsites d -> nth i (graph_of d) no_node = mkNode (nth i (d_indices d) []) (nth i (d_positions d) []) (map edge_of (slots d i)).
Proof. intro H. unfold graph_of. rewrite (map_node _ _ _ 0) by (rewrite seq_length; auto). rewrite seq_nth by auto. reflexivity. Qed.

(** ** Steps *)

Lemma among_back l es es' : NoDup l -> (forall e, In e es' -> e_to e < length l) ->
  map (fun e => mkEdge (nth (e_to e) l 0) (e_dist e) (e_per e)) es' = es -> among l es = es'.
Proof.
  intros Hn Hlt <-. induction es' as [|e es' IH]; [reflexivity|]. unfold among in *. cbn [map flat_map e_to e_dist e_per].
  rewrite place_nth by (auto; apply Hlt; left; auto). rewrite IH by (intros; apply Hlt; right; auto). destruct e; reflexivity.
Qed.

Lemma sort_graph d idx (reverse : bool) d' : wf d -> Permutation idx (seq 0 (nsites d)) -> sort d None (Some idx) reverse = Some d' ->
  wf d' /\ graph_of d' = g_select (if reverse then rev idx else idx) (graph_of d).
Proof.
  intros W HP E. destruct (C42_sort_isomorphism d idx reverse W HP) as (d2 & E2 & W2 & En & _ & H). rewrite E in E2. injection E2 as <-. split; [exact W2|].
  set (old := if reverse then rev idx else idx) in *.
  assert (Permutation old (seq 0 (nsites d))) as HP' by (unfold old; destruct reverse; auto; rewrite <- HP; symmetry; apply Permutation_rev).
  assert (length old = nsites d) as Ll by (rewrite (Permutation_length HP'), seq_length; reflexivity).
  assert (NoDup old) as Hn by (eapply Permutation_NoDup; [symmetry; exact HP'|apply seq_NoDup]).
  apply nth_ext with (d := no_node) (d' := no_node); [rewrite graph_of_length; unfold g_select; rewrite map_length; congruence|].
  rewrite graph_of_length, En. intros p Hp. unfold g_select. rewrite (map_node _ _ _ 0) by congruence. rewrite graph_of_nth by congruence.
  assert (nth p old 0 < nsites d) as Hq.
  { assert (In (nth p old 0) (seq 0 (nsites d))) as Hi by (eapply Permutation_in; [exact HP'|apply nth_In; congruence]). apply in_seq in Hi. lia. }
  rewrite graph_of_nth by exact Hq. destruct (H p Hp) as (A & B & C & D). unfold change_edges. cbn [n_index n_pos n_edges]. f_equal; auto.
  symmetry. apply among_back; auto.
  - intros e He. apply in_map_iff in He. destruct He as [s [<- Hs]]. cbn. rewrite Ll. apply D. exact Hs.
  - rewrite <- C, !map_map. reflexivity.
Qed.

Lemma sort_neighbors_graph argsort d : is_argsort dleb argsort -> wf d -> wf (sort_neighbors argsort d) /\ same_graph (graph_of (sort_neighbors argsort d)) (graph_of d).
Proof.
  intros Ha W. split; [apply sort_neighbors_wf; auto|]. assert (nsites (sort_neighbors argsort d) = nsites d) as En by reflexivity.
  apply same_graph_intro; [rewrite !graph_of_length; exact En|]. rewrite graph_of_length, En. intros k Hk. rewrite !graph_of_nth by (rewrite ?En; auto).
  destruct (C43_sort_neighbors argsort d k Ha W Hk) as (_ & _ & EI & EP & P & _). split; [cbn [n_index]; rewrite EI; auto|]. split; [cbn [n_pos]; rewrite EP; auto|].
  cbn [n_edges]. apply Permutation_map. exact P.
Qed.

Lemma regular_edges d i : map edge_of (filter (fun s => negb (s_per s)) (slots d i)) = regular (map edge_of (slots d i)).
Proof. unfold regular. induction (slots d i) as [|s l IH]; [reflexivity|]. cbn. destruct (s_per s); cbn; rewrite IH; reflexivity. Qed.

Lemma regular_plain d i : map (fun l => mkEdge (fst l) (snd l) false) (regular_links d i) = regular (map edge_of (slots d i)).
Proof.
  unfold regular_links, regular. rewrite map_map. cbn. induction (slots d i) as [|s l IH]; [reflexivity|]. cbn. destruct (s_per s) eqn:E; cbn; rewrite IH; auto.
  unfold edge_of. rewrite E. reflexivity.
Qed.

Lemma links_plain d i : map (fun l => mkEdge (fst l) (snd l) false) (links d i) = map plain (map edge_of (slots d i)).
Proof. unfold links, slots. rewrite !map_map. reflexivity. Qed.

Lemma edges_regular d i : (forall s, In s (slots d i) -> s_per s = false) -> map edge_of (slots d i) = map (fun l => mkEdge (fst l) (snd l) false) (links d i).
Proof.
  intro H. rewrite links_plain, map_map. apply map_ext_in. intros s Hs. unfold edge_of, plain. cbn. rewrite (H s Hs). reflexivity.
Qed.

Lemma append_graph argsort w1 w2 w3 d e d' : is_argsort dleb argsort -> wf d -> wf e -> d_dim e = d_dim d -> 0 < nsites d -> 0 < nsites e -> 0 < d_cols e ->
  has_padding d e -> length (d_distvals d) + length (d_distvals e) <= 256 -> append_data argsort w1 w2 w3 d e = Some d' ->
  wf d' /\ same_graph (graph_of d') (g_union (graph_of d) (graph_of e)).
Proof.
  intros Ha Wd We Hdim Hd0 He0 Hc0 Hpad Hlen E.
  destruct (C45_append_disjoint_union argsort w1 w2 w3 d e Ha Wd We Hdim Hd0 He0 Hc0 Hpad Hlen) as (d2 & E2 & W2 & En & EI & EP & H1 & H2 & _ & H4).
  rewrite E in E2. injection E2 as <-. split; [exact W2|].
  assert (length (d_positions d) = nsites d) as Lp by apply (wf_positions _ Wd).
  apply same_graph_intro.
  - unfold g_union, g_plain. rewrite app_length, !map_length, !graph_of_length. exact En.
  - rewrite graph_of_length. intros k Hk. rewrite graph_of_nth by exact Hk. unfold g_union. destruct (Nat.lt_ge_cases k (nsites d)) as [Hlt|Hge].
    + rewrite app_nth1 by (unfold g_plain; rewrite map_length, graph_of_length; auto). unfold g_plain.
      rewrite (map_node _ _ _ no_node) by (rewrite graph_of_length; auto). rewrite graph_of_nth by auto. split; cbn [n_index n_pos n_edges change_edges]; [rewrite EI, app_nth1; auto|].
      split; [rewrite EP, app_nth1 by congruence; auto|]. rewrite <- links_plain. rewrite edges_regular by (apply H4; auto). apply Permutation_map. apply H1. exact Hlt.
    + assert (k - nsites d < nsites e) as Hk' by lia.
      rewrite app_nth2 by (unfold g_plain; rewrite map_length, graph_of_length; auto). unfold g_plain. rewrite !map_length, !graph_of_length.
      rewrite (map_node _ _ _ no_node) by (rewrite map_length, graph_of_length; auto). rewrite (map_node _ _ _ no_node) by (rewrite graph_of_length; auto).
      rewrite graph_of_nth by auto. split; cbn [n_index n_pos n_edges change_edges]; [rewrite EI, app_nth2; auto|]. split; [rewrite EP, app_nth2 by lia; rewrite Lp; auto|].
      rewrite edges_regular by (apply H4; auto). rewrite <- links_plain. rewrite map_map.
      replace k with (nsites d + (k - nsites d)) at 1 by lia. rewrite (Permutation_map _ (H2 _ Hk')). rewrite map_map. reflexivity.
Qed.

Lemma add_graph d i j v d' : wf d -> i < nsites d -> j < nsites d -> packed_row d i ->
  (exists c, c < d_cols d /\ valid d i c = false) -> In v (d_distvals d) -> v <> Inf -> add_neighbor d i j v = Some d' ->
  wf d' /\ graph_of d' = g_add i j v (graph_of d).
Proof.
  intros W Hi Hj HP Hfree Hv Hne E. destruct (C44_add_neighbor d i j v W Hi Hj HP Hfree Hv Hne) as (d2 & E2 & W2 & En & _). rewrite E in E2. injection E2 as <-.
  split; [exact W2|]. pose proof (wf_c _ W) as C. destruct HP as [m [Hm Hpk]]. destruct Hfree as [c0 [Hc0 Hv0]].
  assert (m < d_cols d) as Hml by (rewrite Hpk in Hv0 by auto; apply Nat.ltb_ge in Hv0; lia).
  apply In_nth_error in Hv. destruct Hv as [k Hk].
  destruct (add_neighbor_spec d i j v k m C Hi Hj Hml Hpk Hk Hne) as (d3 & E3 & Edim & Ecols & Eind & Epos & Edv & Eii & Einv & Epm & Env & Eax & Edm & Rn & Rd & H).
  rewrite E in E3. injection E3 as <-. pose proof (inf_last _ _ (wf_distvals _ C) (wf_invalid _ C)) as HL.
  assert (k < d_invalid_distidx d) as Hkl.
  { assert (k < length (d_distvals d)) by (eapply nth_error_length_lt; eauto).
    assert (k <> d_invalid_distidx d) by (intros ->; rewrite (wf_invalid _ C) in Hk; congruence). lia. }
  apply nth_ext with (d := no_node) (d' := no_node); [rewrite graph_of_length; unfold g_add; rewrite g_at_length, graph_of_length; exact En|].
  rewrite graph_of_length, En. intros p Hp. unfold g_add. rewrite g_at_nth by (rewrite graph_of_length; auto). rewrite !graph_of_nth by congruence.
  unfold change_edges. cbn [n_index n_pos n_edges]. rewrite Eind, Epos. f_equal.
  assert (forall c, c < d_cols d -> (p = i -> c <> m) -> valid d' p c = valid d p c /\ slot_at d' p c = slot_at d p c) as Hsame.
  { intros c Hc Hcm. destruct (H p c Hp Hc) as [H1 H2]. assert ((p =? i) && (c =? m) = false) as Eb.
    { destruct (Nat.eqb_spec p i) as [->|]; [|reflexivity]. apply Nat.eqb_neq. auto. }
    rewrite Eb in H1, H2. unfold valid, slot_at, pm. rewrite H1, H2, Einv, Edv, Epm, Env, Eax. auto. }
  unfold slots, valid_slots. rewrite Ecols. destruct (Nat.eqb_spec p i) as [->|Hpi].
  - assert (filter (valid d i) (seq 0 (d_cols d)) = seq 0 m) as Ef by (apply count_prefix; [lia|intros c Hc; apply Hpk; lia]). rewrite Ef.
    assert (filter (valid d' i) (seq 0 (d_cols d)) = seq 0 (S m)) as Ef'.
    { apply count_prefix; [lia|]. intros c Hc. destruct (Nat.eq_dec c m) as [->|Hcm].
      - unfold valid. rewrite (proj2 (H i m Hi ltac:(lia))), !Nat.eqb_refl, Einv. cbn [andb]. rewrite (proj2 (Nat.ltb_lt _ _) Hkl). symmetry. apply Nat.ltb_lt. lia.
      - rewrite (proj1 (Hsame c ltac:(lia) (fun _ => Hcm))). rewrite Hpk by lia. destruct (Nat.ltb_spec c m), (Nat.ltb_spec c (S m)); auto; lia. }
    rewrite Ef', seq_S, !map_app. cbn [map Nat.add]. f_equal.
    + rewrite !map_map. apply map_ext_in. intros c Hc. apply in_seq in Hc. f_equal. apply Hsame; [lia|]. intros _. lia.
    + destruct (H i m Hi Hml) as [H1 H2]. rewrite !Nat.eqb_refl in H1, H2. cbn in H1, H2. unfold edge_of, slot_at. cbn [s_nbr s_dist s_per].
      rewrite H1, H2, Edv, (nth_error_nth _ _ Inf Hk). f_equal. f_equal. unfold pm. rewrite Epm. fold (pm d i m).
      destruct (pm d i m) eqn:Ep; [|reflexivity]. apply (wf_pm _ W) in Ep; auto. rewrite Hpk in Ep by auto. rewrite Nat.ltb_irrefl in Ep. discriminate.
  - f_equal. rewrite (filter_ext_in (valid d' p) (valid d p)).
    + apply map_ext_in. intros c Hc. apply filter_In in Hc. destruct Hc as [Hc _]. apply in_seq in Hc. apply Hsame; [lia|]. intro; contradiction.
    + intros c Hc. apply in_seq in Hc. apply Hsame; [lia|]. intro; contradiction.
Qed.

Lemma layered_edges d i : wf d -> layered_row d i -> i < nsites d -> map edge_of (slots d i) =
  map edge_of (filter (fun s => negb (s_per s)) (slots d i)) ++ map edge_of (filter (fun s => s_per s) (slots d i)).
Proof.
  intros W [r [m [H1 [H2 H]]]] Hi. unfold slots, valid_slots.
  assert (filter (valid d i) (seq 0 (d_cols d)) = seq 0 m) as -> by (apply count_prefix; [lia|intros c Hc; apply H; lia]).
  rewrite <- map_app. f_equal. rewrite !map_filter_comm, <- map_app. f_equal.
  replace m with (r + (m - r)) by lia. rewrite seq_app, !filter_app. cbn [Nat.add].
  assert (forall c, In c (seq 0 r) -> s_per (slot_at d i c) = false) as A.
  { intros c Hc. apply in_seq in Hc. cbn. destruct (H c ltac:(lia)) as [_ ->]. apply andb_false_iff. left. apply Nat.leb_gt. lia. }
  assert (forall c, In c (seq r (m - r)) -> s_per (slot_at d i c) = true) as B.
  { intros c Hc. apply in_seq in Hc. cbn. destruct (H c ltac:(lia)) as [_ ->]. apply andb_true_iff. rewrite Nat.leb_le, Nat.ltb_lt. lia. }
  rewrite (filter_all _ (seq 0 r)), (filter_none _ (seq r _)), (filter_none _ (seq 0 r)), (filter_all _ (seq r _)), app_nil_r; auto.
  - intros c Hc. rewrite (B c Hc). reflexivity.
  - intros c Hc. rewrite (A c Hc). reflexivity.
Qed.

Lemma periodic_graph d entries d' : wf d -> layered d -> fits d entries -> set_periodic d entries = Some d' ->
  wf d' /\ graph_of d' = g_periodic entries (graph_of d).
Proof.
  intros W HL HF E. destruct (C46_set_periodic d entries W HL HF) as (d2 & E2 & W2 & L2 & En & EI & EP & _ & H). rewrite E in E2. injection E2 as <-.
  split; [exact W2|]. apply nth_ext with (d := no_node) (d' := no_node); [rewrite graph_of_length; unfold g_periodic; rewrite g_at_length, graph_of_length; exact En|].
  rewrite graph_of_length, En. intros i Hi. unfold g_periodic. rewrite g_at_nth by (rewrite graph_of_length; auto). rewrite !graph_of_nth by congruence.
  unfold change_edges. cbn [n_index n_pos n_edges]. rewrite EI, EP. f_equal. destruct (H i Hi) as (H1 & H2 & _).
  rewrite (layered_edges d' i W2 (L2 i ltac:(congruence)) ltac:(congruence)), regular_edges. f_equal.
  - rewrite <- !regular_plain. rewrite H1. reflexivity.
  - rewrite H2, map_map. reflexivity.
Qed.

Lemma remove_periodic_graph d : wf d -> wf (remove_periodic d) /\ graph_of (remove_periodic d) = g_regular (graph_of d).
Proof.
  intro W. destruct (remove_periodic_spec d W) as [W0 H]. split; [exact W0|].
  apply nth_ext with (d := no_node) (d' := no_node); [rewrite graph_of_length; unfold g_regular; rewrite g_at_length, graph_of_length; reflexivity|].
  rewrite graph_of_length. change (nsites (remove_periodic d)) with (nsites d). intros i Hi. unfold g_regular. rewrite g_at_nth by (rewrite graph_of_length; auto).
  rewrite !graph_of_nth by auto. unfold change_edges. cbn [n_index n_pos n_edges]. change (d_indices (remove_periodic d)) with (d_indices d).
  change (d_positions (remove_periodic d)) with (d_positions d). f_equal. rewrite edges_regular.
  - rewrite (remove_periodic_links d i W Hi). apply regular_plain.
  - intros s Hs. unfold slots, valid_slots in Hs. apply in_map_iff in Hs. destruct Hs as [c [<- Hc]]. apply filter_In in Hc. destruct Hc as [Hc _]. apply in_seq in Hc.
    unfold slot_at. cbn [s_per]. apply (H i c Hi). cbn in Hc. lia.
Qed.

Lemma combine_cells {A B} (a : A) (b : B) (l : list A) (m : list B) n : length l = n -> length m = n -> combine l m = map (fun c => (nth c l a, nth c m b)) (seq 0 n).
Proof.
  revert m n. induction l as [|x l IH]; intros [|y m] [|n] H1 H2; try discriminate; [reflexivity|]. cbn. f_equal. rewrite <- seq_shift, map_map. apply IH; cbn in *; lia.
Qed.

Lemma set_graph indices positions neighbors distances n dim m d :
  0 < n -> rect n (S dim) indices -> rect n dim positions -> rect n m neighbors -> rect n m distances ->
  In Inf (concat distances) -> (exists values, incl (concat distances) values /\ length values <= 256) ->
  (forall i c, i < n -> c < m -> cell Inf distances i c <> Inf -> cell 0 neighbors i c < n) ->
  data_set indices positions neighbors distances = Some d -> wf d /\ graph_of d = graph_of_tables indices positions neighbors distances.
Proof.
  intros Hn Ri Rp Rn Rd Hinf [values [Hincl Hlen]] Hlt E.
  assert (length (fst (create_lookup_table2 dleb deqb distances)) <= 256) as Hfew.
  { destruct (create_lookup_table2 dleb deqb distances) as [vals ind] eqn:Et. simpl.
    destruct (C01_lookup_decodes_table dist dleb deqb dist_order dist_eq distances m vals ind Inf (proj2 Rd) Et) as [Hinc [Hval _]].
    apply Nat.le_trans with (length values); auto. apply NoDup_incl_length; [apply (strict_NoDup dleb); exact Hinc|].
    intros x Hx. apply Hincl. apply Hval in Hx. rewrite <- in_concat in Hx. auto. }
  destruct (data_set_wf _ _ _ _ n dim m d Hn Ri Rp Rn Rd Hinf Hfew Hlt E) as [W _]. split; [exact W|].
  destruct (data_set_spec _ _ _ _ _ _ _ Hn Ri Rp Rn Rd Hinf Hfew) as (d' & E1 & Edim & Ecols & Eind & Epos & Enb & Edt & Rdd & _ & _ & _ & _ & Hvalid & Epm & _).
  rewrite E in E1. injection E1 as <-. unfold graph_of, graph_of_tables, nsites. rewrite Eind. apply map_ext_in. intros i Hi. apply in_seq in Hi. rewrite (proj1 Ri) in Hi.
  rewrite Epos. f_equal. unfold slots, valid_slots. rewrite Ecols.
  rewrite (combine_cells 0 Inf _ _ m) by (apply Rn || apply Rd; apply nth_In; destruct Rn, Rd; lia).
  rewrite map_filter_comm, !map_map. match goal with |- _ = map _ (filter ?f _) => rewrite (filter_ext_in f (valid d i)) end.
  2:{ intros c Hc. apply in_seq in Hc. rewrite Hvalid by lia. unfold cell, dfinite. cbn. destruct (nth c (nth i distances []) Inf); reflexivity. }
  apply map_ext_in. intros c Hc. apply filter_In in Hc. destruct Hc as [Hc _]. apply in_seq in Hc. unfold edge_of, slot_at. cbn [s_nbr s_dist s_per fst snd]. f_equal.
  - unfold nb. rewrite Enb. reflexivity.
  - assert (cell Inf (distance_table d) i c = cell Inf distances i c) as Ed by (rewrite Edt; reflexivity). unfold distance_table in Ed.
    rewrite (cell_map_map _ 0 Inf _ _ _ n m Rdd) in Ed by lia. exact Ed.
  - unfold pm. rewrite Epm. rewrite (cell_map_map _ 0 false _ _ _ n m Rn) by lia. reflexivity.
Qed.

Lemma remove_graph d sites kept : wf_core d -> NoDup sites -> (forall s, In s sites -> s < nsites d) ->
  StronglySorted lt kept -> (forall i, In i kept <-> i < nsites d /\ ~ In i sites) ->
  exists d', remove d sites = Some d' /\ wf_core d' /\ g_plain (graph_of d') = g_select kept (g_plain (graph_of d)).
Proof.
  intros W Hn Hlt Hs Hk. destruct (C41_remove_induced d sites kept W Hn Hlt Hs Hk) as (d' & E & W' & En & _ & H). exists d'. split; [exact E|]. split; [exact W'|].
  assert (NoDup kept) as Hnk by (clear - Hs; induction Hs as [|x l _ IH F]; constructor; auto; rewrite Forall_forall in F; intro Hx; apply F in Hx; lia).
  unfold g_plain. apply nth_ext with (d := no_node) (d' := no_node); [unfold g_select; rewrite !map_length, graph_of_length; exact En|].
  rewrite map_length, graph_of_length, En. intros p Hp. unfold g_select. rewrite (map_node _ _ _ no_node) by (rewrite graph_of_length; congruence).
  rewrite (map_node _ _ _ 0) by exact Hp. assert (nth p kept 0 < nsites d) as Hq by (apply Hk, nth_In; exact Hp).
  rewrite (map_node _ _ _ no_node) by (rewrite graph_of_length; exact Hq). rewrite !graph_of_nth by congruence. destruct (H p Hp) as (A & B & C & D).
  unfold change_edges. cbn [n_index n_pos n_edges]. f_equal; auto. rewrite <- !links_plain. symmetry.
  transitivity (among kept (map (fun l => mkEdge (fst l) (snd l) false) (filter (fun l => if in_dec Nat.eq_dec (fst l) sites then false else true) (links d (nth p kept 0))))).
  - assert (forall l, In l (links d (nth p kept 0)) -> fst l < nsites d) as Hb.
    { intros l Hl. unfold links, valid_slots in Hl. apply in_map_iff in Hl. destruct Hl as [c [<- Hc]]. apply filter_In in Hc. destruct Hc as [Hc Hv]. apply in_seq in Hc.
      apply (wf_nb _ W); auto; lia. }
    clear - Hb Hk. induction (links d (nth p kept 0)) as [|l ls IH]; [reflexivity|]. cbn [map filter]. destruct (in_dec Nat.eq_dec (fst l) sites) as [Hi|Hi].
    + unfold among in *. cbn [flat_map e_to]. assert (place kept (fst l) = None) as -> by (apply place_In; rewrite Hk; tauto). cbn [app]. apply IH. intros; apply Hb; right; auto.
    + cbn [map]. unfold among in *. cbn [flat_map]. f_equal. apply IH. intros; apply Hb; right; auto.
  - apply among_back; auto.
    + intros e He. apply in_map_iff in He. destruct He as [l [<- Hl]]. cbn. apply D. exact Hl.
    + rewrite <- C, !map_map. reflexivity.
Qed.

(** ** C97 *)

Section Histories.
  Variable argsort_d : list dist -> list nat.
  Variable argsort_n : list nat -> list nat.

  (** The data after a history of operations, and the graph after the corresponding operations of graphs.
      [sort] along an axis is [sort] with some permutation ([C42_sort_axis]). *)
  Inductive history : data -> graph -> Prop :=
    | h_set indices positions neighbors distances n dim m values d :
        0 < n -> rect n (S dim) indices -> rect n dim positions -> rect n m neighbors -> rect n m distances ->
        In Inf (concat distances) -> incl (concat distances) values -> length values <= 256 ->
        (forall i c, i < n -> c < m -> cell Inf distances i c <> Inf -> cell 0 neighbors i c < n) ->
        data_set indices positions neighbors distances = Some d -> history d (graph_of_tables indices positions neighbors distances)
    | h_sort d g idx (reverse : bool) d' : history d g -> Permutation idx (seq 0 (length g)) -> sort d None (Some idx) reverse = Some d' ->
        history d' (g_select (if reverse then rev idx else idx) g)
    | h_sort_neighbors d g : history d g -> history (sort_neighbors argsort_d d) g
    | h_map d g : history d g -> history (snd (data_map argsort_n d)) g
    | h_add d g i j v d' : history d g -> i < length g -> j < length g -> packed_row d i -> (exists c, c < d_cols d /\ valid d i c = false) ->
        In v (d_distvals d) -> v <> Inf -> add_neighbor d i j v = Some d' -> history d' (g_add i j v g)
    | h_append d g e h w1 w2 w3 d' : history d g -> history e h -> d_dim e = d_dim d -> 0 < d_cols e -> has_padding d e ->
        length (d_distvals d) + length (d_distvals e) <= 256 -> append_data argsort_d w1 w2 w3 d e = Some d' -> history d' (g_union g h)
    | h_periodic d g entries d' : history d g -> layered d -> fits d entries -> set_periodic d entries = Some d' -> history d' (g_periodic entries g)
    | h_remove_periodic d g d' : history d g -> call_remove_periodic d = Some d' -> history d' (g_regular g).

  (** Sites may be removed afterwards, any number of times.  [remove] leaves the periodic tables of the old sites ([C52_stale_after_remove]), so the
      graph is compared without the marks of periodic connections and the other operations are not allowed any more. *)
  Inductive thinned : data -> graph -> Prop :=
    | t_history d g : history d g -> thinned d (g_plain g)
    | t_remove d g sites kept d' : thinned d g -> NoDup sites -> (forall s, In s sites -> s < length g) ->
        StronglySorted lt kept -> (forall i, In i kept <-> i < length g /\ ~ In i sites) -> remove d sites = Some d' -> thinned d' (g_select kept g).

  Hypothesis argsort_d_ok : is_argsort dleb argsort_d.

  Lemma data_map_graph d : wf d -> wf (snd (data_map argsort_n d)) /\ graph_of (snd (data_map argsort_n d)) = graph_of d.
  Proof.
    intro W. unfold data_map. destruct (d_dmap d); [auto|]. destruct (pair_table d) as [ps ds]. cbn [snd]. split; [|reflexivity].
    destruct W as [[] ? ? ? ? ? ?]. constructor; [constructor|..]; assumption.
  Qed.

  Lemma history_graph d g : history d g -> wf d /\ same_graph (graph_of d) g /\ 0 < nsites d.
  Proof.
    induction 1 as [indices positions neighbors distances n dim m values d Hn Ri Rp Rn Rd Hinf Hincl Hlen Hlt E
      |d g idx reverse d' _ [W [S N]] HP E|d g _ [W [S N]]|d g _ [W [S N]]|d g i j v d' _ [W [S N]] Hi Hj HPk Hfree Hv Hne E
      |d g e h w1 w2 w3 d' _ [W [S N]] _ [W' [S' N']] Hdim Hc Hpad Hlen E|d g entries d' _ [W [S N]] HL HF E|d g d' _ [W [S N]] E];
      try (pose proof (same_graph_length _ _ S) as L; rewrite graph_of_length in L).
    - destruct (set_graph _ _ _ _ n dim m d Hn Ri Rp Rn Rd Hinf (ex_intro _ values (conj Hincl Hlen)) Hlt E) as [W ->]. split; auto. split; [apply same_graph_refl|].
      destruct (data_set_spec indices positions neighbors distances n dim m Hn Ri Rp Rn Rd Hinf) as (d2 & E2 & _ & _ & EI & _).
      + destruct (create_lookup_table2 dleb deqb distances) as [vals ind] eqn:Et. simpl.
        destruct (C01_lookup_decodes_table dist dleb deqb dist_order dist_eq distances m vals ind Inf (proj2 Rd) Et) as [Hinc [Hval _]].
        apply Nat.le_trans with (length values); auto. apply NoDup_incl_length; [apply (strict_NoDup dleb); exact Hinc|].
        intros x Hx. apply Hincl. apply Hval in Hx. rewrite <- in_concat in Hx. auto.
      + rewrite E in E2. injection E2 as <-. unfold nsites. rewrite EI, (proj1 Ri). exact Hn.
    - rewrite <- L in HP. destruct (sort_graph d idx reverse d' W HP E) as [W2 E2]. split; auto. rewrite E2. split; [apply g_select_same; auto|].
      rewrite <- graph_of_length, E2. unfold g_select. rewrite map_length. destruct reverse; rewrite ?rev_length, (Permutation_length HP), seq_length; auto.
    - destruct (sort_neighbors_graph argsort_d d argsort_d_ok W) as [W2 S2]. split; auto. split; [eapply same_graph_trans; eauto|exact N].
    - destruct (data_map_graph d W) as [W2 E2]. split; auto. rewrite E2. split; auto. rewrite <- graph_of_length, E2, graph_of_length. exact N.
    - rewrite <- L in Hi, Hj. destruct (add_graph d i j v d' W Hi Hj HPk Hfree Hv Hne E) as [W2 E2]. split; auto. rewrite <- graph_of_length, E2. split.
      + apply g_at_same; auto. intros k es es' P. destruct (k =? i); auto. apply Permutation_app_tail. exact P.
      + unfold g_add. rewrite g_at_length, graph_of_length. exact N.
    - destruct (append_graph argsort_d w1 w2 w3 d e d' argsort_d_ok W W' Hdim N N' Hc Hpad Hlen E) as [W2 S2]. split; auto. split.
      + eapply same_graph_trans; [exact S2|]. apply g_union_same; auto.
      + rewrite <- graph_of_length, (same_graph_length _ _ S2). unfold g_union, g_plain. rewrite app_length, !map_length, !graph_of_length. lia.
    - destruct (periodic_graph d entries d' W HL HF E) as [W2 E2]. split; auto. rewrite <- graph_of_length, E2. split.
      + apply g_at_same; auto. intros k es es' P. apply Permutation_app_tail. apply Permutation_filter. exact P.
      + unfold g_periodic. rewrite g_at_length, graph_of_length. exact N.
    - unfold call_remove_periodic in E. destruct (_ =? _) in E; [|discriminate]. injection E as <-. destruct (remove_periodic_graph d W) as [W2 E2]. split; auto.
      rewrite E2. split; [|exact N]. apply g_at_same; auto. intros k es es' P. apply Permutation_filter. exact P.
  Qed.

  Lemma thinned_graph d g : thinned d g -> wf_core d /\ same_graph (g_plain (graph_of d)) g.
  Proof.
    induction 1 as [d g H|d g sites kept d' _ [W S] Hn Hlt Hs Hk E].
    - destruct (history_graph d g H) as [W [S _]]. split; [exact W|]. apply g_map_same; auto. intros. apply Permutation_map. auto.
    - pose proof (same_graph_length _ _ S) as L. unfold g_plain in L. rewrite map_length, graph_of_length in L. rewrite <- L in *.
      destruct (remove_graph d sites kept W Hn Hlt Hs Hk) as (d2 & E2 & W2 & E3). rewrite E in E2. injection E2 as <-. split; auto. rewrite E3. apply g_select_same. exact S.
  Qed.
End Histories.

Theorem C97_refinement :
  forall argsort_d argsort_n d g, is_argsort dleb argsort_d -> history argsort_d argsort_n d g ->
    wf d /\ nsites d = length g /\
    forall i, i < nsites d ->
      let x := nth i g no_node in
      nth i (d_indices d) [] = n_index x /\ nth i (d_positions d) [] = n_pos x /\
      Permutation (map edge_of (slots d i)) (n_edges x) /\
      exists ns ps, get_neighbors d i None None false = Some ns /\ Permutation ns (map e_to (n_edges x)) /\
        get_neighbors d i None (Some true) false = Some ps /\ Permutation ps (map e_to (filter e_per (n_edges x))).
Proof.
  intros argsort_d argsort_n d g Ha H. destruct (history_graph _ _ Ha d g H) as [W [S _]]. split; [exact W|].
  pose proof (same_graph_length _ _ S) as L. rewrite graph_of_length in L. split; [exact L|]. intros i Hi x.
  pose proof (same_graph_nth _ _ i S) as K. rewrite graph_of_nth in K by exact Hi. destruct K as [A [B C]]. cbn [n_index n_pos n_edges] in A, B, C. fold x in A, B, C.
  split; auto. split; auto. split; auto. rewrite !get_neighbors_wf by (auto; discriminate). eexists. eexists. split; [reflexivity|]. split; [|split; [reflexivity|]].
  - rewrite <- C, map_map. unfold slots, valid_slots. rewrite map_map. apply eq_Permutation. unfold selects.
    match goal with |- map _ (filter ?f _) = _ => rewrite (filter_ext f (valid d i)) end; [reflexivity|]. intro c. rewrite !andb_true_r. reflexivity.
  - rewrite <- (Permutation_filter e_per _ _ C). rewrite map_filter_comm, map_map. unfold slots, valid_slots. rewrite map_filter_comm, filter_filter, map_map.
    apply eq_Permutation. match goal with |- map _ (filter ?f _) = map _ (filter ?h _) => rewrite (filter_ext f h) end; [reflexivity|].
    intro c. unfold selects, edge_of, slot_at. cbn [e_per s_per]. destruct (valid d i c), (pm d i c); reflexivity.
Qed.

Theorem C97_removed :
  forall argsort_d argsort_n d g, is_argsort dleb argsort_d -> thinned argsort_d argsort_n d g ->
    wf_core d /\ nsites d = length g /\
    forall i, i < nsites d ->
      let x := nth i g no_node in
      nth i (d_indices d) [] = n_index x /\ nth i (d_positions d) [] = n_pos x /\
      Permutation (links d i) (map (fun e => (e_to e, e_dist e)) (n_edges x)) /\
      exists ns, get_neighbors d i None None false = Some ns /\ Permutation ns (map e_to (n_edges x)).
Proof.
  intros argsort_d argsort_n d g Ha H. destruct (thinned_graph _ _ Ha d g H) as [W S]. split; [exact W|].
  pose proof (same_graph_length _ _ S) as L. unfold g_plain in L. rewrite map_length, graph_of_length in L. split; [exact L|]. intros i Hi x.
  pose proof (same_graph_nth _ _ i S) as K. unfold g_plain in K. rewrite (map_node _ _ _ no_node) in K by (rewrite graph_of_length; exact Hi).
  rewrite graph_of_nth in K by exact Hi. destruct K as [A [B C]]. cbn [n_index n_pos n_edges change_edges] in A, B, C. fold x in A, B, C.
  split; auto. split; auto. rewrite <- links_plain in C.
  assert (Permutation (links d i) (map (fun e => (e_to e, e_dist e)) (n_edges x))) as P.
  { rewrite <- (Permutation_map _ C), map_map. cbn. apply eq_Permutation. symmetry. erewrite map_ext; [apply map_id|]. intros [? ?]; reflexivity. }
  split; [exact P|]. rewrite C40_all_neighbors by auto. eexists. split; [reflexivity|].
  rewrite filter_all by auto. rewrite (Permutation_map fst P), map_map. reflexivity.
Qed.

(** Connections go both ways, and the operations keep it so. *)
Definition both_ways (entries : list (nat * list pneighbor)) : Prop :=
  forall i p, In p (given entries i) -> exists p', In p' (given entries (pn_idx p)) /\ pn_idx p' = i /\ pn_dist p' = pn_dist p.

Lemma out_of_range g i e : In e (n_edges (nth i g no_node)) -> i < length g.
Proof. intro H. destruct (Nat.lt_ge_cases i (length g)); auto. rewrite nth_overflow in H by auto. destruct H. Qed.

Lemma undirected_select l g : NoDup l -> undirected g -> undirected (g_select l g).
Proof.
  intros Hn U i j x p H. assert (i < length l) as Hi by (apply out_of_range in H; unfold g_select in H; rewrite map_length in H; exact H).
  unfold g_select in H. rewrite (map_node _ _ _ 0) in H by exact Hi. cbn [change_edges n_edges] in H. unfold among in H. apply in_flat_map in H. destruct H as [e [He H]].
  destruct (place l (e_to e)) as [k|] eqn:Ek; [|destruct H]. destruct H as [H|[]]. injection H as -> <- <-. apply (place_spec l _ Hn) in Ek.
  assert (j < length l) as Hj by (eapply nth_error_length_lt; eauto). unfold g_select. rewrite (map_node _ _ _ 0) by exact Hj.
  rewrite (nth_error_nth _ _ 0 Ek). cbn [change_edges n_edges]. unfold among. apply in_flat_map. destruct e as [t y q]. apply U in He. eexists. split; [exact He|].
  cbn. rewrite place_nth by auto. left. reflexivity.
Qed.

Lemma undirected_plain g : undirected g -> undirected (g_plain g).
Proof.
  intros U i j x p H. assert (i < length g) as Hi by (apply out_of_range in H; unfold g_plain in H; rewrite map_length in H; exact H).
  unfold g_plain in *. rewrite (map_node _ _ _ no_node) in H by exact Hi. cbn [change_edges n_edges] in H. apply in_map_iff in H. destruct H as [[t y q] [E H]].
  injection E as -> -> <-. apply U in H. pose proof (out_of_range _ _ _ H) as Hj. rewrite (map_node _ _ _ no_node) by exact Hj. cbn [change_edges n_edges].
  apply in_map_iff. eexists. split; [|exact H]. reflexivity.
Qed.

Lemma undirected_union g h : undirected g -> undirected h -> undirected (g_union g h).
Proof.
  intros U V. apply undirected_plain in U, V. unfold g_union. assert (length (g_plain g) = length g) as Lg by apply map_length.
  rewrite <- Lg. clear Lg. generalize dependent (g_plain g). generalize dependent (g_plain h). clear g h. intros h V g U i j x p H.
  destruct (Nat.lt_ge_cases i (length g)) as [Hi|Hi].
  - rewrite app_nth1 in H by auto. apply U in H. rewrite app_nth1 by (eapply out_of_range; eauto). exact H.
  - rewrite app_nth2 in H by auto. pose proof (out_of_range _ _ _ H) as Hl. rewrite map_length in Hl. rewrite (map_node _ _ _ no_node) in H by exact Hl.
    cbn [change_edges n_edges] in H. apply in_map_iff in H. destruct H as [[t y q] [E H]]. injection E as <- -> ->. apply V in H. cbn [e_to].
    rewrite app_nth2 by lia. replace (length g + t - length g) with t by lia. rewrite (map_node _ _ _ no_node) by (eapply out_of_range; eauto).
    cbn [change_edges n_edges]. apply in_map_iff. eexists. split; [|exact H]. unfold shift. cbn. f_equal. lia.
Qed.

Lemma undirected_pair g i j x : i < length g -> j < length g -> undirected g -> undirected (g_add j i x (g_add i j x g)).
Proof.
  intros Hi Hj U. unfold g_add.
  assert (forall k, k < length g -> n_edges (nth k (g_at (fun k es => if k =? j then es ++ [mkEdge i x false] else es) (g_at (fun k es => if k =? i then es ++ [mkEdge j x false] else es) g)) no_node) =
     n_edges (nth k g no_node) ++ (if k =? i then [mkEdge j x false] else []) ++ (if k =? j then [mkEdge i x false] else [])) as HE.
  { intros k Hk. rewrite !g_at_nth by (rewrite ?g_at_length; auto). cbn [change_edges n_edges]. destruct (k =? i), (k =? j); rewrite ?app_nil_r, <- ?app_assoc; reflexivity. }
  intros a b y p H. pose proof (out_of_range _ _ _ H) as Ha. rewrite !g_at_length in Ha. rewrite HE in H by exact Ha. apply in_app_or in H. destruct H as [H|H].
  - apply U in H. rewrite HE by (eapply out_of_range; eauto). apply in_or_app. auto.
  - apply in_app_or in H. destruct H as [H|H].
    + destruct (Nat.eqb_spec a i) as [->|]; [|destruct H]. destruct H as [H|[]]. injection H as <- <- <-. rewrite HE by auto. rewrite Nat.eqb_refl. rewrite !in_app_iff. cbn. auto.
    + destruct (Nat.eqb_spec a j) as [->|]; [|destruct H]. destruct H as [H|[]]. injection H as <- <- <-. rewrite HE by auto. rewrite Nat.eqb_refl. rewrite !in_app_iff. cbn. auto.
Qed.

Lemma undirected_periodic g entries : (forall i p, In p (given entries i) -> i < length g /\ pn_idx p < length g) -> both_ways entries ->
  undirected g -> undirected (g_periodic entries g).
Proof.
  intros Hr HB U i j x p H. assert (i < length g) as Hi by (apply out_of_range in H; unfold g_periodic in H; rewrite g_at_length in H; exact H).
  unfold g_periodic in H. rewrite g_at_nth in H by exact Hi. cbn [change_edges n_edges] in H. apply in_app_or in H. destruct H as [H|H].
  - unfold regular in H. apply filter_In in H. destruct H as [H Hp]. apply U in H. unfold g_periodic. rewrite g_at_nth by (eapply out_of_range; eauto).
    cbn [change_edges n_edges]. apply in_or_app. left. apply filter_In. auto.
  - apply in_map_iff in H. destruct H as [q [E H]]. injection E as <- <- <-. change (In q (given entries i)) in H. destruct (HB i q H) as [q' [H' [E1 E2]]].
    unfold g_periodic. rewrite g_at_nth by (eapply Hr; eauto). cbn [change_edges n_edges]. apply in_or_app. right. apply in_map_iff. exists q'. rewrite E1, E2. auto.
Qed.

Lemma undirected_regular g : undirected g -> undirected (g_regular g).
Proof.
  intros U i j x p H. assert (i < length g) as Hi by (apply out_of_range in H; unfold g_regular in H; rewrite g_at_length in H; exact H).
  unfold g_regular in *. rewrite g_at_nth in H by exact Hi. cbn [change_edges n_edges] in H. unfold regular in H. apply filter_In in H. destruct H as [H Hp].
  apply U in H. rewrite g_at_nth by (eapply out_of_range; eauto). cbn [change_edges n_edges]. apply filter_In. auto.
Qed.

Theorem C97_undirected :
  (forall l g, NoDup l -> undirected g -> undirected (g_select l g)) /\
  (forall g h, undirected g -> undirected h -> undirected (g_union g h)) /\
  (forall g i j x, i < length g -> j < length g -> undirected g -> undirected (g_add j i x (g_add i j x g))) /\
  (forall g entries, (forall i p, In p (given entries i) -> i < length g /\ pn_idx p < length g) -> both_ways entries ->
     undirected g -> undirected (g_periodic entries g)) /\
  (forall g, undirected g -> undirected (g_regular g)) /\
  (* what it means for the data *)
  (forall argsort_d argsort_n d g, is_argsort dleb argsort_d -> thinned argsort_d argsort_n d g -> undirected g ->
     forall i j x, i < nsites d -> j < nsites d -> In (j, x) (links d i) <-> In (i, x) (links d j)).
Proof.
  split; [exact undirected_select|]. split; [exact undirected_union|]. split; [exact (fun g i j x => undirected_pair g i j x)|]. split; [exact undirected_periodic|].
  split; [exact undirected_regular|]. intros argsort_d argsort_n d g Ha H U. destruct (C97_removed argsort_d argsort_n d g Ha H) as [_ [_ K]].
  assert (forall i j x, i < nsites d -> j < nsites d -> In (j, x) (links d i) -> In (i, x) (links d j)) as HK.
  { intros i j x Hi Hj Hl. destruct (K i Hi) as (_ & _ & P & _). destruct (K j Hj) as (_ & _ & P' & _).
    apply (Permutation_in _ P) in Hl. apply in_map_iff in Hl. destruct Hl as [[t y q] [E Hl]]. injection E as -> ->. apply U in Hl.
    apply (Permutation_in _ (Permutation_sym P')). apply in_map_iff. eexists. split; [|exact Hl]. reflexivity. }
  intros i j x Hi Hj. split; apply HK; auto.
Qed.

(** Two chains of three sites are put side by side, joined, numbered backwards; the second site is removed. *)
Definition got_data (o : option data) : data := match o with Some d => d | None => chain3 end.
Definition six0 : data := Eval vm_compute in got_data (append_data dist_argsort uint8 uint8 uint8 chain3 chain3).
Definition six1 : data := Eval vm_compute in got_data (add_neighbor six0 2 3 (Fin 1000000)).
Definition six2 : data := Eval vm_compute in got_data (add_neighbor six1 3 2 (Fin 1000000)).
Definition six3 : data := Eval vm_compute in got_data (sort six2 None (Some [0; 1; 2; 3; 4; 5]) true).
Definition five : data := Eval vm_compute in got_data (remove six3 [1]).

Example C97_example :
  exists g g', history dist_argsort nat_argsort six3 g /\ undirected g /\ thinned dist_argsort nat_argsort five g' /\
    map (fun x => map e_to (n_edges x)) g = [[1]; [2; 0]; [1; 3]; [4; 2]; [5; 3]; [4]] /\
    map (fun x => map e_to (n_edges x)) g' = [[]; [2]; [3; 1]; [4; 2]; [3]] /\
    map (fun i => get_neighbors five i None None false) [0; 1; 2; 3; 4] = [Some []; Some [2]; Some [3; 1]; Some [4; 2]; Some [3]].
Proof.
  assert (history dist_argsort nat_argsort chain3 (graph_of_tables chain3_indices chain3_positions chain3_neighbors chain3_distances)) as R0.
  { apply (h_set _ _ chain3_indices chain3_positions chain3_neighbors chain3_distances 3 1 2 [Fin 1000000; Inf]).
    - lia.
    - split; [reflexivity|]. simpl. intuition (subst; reflexivity).
    - split; [reflexivity|]. simpl. intuition (subst; reflexivity).
    - split; [reflexivity|]. simpl. intuition (subst; reflexivity).
    - split; [reflexivity|]. simpl. intuition (subst; reflexivity).
    - simpl. auto.
    - intros x Hx. simpl in *. intuition.
    - simpl. lia.
    - intros i c Hi Hc. destruct i as [|[|[|]]]; try lia; destruct c as [|[|]]; try lia;
        unfold cell; simpl; intro H; try lia; congruence.
    - exact chain3_set. }
  set (g0 := graph_of_tables _ _ _ _) in R0.
  assert (history dist_argsort nat_argsort six0 (g_union g0 g0)) as R1.
  { apply (h_append _ _ chain3 g0 chain3 g0 uint8 uint8 uint8 six0 R0 R0 eq_refl); [cbn; lia| |cbn; lia|reflexivity].
    left. exists 0, 1. split; [unfold nsites; simpl; lia|]. split; [simpl; lia|reflexivity]. }
  assert (history dist_argsort nat_argsort six1 (g_add 2 3 (Fin 1000000) (g_union g0 g0))) as R2.
  { apply (h_add _ _ six0 _ 2 3 (Fin 1000000) six1 R1); [cbn; lia|cbn; lia| |exists 1; split; [cbn; lia|reflexivity]|cbn; auto|discriminate|reflexivity].
    exists 1. split; [cbn; lia|]. intros c Hc. destruct c as [|[|c]]; [reflexivity|reflexivity|cbn in Hc; lia]. }
  assert (history dist_argsort nat_argsort six2 (g_add 3 2 (Fin 1000000) (g_add 2 3 (Fin 1000000) (g_union g0 g0)))) as R3.
  { apply (h_add _ _ six1 _ 3 2 (Fin 1000000) six2 R2); [cbn; lia|cbn; lia| |exists 1; split; [cbn; lia|reflexivity]|cbn; auto|discriminate|reflexivity].
    exists 1. split; [cbn; lia|]. intros c Hc. destruct c as [|[|c]]; [reflexivity|reflexivity|cbn in Hc; lia]. }
  pose proof (h_sort _ _ six2 _ [0; 1; 2; 3; 4; 5] true six3 R3 (Permutation_refl _) eq_refl) as R4. cbn [rev app] in R4.
  set (g4 := g_select _ _) in R4.
  assert (undirected g0) as U0.
  { intros i j x p H. pose proof (out_of_range _ _ _ H) as Hi. cbn in Hi. destruct i as [|[|[|]]]; try lia; cbn in H; repeat (destruct H as [H|H]; [injection H as <- <- <-; cbn; auto|]); destruct H. }
  assert (undirected g4) as U4.
  { destruct C97_undirected as (US & UU & UP & _). apply US; [repeat constructor; cbn; intuition lia|]. apply UP; [cbn; lia|cbn; lia|]. apply UU; exact U0. }
  exists g4. eexists. split; [exact R4|]. split; [exact U4|]. split.
  - apply (t_remove _ _ six3 (g_plain g4) [1] [0; 2; 3; 4; 5] five (t_history _ _ _ _ R4)).
    + repeat constructor; auto.
    + intros s [<-|[]]. cbn. lia.
    + repeat constructor.
    + intro i. assert (length (g_plain g4) = 6) as -> by reflexivity. cbn. lia.
    + reflexivity.
  - split; [reflexivity|]. split; vm_compute; reflexivity.
Qed.

Print Assumptions C97_refinement.
Print Assumptions C97_removed.
Print Assumptions C97_undirected.
