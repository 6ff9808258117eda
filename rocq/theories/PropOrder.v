(** * Property C94 (lattpy/spatial.py, structure.py, lattice.py: the order of the sites; moved lattices) *)
From Coq Require Import List ZArith QArith Qround Qminmax Bool Arith Lia Lqa Permutation Sorting.Sorted.
From Verif Require Import Np NpFacts UtilsModel UtilsProofs LinAlg LinFacts SpecUtils SpecBasis SpecSpatial BasisModel BasisProofs
  NeighborCellProofs SpatialModel SpatialProofs PropBasis PropSpatial ShapeModel KDProofs ShapeProofs PropShape SpecStructure SpecBuild StructureModel
  StructureFacts AnalyzeProofs BuildProofs SpecVoronoi PropHull PropBuild PropVrange DataModel SpecData KDBrute RoundFacts
  StructureProofs PropStructure PropAnalyze SpecNeighbors PropNeighbors PropFailed PropData SpecGrid LatticeModel LatticeExamples PropBuilt SpecOrder.
Import ListNotations.
Open Scope nat_scope.
Open Scope list_scope.

(** ** The order of vindices *)

Lemma before_irrefl u : ~ before u u.
Proof. intros [_ [k [_ [_ H]]]]. lia. Qed.

Lemma before_trans u v w : before u v -> before v w -> before u w.
Proof.
  intros [L1 [k [Hk [H1 H2]]]] [L2 [j [Hj [H3 H4]]]]. split; [congruence|]. exists (Nat.min k j). split; [lia|]. split.
  - intros l Hl. rewrite H1 by lia. apply H3. lia.
  - destruct (lt_eq_lt_dec k j) as [[E|E]|E].
    + rewrite Nat.min_l by lia. rewrite <- (H3 k E). exact H2.
    + subst j. rewrite Nat.min_id. lia.
    + rewrite Nat.min_r by lia. rewrite (H1 j E). exact H4.
Qed.

Lemma before_app n n' a a' : before n n' -> before (n ++ [a]) (n' ++ [a']).
Proof.
  intros [L [k [Hk [H1 H2]]]]. split; [rewrite !app_length; cbn; lia|]. exists k. split; [rewrite app_length; lia|]. split.
  - intros l Hl. rewrite !app_nth1 by lia. auto.
  - rewrite !app_nth1 by lia. exact H2.
Qed.

Lemma before_last n a a' : (a < a')%Z -> before (n ++ [a]) (n ++ [a']).
Proof.
  intro H. split; [rewrite !app_length; reflexivity|]. exists (length n). split; [rewrite app_length; cbn; lia|]. split.
  - intros l Hl. rewrite !app_nth1 by lia. reflexivity.
  - rewrite !app_nth2 by lia. rewrite Nat.sub_diag. exact H.
Qed.

Lemma zrange_sorted lo hi : StronglySorted Z.lt (zrange lo hi).
Proof. unfold zrange. apply ss_map. apply (ss_impl lt); [intros; lia|apply ss_seq]. Qed.

Lemma product_before (axes : list (list Z)) : (forall l, In l axes -> StronglySorted Z.lt l) -> StronglySorted before (product axes).
Proof.
  induction axes as [|l axes IH]; intro H; cbn [product]; [repeat constructor|].
  assert (forall u, In u (product axes) -> length u = length axes) as Hlen.
  { intros u Hu. apply In_product in Hu. apply F2_len in Hu. auto. }
  specialize (IH (fun m Hm => H m (or_intror Hm))). specialize (H l (or_introl eq_refl)).
  induction H as [|x l Hl IHl Hf]; cbn [flat_map]; [constructor|]. apply ss_app; [|exact IHl|].
  - apply ss_map. apply (ss_impl before); [|exact IH]. intros u v _ _ [L [k [Hk [He Ha]]]]. split; [cbn; lia|]. exists (S k). cbn [length nth]. split; [lia|].
    split; [|exact Ha]. intros [|j] Hj; cbn [nth]; [reflexivity|]. apply He. lia.
  - intros u v Hu Hv. apply in_map_iff in Hu. destruct Hu as [u' [<- Hu]]. apply in_flat_map in Hv. destruct Hv as [y [Hy Hv]].
    apply in_map_iff in Hv. destruct Hv as [v' [<- Hv]]. rewrite Forall_forall in Hf. specialize (Hf y Hy). split; [cbn; rewrite !Hlen; auto|].
    exists 0. cbn [length nth]. split; [lia|]. split; [intros; lia|exact Hf].
Qed.

(** vindices lists the grid by the chosen axis and in dictionary order where it agrees (with [sort_axis=None] in dictionary
    order): together with C16 this determines the result. *)
Theorem C94_order_of_vindices :
  forall limits axis w,
    limits <> [] -> (forall l, In l limits -> (fst l <= snd l)%Z) ->
    (forall a, axis = Some a -> a < length limits) ->
    width_of (flat_map (fun l => [fst l; snd l]) limits) w ->
    (forall l, In l limits -> (snd l - fst l <= 2 ^ (w - 1))%Z) ->
    exists vs, vindices limits axis = Some vs /\ StronglySorted (before_along axis) vs.
Proof.
  intros limits axis w Hne Hle Hax Hw Hext.
  assert (0 < w)%Z as Hw0 by (destruct Hw as [Hm _]; unfold machine_width in Hm; simpl in Hm; lia).
  rewrite (vindices_unfold limits axis w) by assumption. eexists. split; [reflexivity|].
  assert (StronglySorted before (product (map (axis_values w) limits))) as Hs.
  { apply product_before. intros l Hl. apply in_map_iff in Hl. destruct Hl as [x [<- Hx]]. rewrite axis_values_fit by auto. apply zrange_sorted. }
  destruct axis as [a|]; [|exact Hs].
  pose proof (sort_stable_ties (axis_leb a) before _ (axis_leb_total a) (axis_leb_trans a) Hs) as H.
  apply (ss_impl (fun u v => axis_leb a u v = true /\ (axis_leb a v u = true -> before u v))); [|exact H].
  intros u v _ _ [H1 H2]. unfold axis_leb in *. apply Z.leb_le in H1. cbn [before_along].
  destruct (Z.eq_dec (nth a u 0%Z) (nth a v 0%Z)) as [E|E]; [right; split; [exact E|]; apply H2; apply Z.leb_le; lia|left; lia].
Qed.

Example C94_order_of_vindices_example :
  let limits := [(-1, 2); (0, 2)]%Z in
  limits <> [] /\ (forall l, In l limits -> (fst l <= snd l)%Z) /\ width_of (flat_map (fun l => [fst l; snd l]) limits) 8 /\
  (forall l, In l limits -> (snd l - fst l <= 2 ^ (8 - 1))%Z) /\
  vindices limits (Some 1) = Some [[-1; 0]; [0; 0]; [1; 0]; [-1; 1]; [0; 1]; [1; 1]]%Z /\
  vindices limits None = Some [[-1; 0]; [-1; 1]; [0; 0]; [0; 1]; [1; 0]; [1; 1]]%Z.
Proof.
  cbv zeta. split; [discriminate|]. split; [intros l [<-|[<-|[]]]; cbn; lia|]. split.
  - split; [left; reflexivity|]. split.
    + intros x Hx. cbn in Hx. unfold fits_signed. cbn. lia.
    + intros w' Hm _. unfold machine_width in Hm. cbn in Hm. lia.
  - split; [intros l [<-|[<-|[]]]; cbn; lia|]. split; vm_compute; reflexivity.
Qed.

(** ** The order of the sites *)

(** The ranges of the cells that are searched. *)
Definition searched (b : basis) (norms : list Q) (sh : shape_arg) (primitive : bool) (pos : option (list Q)) : list (Z * Z) :=
  let (lower, size) := requested_box b sh pos in
  nvec_limits b lower (if primitive then vsub (map2 Qmult size (max_vectors b)) (vscale (1#10) norms) else size) 0.

Lemma before_0 u v : (nth 0 u 0 < nth 0 v 0)%Z -> length u = length v -> u <> [] -> before u v.
Proof. intros H L Hu. split; auto. exists 0. split; [destruct u; [congruence|cbn; lia]|]. split; [intros; lia|auto]. Qed.

Lemma cells_before b norms sh primitive pos cells : valid_basis b -> (primitive = true -> length norms = b_dim b) ->
  no_wrap (searched b norms sh primitive pos) ->
  build_translation_vectors b norms sh primitive pos false 0 = Ok cells -> StronglySorted before cells.
Proof.
  intros Hb Hnorms Hwrap E. destruct (cells_any _ _ _ _ _ _ Hb Hnorms E) as [_ [_ Hlen]]. revert E.
  rewrite build_cells_eq. unfold searched in Hwrap. destruct (requested_box b sh pos) as [lower size].
  destruct (length size =? b_dim b) eqn:E1; cbn [negb]; [|discriminate]. cbv zeta.
  set (L := nvec_limits _ _ _ _) in *.
  destruct (length lower =? b_dim b) eqn:E2; cbn [negb]; [|discriminate].
  destruct (vindices L (Some 0)) as [vs|] eqn:Ev; [|discriminate]. intro E. injection E as <-.
  destruct Hwrap as [w [Hw Hext]].
  assert (L <> [] /\ existsb (fun l => snd l - fst l <? 0)%Z L = false) as [Hne Hle].
  { unfold vindices in Ev. destruct (min_dtype _ _) eqn:Em; [|discriminate].
    destruct (existsb _ L) eqn:Ex; [discriminate|]. split; auto. intro El. rewrite El in Em. discriminate. }
  destruct (C94_order_of_vindices L (Some 0) w Hne) as [vs' [E' Hs]]; auto.
  - intros l Hl. destruct (Z_lt_le_dec (snd l) (fst l)) as [G|G]; auto. exfalso.
    assert (existsb (fun l => snd l - fst l <? 0)%Z L = true) as X by (apply existsb_exists; exists l; split; auto; apply Z.ltb_lt; lia). congruence.
  - intros a Ea. injection Ea as <-. destruct L; [congruence|cbn; lia].
  - assert (vs' = vs) by congruence. subst vs'. apply (ss_impl (before_along (Some 0))); [|exact Hs].
    intros u v Hu Hv [H|[_ H]]; auto. pose proof (Hlen u Hu) as Lu. pose proof (Hlen v Hv) as Lv. apply before_0; auto; [congruence|].
    intros ->. cbn in Lu. destruct v; [|cbn in Lv; lia]. cbn in H. lia.
Qed.

Lemma sites_before N cells : StronglySorted before cells -> StronglySorted before (cell_sites N cells).
Proof.
  intro H. unfold cell_sites. induction H as [|n cells Hs IH Hf]; cbn [flat_map]; [constructor|]. apply ss_app; [|exact IH|].
  - apply ss_map. apply (ss_impl lt); [|apply ss_seq]. intros a c _ _ Hac. apply before_last. lia.
  - intros u v Hu Hv. apply in_map_iff in Hu. destruct Hu as [a [<- _]]. apply in_flat_map in Hv. destruct Hv as [n' [Hn' Hv]].
    apply in_map_iff in Hv. destruct Hv as [a' [<- _]]. rewrite Forall_forall in Hf. apply before_app. auto.
Qed.

Lemma sublist_ss {A} (R : A -> A -> Prop) l m : sublist l m -> StronglySorted R l -> StronglySorted R m.
Proof.
  assert (forall l m, sublist l m -> forall x : A, In x m -> In x l) as Hin.
  { induction 1; cbn; auto. intros y [->|Hy]; auto. }
  induction 1 as [|x l m H IH|x l m H IH]; intro Hs; auto.
  - inversion Hs as [|? ? Hs' Hf]; subst. constructor; auto. rewrite Forall_forall in *. intros y Hy. apply Hf. eapply Hin; eauto.
  - inversion Hs; auto.
Qed.

(** The sites of a build are in dictionary order, the atom being the last component. *)
Theorem C94_order_of_sites :
  forall b norms R sh primitive pos check callback I P,
    valid_basis b -> (primitive = true -> length norms = b_dim b) -> (forall r, In r R -> length r = b_dim b) ->
    no_wrap (searched b norms sh primitive pos) ->
    build_indices b norms R sh primitive pos check callback = Ok (I, P) -> StronglySorted before I.
Proof.
  intros b norms R sh primitive pos check callback I P Hb Hn HR Hw H.
  destruct (C31_indices_and_positions_aligned _ _ _ _ _ _ _ _ _ _ Hb Hn HR H) as [_ [_ [cells [Ec [_ [_ Hsub]]]]]].
  eapply sublist_ss; [exact Hsub|]. apply sites_before. eapply cells_before; eauto.
Qed.

(** Two strictly ordered lists with the same elements are equal. *)
Lemma ordered_unique (l : list (list Z)) : forall m, StronglySorted before l -> StronglySorted before m ->
  (forall x, In x l <-> In x m) -> l = m.
Proof.
  induction l as [|x l IH]; intros [|y m] Hl Hm H; auto.
  - destruct (proj2 (H y) (or_introl eq_refl)).
  - destruct (proj1 (H x) (or_introl eq_refl)).
  - inversion Hl as [|? ? Hl' Hx]; subst. inversion Hm as [|? ? Hm' Hy]; subst. rewrite Forall_forall in Hx, Hy.
    assert (x = y) as ->.
    { destruct (proj1 (H x) (or_introl eq_refl)) as [E|E]; auto. destruct (proj2 (H y) (or_introl eq_refl)) as [E'|E']; auto.
      exfalso. apply (before_irrefl x). eapply before_trans; [apply Hx; exact E'|apply Hy; exact E]. }
    f_equal. apply IH; auto. intro z. split; intro Hz.
    + destruct (proj1 (H z) (or_intror Hz)) as [<-|E]; auto. exfalso. apply (before_irrefl y). auto.
    + destruct (proj2 (H z) (or_intror Hz)) as [<-|E]; auto. exfalso. apply (before_irrefl y). auto.
Qed.

(** The tables depend only on the set of the sites, not on how the size, the position, the shape and the filters select
    them. *)
Theorem C94_same_sites_same_tables :
  forall b norms norms' R sh sh' primitive primitive' pos pos' check check' callback callback' I P I' P',
    valid_basis b -> (primitive = true -> length norms = b_dim b) -> (primitive' = true -> length norms' = b_dim b) ->
    (forall r, In r R -> length r = b_dim b) ->
    no_wrap (searched b norms sh primitive pos) -> no_wrap (searched b norms' sh' primitive' pos') ->
    build_indices b norms R sh primitive pos check callback = Ok (I, P) ->
    build_indices b norms' R sh' primitive' pos' check' callback' = Ok (I', P') ->
    (forall s, In s I <-> In s I') ->
    I = I' /\ Forall2 same P P'.
Proof.
  intros b norms norms' R sh sh' primitive primitive' pos pos' check check' callback callback' I P I' P' Hb Hn Hn' HR Hw Hw' H H' Hset.
  assert (I = I') as <-.
  { apply ordered_unique; auto.
    - eapply C94_order_of_sites; [exact Hb|exact Hn|exact HR|exact Hw|exact H].
    - eapply C94_order_of_sites; [exact Hb|exact Hn'|exact HR|exact Hw'|exact H']. }
  split; auto.
  destruct (C31_indices_and_positions_aligned _ _ _ _ _ _ _ _ _ _ Hb Hn HR H) as [L [A _]].
  destruct (C31_indices_and_positions_aligned _ _ _ _ _ _ _ _ _ _ Hb Hn' HR H') as [L' [A' _]].
  assert (forall k p p', nth_error P k = Some p -> nth_error P' k = Some p' -> same p p') as Hk.
  { intros k p p' Hp Hp'. destruct (nth_error_lt I k) as [s Hs].
    - rewrite L. apply nth_error_length_lt in Hp. exact Hp.
    - destruct (A k s p Hs Hp) as [n [a [r [E1 [_ [E2 E3]]]]]]. destruct (A' k s p' Hs Hp') as [n' [a' [r' [E1' [_ [E2' E3']]]]]].
      assert (n ++ [Z.of_nat a] = n' ++ [Z.of_nat a']) as E by congruence. apply app_inj_tail in E. destruct E as [<- Ea]. apply Nat2Z.inj in Ea. subst a'.
      assert (r' = r) by congruence. subst r'. apply same_veq. eapply veq_trans; [apply same_veq; exact E3|]. apply veq_sym. apply same_veq. exact E3'. }
  assert (length P = length P') as LP by congruence. clear -Hk LP. revert P' LP Hk.
  induction P as [|p P IH]; intros [|p' P'] LP Hk; try discriminate; constructor.
  - apply (Hk 0); reflexivity.
  - apply IH; [injection LP; auto|]. intros k q q' Hq Hq'. apply (Hk (S k)); auto.
Qed.

Lemma box_at_ok : no_wrap (searched skew [] (ASize [1; 1]%Q) false None) /\ no_wrap (searched skew [] (AShape (SBox [2; 1]%Q [0; 0]%Q)) false None).
Proof.
  split; (exists 8%Z; split; [apply width8|]); vm_compute; intros x H; repeat (destruct H as [<-|H]; [(split; discriminate) || discriminate|]); destruct H.
Qed.

(** Sites with two atoms on a skewed basis, from a size and from a box that is cut down by a callback. *)
Example C94_order_of_sites_example :
  let R := [[0; 0]; [1#2; 1#3]]%Q in
  valid_basis skew /\ (forall r, In r R -> length r = b_dim skew) /\
  no_wrap (searched skew [] (ASize [1; 1]%Q) false None) /\ no_wrap (searched skew [] (AShape (SBox [2; 1]%Q [0; 0]%Q)) false None) /\
  (exists P, build_indices skew [] R (ASize [1; 1]%Q) false None true None = Ok ([[0; 0; 0]; [0; 0; 1]; [0; 1; 0]; [1; 0; 0]]%Z, P)) /\
  (exists P, build_indices skew [] R (AShape (SBox [2; 1]%Q [0; 0]%Q)) false None true (Some (fun _ ps => map (fun p => Qle_bool (nth 0 p 0%Q) 1) ps)) =
     Ok ([[0; 0; 0]; [0; 0; 1]; [0; 1; 0]; [1; 0; 0]]%Z, P)).
Proof.
  cbv zeta. split; [exact skew_valid|]. split; [intros r [<-|[<-|[]]]; reflexivity|]. destruct box_at_ok as [H1 H2]. split; auto. split; auto.
  split; eexists; vm_compute; reflexivity.
Qed.


Lemma ss_next (l : list (list Z)) k : StronglySorted before l -> S k < length l -> before (nth k l []) (nth (S k) l []).
Proof.
  intro H. revert k. induction H as [|x l Hs IH Hf]; intros k Hk; cbn in Hk; [lia|]. destruct k as [|k]; cbn [nth].
  - rewrite Forall_forall in Hf. apply Hf. apply nth_In. lia.
  - apply IH. lia.
Qed.

Definition out_of_order (r : result (list (list Z) * list (list Q))) (k : nat) : bool :=
  match r with
  | Ok (J, _) => (S k <? length J) && (nth 0 (nth k J []) 0 =? nth 0 (nth (S k) J []) 0)%Z && (nth 1 (nth (S k) J []) 0 <? nth 1 (nth k J []) 0)%Z
  | Raise _ => false
  end.

(** Ranges longer than half of the integer type: the cells are not in order. *)
Theorem C94_wide_box_refuted :
  exists b size pos I P, valid_basis b /\
    build_indices b [] [[0; 0]%Q] (ASize size) false (Some pos) false None = Ok (I, P) /\ ~ StronglySorted before I.
Proof.
  exists (mkBasis [[1; 0]; [0; 1]]%Q [[1; 0]; [0; 1]]%Q), [0; 130]%Q, [0; -60]%Q.
  assert (out_of_order (build_indices (mkBasis [[1; 0]; [0; 1]]%Q [[1; 0]; [0; 1]]%Q) [] [[0; 0]%Q] (ASize [0; 130]%Q) false (Some [0; -60]%Q) false None) 127 = true)
    as H by (vm_compute; reflexivity).
  destruct (build_indices _ _ _ _ _ _ _ _) as [[I P]|e] eqn:E; [|discriminate]. exists I, P. split.
  - clear. split; [|split; [|split]].
    + split; [reflexivity|]. intros r [<-|[<-|[]]]; reflexivity.
    + split; [reflexivity|]. intros r [<-|[<-|[]]]; reflexivity.
    + intros [|[|i]] [|[|j]] Hi Hj; cbn in *; try lia; reflexivity.
    + intros [|[|i]] [|[|j]] Hi Hj; cbn in *; try lia; reflexivity.
  - split; [reflexivity|]. clear E. intro Hs. unfold out_of_order in H. apply andb_true_iff in H. destruct H as [H H3]. apply andb_true_iff in H. destruct H as [H1 H2].
    apply Nat.ltb_lt in H1. apply Z.eqb_eq in H2. apply Z.ltb_lt in H3. destruct (ss_next I 127 Hs H1) as [_ [k [_ [H4 H5]]]].
    destruct k as [|[|k]]; [lia|lia|]. specialize (H4 1). lia.
Qed.

(** ** Moved lattices *)

Definition mv (d : nat) (m s : list Z) : list Z := map (fun i => (nth i s 0 + nth i m 0)%Z) (seq 0 d) ++ [nth d s 0%Z].

Lemma mv_app d m n a : length n = d -> mv d m (n ++ [a]) = map (fun i => (nth i n 0 + nth i m 0)%Z) (seq 0 d) ++ [a].
Proof.
  intro L. unfold mv. rewrite app_nth2 by lia. rewrite L, Nat.sub_diag. f_equal. apply map_ext_in. intros i Hi. apply in_seq in Hi.
  rewrite app_nth1 by lia. reflexivity.
Qed.

Lemma moved_site_mv d m s t : moved_site d m s t <-> length s = S d /\ t = mv d m s.
Proof.
  split.
  - intros [n [a [L [-> ->]]]]. split; [rewrite app_length; cbn; lia|]. symmetry. apply mv_app. exact L.
  - intros [L ->]. destruct (exists_last (l := s)) as [n [a ->]]; [intros ->; discriminate|]. rewrite app_length in L. cbn in L.
    exists n, a. assert (length n = d) as Ln by lia. split; auto. split; auto. apply mv_app. exact Ln.
Qed.

Lemma nth_mv d m s k : k < S d -> length s = S d -> nth k (mv d m s) 0%Z = (nth k s 0 + if (k <? d)%nat then nth k m 0 else 0)%Z.
Proof.
  intros Hk L. unfold mv. destruct (Nat.ltb_spec k d) as [H|H].
  - rewrite app_nth1 by (rewrite map_length, seq_length; auto). rewrite (nth_map_in _ _ _ 0) by (rewrite seq_length; auto). rewrite seq_nth by auto. reflexivity.
  - rewrite app_nth2 by (rewrite map_length, seq_length; auto). rewrite map_length, seq_length. assert (k = d) as -> by lia. rewrite Nat.sub_diag. cbn. lia.
Qed.

Lemma mv_length d m s : length (mv d m s) = S d.
Proof. unfold mv. rewrite app_length, map_length, seq_length. cbn. lia. Qed.

Lemma before_mv d m s t : length s = S d -> before s t -> before (mv d m s) (mv d m t).
Proof.
  intros Ls [L [k [Hk [H1 H2]]]]. split; [rewrite !mv_length; auto|]. exists k. split; [rewrite mv_length; lia|].
  assert (length t = S d) as Lt by congruence. split.
  - intros l Hl. rewrite !nth_mv by lia. rewrite H1 by auto. reflexivity.
  - rewrite !nth_mv by lia. lia.
Qed.

Lemma moved_lattice_point d V m r n : length r = d ->
  moved_point d V m (lattice_point d V r n) (lattice_point d V r (map (fun i => (nth i n 0 + nth i m 0)%Z) (seq 0 d))).
Proof.
  intro Lr. split; [apply lattice_point_length|]. split; [apply lattice_point_length|]. intros i Hi.
  rewrite !nth_lattice_point by auto.
  assert (sum_upto d (fun k => entry V i k * inject_Z (nth k (map (fun i0 => (nth i0 n 0 + nth i0 m 0)%Z) (seq 0 d)) 0%Z)) ==
          sum_upto d (fun k => entry V i k * inject_Z (nth k n 0%Z)) + sum_upto d (fun k => entry V i k * inject_Z (nth k m 0%Z)))%Q as E.
  { rewrite <- sum_plus. apply sum_ext. intros k Hk. rewrite (nth_map_in _ _ _ 0) by (rewrite seq_length; auto). rewrite seq_nth by auto.
    change (0 + k) with k. rewrite inject_Z_plus. ring. }
  rewrite E. ring.
Qed.

Lemma moved_same d V m p p' q q' : same p p' -> same q q' -> moved_point d V m p q -> moved_point d V m p' q'.
Proof.
  intros [L1 H1] [L2 H2] [Lp [Lq H]]. split; [congruence|]. split; [congruence|]. intros i Hi. rewrite <- H2, H by auto.
  rewrite !nth_lattice_point by auto. rewrite H1. reflexivity.
Qed.

Lemma moved_sqdist d V m p q p' q' : moved_point d V m p p' -> moved_point d V m q q' -> (sqdist p q == sqdist p' q')%Q.
Proof.
  intros [L1 [L2 H]] [L3 [L4 H']]. unfold sqdist. rewrite L1, L2. apply sum_ext. intros i Hi. rewrite H, H' by auto. rewrite !nth_lattice_point by auto. ring.
Qed.

(** If the second build has the sites of the first one moved by a lattice vector, the tables are those of the first
    one, row by row, moved by it. *)
Theorem C94_moved_sites :
  forall b norms norms' R sh sh' primitive primitive' pos pos' check check' callback callback' I P I' P' m,
    let d := b_dim b in
    valid_basis b -> (primitive = true -> length norms = d) -> (primitive' = true -> length norms' = d) ->
    (forall r, In r R -> length r = d) ->
    no_wrap (searched b norms sh primitive pos) -> no_wrap (searched b norms' sh' primitive' pos') ->
    build_indices b norms R sh primitive pos check callback = Ok (I, P) ->
    build_indices b norms' R sh' primitive' pos' check' callback' = Ok (I', P') ->
    (forall s t, moved_site d m s t -> (In s I <-> In t I')) ->
    Forall2 (moved_site d m) I I' /\ Forall2 (moved_point d (b_mat b) m) P P'.
Proof.
  intros b norms norms' R sh sh' primitive primitive' pos pos' check check' callback callback' I P I' P' m d Hb Hn Hn' HR Hw Hw' H H' Hset.
  destruct (C31_indices_and_positions_aligned _ _ _ _ _ _ _ _ _ _ Hb Hn HR H) as [L [A _]].
  destruct (C31_indices_and_positions_aligned _ _ _ _ _ _ _ _ _ _ Hb Hn' HR H') as [L' [A' _]].
  assert (forall s, In s I -> length s = S d) as HI.
  { intros s Hs. apply In_nth_error in Hs. destruct Hs as [k Hk]. destruct (nth_error_lt P k) as [p Hp]; [rewrite <- L; eapply nth_error_length_lt; eauto|].
    destruct (A k s p Hk Hp) as [n [a [r [-> [Ln _]]]]]. rewrite app_length. cbn. unfold d. lia. }
  assert (forall s, In s I' -> length s = S d) as HI'.
  { intros s Hs. apply In_nth_error in Hs. destruct Hs as [k Hk]. destruct (nth_error_lt P' k) as [p Hp]; [rewrite <- L'; eapply nth_error_length_lt; eauto|].
    destruct (A' k s p Hk Hp) as [n [a [r [-> [Ln _]]]]]. rewrite app_length. cbn. unfold d. lia. }
  assert (I' = map (mv d m) I) as ->.
  { apply ordered_unique.
    - eapply C94_order_of_sites; [exact Hb|exact Hn'|exact HR|exact Hw'|exact H'].
    - apply ss_map. apply (ss_impl before); [|eapply C94_order_of_sites; [exact Hb|exact Hn|exact HR|exact Hw|exact H]].
      intros s t Hs _. apply before_mv. auto.
    - intro t. rewrite in_map_iff. split; intro Ht.
      + set (m' := map (fun i => (- nth i m 0)%Z) (seq 0 d)). exists (mv d m' t). pose proof (HI' t Ht) as Lt.
        assert (mv d m (mv d m' t) = t) as Et.
        { apply (list_eq_nth _ _ 0%Z); [rewrite mv_length; auto|]. intros k Hk. rewrite mv_length in Hk. rewrite !nth_mv by (rewrite ?mv_length; auto).
          destruct (Nat.ltb_spec k d) as [G|G]; [|lia]. unfold m'. rewrite (nth_map_in _ _ _ 0) by (rewrite seq_length; auto). rewrite seq_nth by auto. change (0 + k) with k. lia. }
        split; auto. apply (Hset (mv d m' t) t); auto. apply moved_site_mv. rewrite mv_length. auto.
      + destruct Ht as [s [<- Hs]]. apply (Hset s); auto. apply moved_site_mv. auto. }
  split.
  - clear -HI. induction I as [|s I IH]; cbn [map]; constructor; [apply moved_site_mv; split; [apply HI; left; auto|auto]|apply IH; intros; apply HI; right; auto].
  - assert (forall k p p', nth_error P k = Some p -> nth_error P' k = Some p' -> moved_point d (b_mat b) m p p') as Hk.
    { intros k p p' Hp Hp'. destruct (nth_error_lt I k) as [s Hs]; [rewrite L; eapply nth_error_length_lt; eauto|].
      destruct (A k s p Hs Hp) as [n [a [r [E1 [Ln [E2 E3]]]]]].
      destruct (A' k (mv d m s) p') as [n' [a' [r' [E1' [_ [E2' E3']]]]]]; auto; [rewrite nth_error_map', Hs; reflexivity|].
      rewrite E1, mv_app in E1' by auto. apply app_inj_tail in E1'. destruct E1' as [<- Ea]. apply Nat2Z.inj in Ea. subst a'.
      assert (r' = r) by congruence. subst r'.
      apply (moved_same d (b_mat b) m (lattice_point d (b_mat b) r n) p (lattice_point d (b_mat b) r (map (fun i => (nth i n 0 + nth i m 0)%Z) (seq 0 d))) p').
      - apply same_veq, veq_sym, same_veq. exact E3.
      - apply same_veq, veq_sym, same_veq. exact E3'.
      - apply moved_lattice_point. apply HR. eapply nth_error_In; eauto. }
    rewrite map_length in L'. assert (length P = length P') as LP by congruence. clear -Hk LP. revert P' LP Hk.
    induction P as [|p P IH]; intros [|p' P'] LP Hk; try discriminate; constructor.
    + apply (Hk 0); reflexivity.
    + apply IH; [injection LP; auto|]. intros k q q' Hq Hq'. apply (Hk (S k)); auto.
Qed.

(** A shape and its copy moved by a lattice vector, on a basis along whose coordinates the axes do not turn back; no
    site lies in the strip of the tolerance 1e-3 around the shape. *)
Theorem C94_moved_shape :
  forall b norms R s s' pos pos' m,
    let d := b_dim b in
    let V := b_mat b in
    valid_basis b -> 1 <= d -> well_formed d s -> well_formed d s' ->
    length (shape_limits s) = d -> length (shape_limits s') = d ->
    (forall lim, In lim (shape_limits s ++ shape_limits s') -> (fst lim <= snd lim)%Q) ->
    (forall i j, i < d -> j < d -> (0 <= entry (b_inv b) i j)%Q) ->
    no_wrap (searched b norms (AShape s) false pos) -> no_wrap (searched b norms (AShape s') false pos') ->
    R <> [] -> (forall r, In r R -> length r = d /\ forall i, i < d -> (0 <= coordinate d (b_inv b) r i < 2)%Q) ->
    (* the second shape is the first one, moved *)
    (forall p q tol, moved_point d V m p q -> shape_contains s p tol = shape_contains s' q tol) ->
    (* no site within the tolerance *)
    (forall r n, In r R -> length n = d -> shape_contains s (lattice_point d V r n) (1#1000) = true -> shape_contains s (lattice_point d V r n) 0 = true) ->
    exists I P I' P',
      build_indices b norms R (AShape s) false pos true None = Ok (I, P) /\
      build_indices b norms R (AShape s') false pos' true None = Ok (I', P') /\
      Forall2 (moved_site d m) I I' /\ Forall2 (moved_point d V m) P P'.
Proof.
  intros b norms R s s' pos pos' m d V Hb Hd Hs Hs' Hl Hl' Hlim Hinv Hw Hw' HR0 HR Hmv Htol.
  assert (forall S, In S [s; s'] -> length (shape_limits S) = d -> forall i, i < d ->
     (0 <= nth i (vsub (map snd (shape_limits S)) (map fst (shape_limits S))) 0)%Q) as Hsz.
  { intros S HS HlS i Hi. rewrite nth_vsub by (rewrite !map_length; auto). destruct (nth_error_lt (shape_limits S) i) as [[lo hi] Hn]; [lia|].
    assert (nth i (map fst (shape_limits S)) 0%Q = lo) as -> by (apply nth_of_nth_error; rewrite nth_error_map', Hn; reflexivity).
    assert (nth i (map snd (shape_limits S)) 0%Q = hi) as -> by (apply nth_of_nth_error; rewrite nth_error_map', Hn; reflexivity).
    assert (lo <= hi)%Q as G; [|lra]. apply nth_error_In in Hn. apply (Hlim (lo, hi)). apply in_app_iff. destruct HS as [<-|[<-|[]]]; auto. }
  assert (forall l i, i < d -> reaches d (b_inv b) l i) as Hreach by (intros l i Hi; left; auto).
  destruct (C33_built_sites_of_a_shape b norms R s pos _ _ Hb Hd Hs eq_refl Hl (Hsz s (or_introl eq_refl) Hl) (fun i Hi => Hreach _ i Hi) Hw HR0 HR) as [I [P [E [_ HI]]]].
  destruct (C33_built_sites_of_a_shape b norms R s' pos' _ _ Hb Hd Hs' eq_refl Hl' (Hsz s' (or_intror (or_introl eq_refl)) Hl') (fun i Hi => Hreach _ i Hi) Hw' HR0 HR) as [I' [P' [E' [_ HI']]]].
  exists I, P, I', P'. split; auto. split; auto.
  assert (forall r, In r R -> length r = d) as HRl by (intros; apply HR; auto).
  destruct (C31_indices_and_positions_aligned b norms R (AShape s) false pos true None I P Hb ltac:(discriminate) HRl E) as [L [A _]].
  destruct (C31_indices_and_positions_aligned b norms R (AShape s') false pos' true None I' P' Hb ltac:(discriminate) HRl E') as [L' [A' _]].
  apply (C94_moved_sites b norms norms R (AShape s) (AShape s') false false pos pos' true true None None I P I' P' m); auto; [discriminate|discriminate|].
  intros x y [n [a [Ln [-> ->]]]]. set (n' := map _ _). assert (length n' = d) as Ln' by (unfold n'; rewrite map_length, seq_length; auto).
  split; intro Hin.
  - pose proof Hin as Hin0. apply In_nth_error in Hin0. destruct Hin0 as [k Hk]. destruct (nth_error_lt P k) as [p Hp]; [rewrite <- L; eapply nth_error_length_lt; eauto|].
    destruct (A k _ p Hk Hp) as [n1 [a1 [r [E1 [_ [Hr _]]]]]]. apply app_inj_tail in E1. destruct E1 as [<- ->].
    destruct (HI n a1 r Ln Hr) as [_ [H2 _]]. destruct (HI' n' a1 r Ln' Hr) as [H3 _].
    apply H3. rewrite <- (Hmv (lattice_point d V r n)); [|apply moved_lattice_point; apply HRl; eapply nth_error_In; eauto].
    apply Htol; auto. eapply nth_error_In; eauto.
  - pose proof Hin as Hin0. apply In_nth_error in Hin0. destruct Hin0 as [k Hk]. destruct (nth_error_lt P' k) as [p Hp]; [rewrite <- L'; eapply nth_error_length_lt; eauto|].
    destruct (A' k _ p Hk Hp) as [n1 [a1 [r [E1 [_ [Hr _]]]]]]. apply app_inj_tail in E1. destruct E1 as [<- ->].
    destruct (HI n a1 r Ln Hr) as [H1 _]. destruct (HI' n' a1 r Ln' Hr) as [_ [H4 _]].
    apply H1. apply Htol; auto; [eapply nth_error_In; eauto|]. rewrite (Hmv _ (lattice_point d V r n')); [apply H4; exact Hin|].
    apply moved_lattice_point; apply HRl; eapply nth_error_In; eauto.
Qed.

(** Boxes, circles and rings moved by a lattice vector. *)
Lemma moved_contains d V m s s' pos pos' : moved_point d V m pos pos' ->
  (exists size, length size = d /\ s = SBox size pos /\ s' = SBox size pos') \/
  (exists r, s = SCircle pos r /\ s' = SCircle pos' r) \/ (exists ro ri, s = SDonut pos ro ri /\ s' = SDonut pos' ro ri) ->
  forall p q tol, moved_point d V m p q -> shape_contains s p tol = shape_contains s' q tol.
Proof.
  intros Hpos Hs p q tol Hpq. pose proof (moved_sqdist _ _ _ _ _ _ _ Hpq Hpos) as Hd. destruct Hpos as [L1 [L2 H1]]. destruct Hpq as [L3 [L4 H2]].
  apply eq_true_iff_eq. destruct Hs as [[size [Ls [-> ->]]]|[[r [-> ->]]|[ro [ri [-> ->]]]]].
  - cbn [shape_contains]. rewrite !(box_contains_spec d) by auto.
    split; intros H i Hi; specialize (H i Hi); specialize (H1 i Hi); specialize (H2 i Hi); rewrite !nth_lattice_point in * by auto; lra.
  - rewrite !C24_circle_contains by congruence. rewrite Hd. reflexivity.
  - rewrite !C24_donut_contains by congruence. rewrite Hd. reflexivity.
Qed.

Lemma box_limits_ok d size pos : length size = d -> length pos = d ->
  length (shape_limits (SBox size pos)) = d /\ forall lim, In lim (shape_limits (SBox size pos)) -> (fst lim <= snd lim)%Q.
Proof.
  intros Ls Lp. split.
  - cbn [shape_limits]. apply point_limits_length; [apply box_corners_nonempty|]. intros c Hc. apply (corner_length d size pos c); auto.
  - intros [lo hi] Hin. cbn [shape_limits fst snd] in *. apply In_nth_error in Hin. destruct Hin as [j Hj].
    apply point_limits_spec in Hj. destruct Hj as [[[x [Hx Ex]] _] [_ H]]. specialize (H x Hx). lra.
Qed.

(** The boxes of a size at a position and at the position moved by a lattice vector, as [Lattice.build] requests them. *)
Corollary C94_moved_box :
  forall b norms R size pos pos' m,
    let d := b_dim b in
    let V := b_mat b in
    let box p := AShape (build_shape b (ASize size) false (Some p)) in
    valid_basis b -> 1 <= d -> length size = d -> moved_point d V m pos pos' ->
    (forall i j, i < d -> j < d -> (0 <= entry (b_inv b) i j)%Q) ->
    no_wrap (searched b norms (box pos) false (Some pos)) -> no_wrap (searched b norms (box pos') false (Some pos')) ->
    R <> [] -> (forall r, In r R -> length r = d /\ forall i, i < d -> (0 <= coordinate d (b_inv b) r i < 2)%Q) ->
    (* no site less than 1e-3 outside of the box *)
    (forall r n, In r R -> length n = d ->
       (forall i, i < d -> (nth i pos 0 - (1#1000) <= nth i (lattice_point d V r n) 0 <= nth i pos 0 + nth i size 0 + (1#1000))%Q) ->
       (forall i, i < d -> (nth i pos 0 <= nth i (lattice_point d V r n) 0 <= nth i pos 0 + nth i size 0)%Q)) ->
    exists I P I' P',
      build_indices b norms R (box pos) false (Some pos) true None = Ok (I, P) /\
      build_indices b norms R (box pos') false (Some pos') true None = Ok (I', P') /\
      Forall2 (moved_site d m) I I' /\ Forall2 (moved_point d V m) P P'.
Proof.
  intros b norms R size pos pos' m d V box Hb Hd Ls Hpos Hinv Hw Hw' HR0 HR Htol. unfold box, build_shape in *.
  pose proof Hpos as [Lp [Lp' _]]. destruct (box_limits_ok d size pos Ls Lp) as [L1 H1]. destruct (box_limits_ok d size pos' Ls Lp') as [L2 H2].
  apply C94_moved_shape; auto.
  - left. exists size, pos. split; cbn; auto.
  - left. exists size, pos'. split; cbn; auto.
  - intros lim Hl. apply in_app_iff in Hl. destruct Hl; auto.
  - apply (moved_contains d V m _ _ pos pos' Hpos). left. exists size. auto.
  - intros r n Hr Hn Hc. cbn [shape_contains] in *. rewrite (box_contains_spec d) in * by (auto; apply lattice_point_length).
    assert (forall i, i < d -> (nth i pos 0 <= nth i (lattice_point d V r n) 0 <= nth i pos 0 + nth i size 0)%Q) as G.
    { apply (Htol r n Hr Hn). intros i Hi. specialize (Hc i Hi). fold d in Hc. fold V in Hc. lra. }
    intros i Hi. specialize (G i Hi). fold d. fold V. lra.
Qed.

(** Discs and balls. *)
Corollary C94_moved_circle :
  forall b norms R radius c c' m pos,
    let d := b_dim b in
    let V := b_mat b in
    valid_basis b -> 1 <= d -> (0 <= radius)%Q -> moved_point d V m c c' ->
    (forall i j, i < d -> j < d -> (0 <= entry (b_inv b) i j)%Q) ->
    no_wrap (searched b norms (AShape (SCircle c radius)) false pos) -> no_wrap (searched b norms (AShape (SCircle c' radius)) false pos) ->
    R <> [] -> (forall r, In r R -> length r = d /\ forall i, i < d -> (0 <= coordinate d (b_inv b) r i < 2)%Q) ->
    (forall r n, In r R -> length n = d -> (sqdist (lattice_point d V r n) c <= (radius + (1#1000)) * (radius + (1#1000)))%Q ->
       (sqdist (lattice_point d V r n) c <= radius * radius)%Q) ->
    exists I P I' P',
      build_indices b norms R (AShape (SCircle c radius)) false pos true None = Ok (I, P) /\
      build_indices b norms R (AShape (SCircle c' radius)) false pos true None = Ok (I', P') /\
      Forall2 (moved_site d m) I I' /\ Forall2 (moved_point d V m) P P'.
Proof.
  intros b norms R radius c c' m pos d V Hb Hd H0 Hpos Hinv Hw Hw' HR0 HR Htol. pose proof Hpos as [Lp [Lp' _]].
  apply C94_moved_shape; auto.
  - right. left. exists c. split; auto. left. eauto.
  - right. left. exists c'. split; auto. left. eauto.
  - cbn [shape_limits]. rewrite map_length. auto.
  - cbn [shape_limits]. rewrite map_length. auto.
  - intros lim Hl. cbn [shape_limits] in Hl. apply in_app_iff in Hl. destruct Hl as [Hl|Hl]; apply in_map_iff in Hl; destruct Hl as [x [<- _]]; cbn; lra.
  - apply (moved_contains d V m _ _ c c' Hpos). right. left. exists radius. auto.
  - intros r n Hr Hn Hc. apply C24_circle_contains in Hc; [|rewrite lattice_point_length; symmetry; exact Lp]. destruct Hc as [_ Hc].
    apply C24_circle_contains; [rewrite lattice_point_length; symmetry; exact Lp|]. split; [lra|]. specialize (Htol r n Hr Hn Hc). fold d. fold V. setoid_replace (radius + 0)%Q with radius by ring. exact Htol.
Qed.

(** On other bases a box may find fewer sites after a move by a lattice vector. *)
Theorem C94_moved_box_refuted :
  exists b size pos pos' m I P I' P', valid_basis b /\ moved_point (b_dim b) (b_mat b) m pos pos' /\
    build_indices b [] [[0; 0]%Q] (AShape (build_shape b (ASize size) false (Some pos))) false (Some pos) true None = Ok (I, P) /\
    build_indices b [] [[0; 0]%Q] (AShape (build_shape b (ASize size) false (Some pos'))) false (Some pos') true None = Ok (I', P') /\
    length I' < length I.
Proof.
  exists skew, [1; 1]%Q, [0; 0]%Q, [0; -10]%Q, [5; -10]%Z. eexists. eexists. eexists. eexists. split; [exact skew_valid|]. split.
  - split; [reflexivity|]. split; [reflexivity|]. intros [|[|i]] Hi; [reflexivity|reflexivity|cbn in Hi; lia].
  - split; [vm_compute; reflexivity|]. split; [vm_compute; reflexivity|]. cbn. lia.
Qed.

(** ** Moved builds *)

Lemma Forall2_nth_error_l {A B} (Rel : A -> B -> Prop) l m i x : Forall2 Rel l m -> nth_error l i = Some x -> exists y, nth_error m i = Some y /\ Rel x y.
Proof.
  intro H. revert i. induction H as [|a c l m Hac H IH]; intros [|i] E; cbn in *; try discriminate; [injection E as <-; eauto|eauto].
Qed.

Lemma moved_atom d m J J' i : Forall2 (moved_site d m) J J' -> atom_of J i = atom_of J' i.
Proof.
  intro H. revert i. unfold atom_of. induction H as [|s t J J' Hst H IH]; intros [|i]; cbn [nth]; auto.
  destruct Hst as [n [a [_ [-> ->]]]]. rewrite !last_last. reflexivity.
Qed.

Lemma moved_connected d V m allowed J J' P P' i j x : Forall2 (moved_site d m) J J' -> Forall2 (moved_point d V m) P P' ->
  (connected_sites allowed J P i j x <-> connected_sites allowed J' P' i j x).
Proof.
  intros HJ HP. unfold connected_sites. rewrite (moved_atom d m J J' i HJ), (moved_atom d m J J' j HJ).
  assert (site_distance P i j x <-> site_distance P' i j x) as ->; [|reflexivity]. split; intros [p [q [z [Hp [Hq [-> Hz]]]]]].
  - destruct (Forall2_nth_error_l _ _ _ _ _ HP Hp) as [p' [Hp' Mp]]. destruct (Forall2_nth_error_l _ _ _ _ _ HP Hq) as [q' [Hq' Mq]].
    exists p', q', z. split; auto. split; auto. split; auto. eapply rounds_ext; [|exact Hz]. eapply moved_sqdist; eauto.
  - destruct (Forall2_nth_error _ _ _ _ _ HP Hp) as [p' [Hp' Mp]]. destruct (Forall2_nth_error _ _ _ _ _ HP Hq) as [q' [Hq' Mq]].
    exists p', q', z. split; auto. split; auto. split; auto. eapply rounds_ext; [|exact Hz]. symmetry. eapply moved_sqdist; eauto.
Qed.

Lemma moved_within d V m P P' i p p' r2 j : Forall2 (moved_point d V m) P P' -> nth_error P i = Some p -> nth_error P' i = Some p' ->
  (within P p r2 j <-> within P' p' r2 j).
Proof.
  intros HP Hp Hp'. assert (moved_point d V m p p') as Mp by (destruct (Forall2_nth_error_l _ _ _ _ _ HP Hp) as [y [E G]]; congruence).
  split; intros [q [Hq Hle]].
  - destruct (Forall2_nth_error_l _ _ _ _ _ HP Hq) as [q' [Hq' Mq]]. exists q'. split; auto. rewrite <- (moved_sqdist _ _ _ _ _ _ _ Mp Mq). exact Hle.
  - destruct (Forall2_nth_error _ _ _ _ _ HP Hq) as [q' [Hq' Mq]]. exists q'. split; auto. rewrite (moved_sqdist _ _ _ _ _ _ _ Mp Mq). exact Hle.
Qed.

Lemma moved_fewer (rel rel' : nat -> nat -> dist -> Prop) i i' : (forall i j x, rel i j x <-> rel' i j x) -> fewer rel i i' -> fewer rel' i i'.
Proof.
  intros H [L' [H1 [H2 H3]]]. exists L'. split; auto. split.
  - intros j Hj. destruct (H2 j Hj) as [x Hx]. exists x. apply H. auto.
  - intros L HL HL2. apply H3; auto. intros j Hj. destruct (HL2 j Hj) as [x Hx]. exists x. apply H. auto.
Qed.

(** Two builds of the same structure whose sites differ by a move by a lattice vector: both succeed, with tables that
    differ by the move and with the same neighbours of every row. *)
Theorem C94_moved_build :
  forall query argsort norms s s' conns an r mx cells l sh sh' primitive primitive' pos pos' check check' callback callback' I P I' P' m,
    correct_tree query -> is_argsort dleb argsort ->
    valid_basis (st_basis s) -> 1 <= b_dim (st_basis s) -> in_step s -> st_connections s = Some conns ->
    analyze query s = (s', Ok tt) -> st_analysis s' = Some an -> query_radius an = Some r -> lt_structure l = s' ->
    (forall a c, nth c (nth a conns []) 0 <= mx) -> (exists a c, nth c (nth a conns []) 0 = mx) ->
    get_neighbor_cells (st_basis s) (2 * mx) true Qle_bool = Some cells ->
    let d := b_dim (st_basis s) in
    let V := b_mat (st_basis s) in
    let R := st_positions s in
    let allowed a c := among_first (nth c (nth a conns []) 0) (occurs d V R cells a c) in
    (* the sites *)
    (primitive = true -> length norms = d) -> (primitive' = true -> length norms = d) ->
    fitting d sh primitive pos -> fitting d sh' primitive' pos' -> incongruent d V R ->
    build_indices (st_basis s) norms R (AShape (build_shape (st_basis s) sh primitive pos)) primitive pos check callback = Ok (I, P) ->
    build_indices (st_basis s) norms R (AShape (build_shape (st_basis s) sh' primitive' pos')) primitive' pos' check' callback' = Ok (I', P') ->
    Forall2 (moved_site d m) I I' -> Forall2 (moved_point d V m) P P' -> I <> [] ->
    (* the guards of C71 for the first build *)
    (forall p, In p P -> at_most (query_count an) (within P p (r * r)%Q)) ->
    (forall a c x, a < length R -> c < length R -> occurs d V R cells a c x -> dleb (Fin 6) x = true) ->
    (exists values, length values <= 255 /\ forall a c x, a < length R -> c < length R -> allowed a c x -> In x values) ->
    ((exists i i', i < length P /\ i' < length P /\ fewer (connected_sites allowed I P) i i') \/
     (forall i j p, i <> j -> nth_error P i = Some p -> within P p (r * r)%Q j -> exists x, connected_sites allowed I P i j x)) ->
    exists l1 l2 dt1 dt2,
      build query argsort norms l sh primitive pos check None None callback = (l1, Ok tt) /\ lt_data l1 = Some dt1 /\
      build query argsort norms l sh' primitive' pos' check' None None callback' = (l2, Ok tt) /\ lt_data l2 = Some dt2 /\
      Forall2 (moved_site d m) (d_indices dt1) (d_indices dt2) /\ Forall2 (moved_point d V m) (d_positions dt1) (d_positions dt2) /\
      forall i, i < nsites dt1 -> Permutation (links dt1 i) (links dt2 i).
Proof.
  intros query argsort norms s s' conns an r mx cells l sh sh' primitive primitive' pos pos' check check' callback callback' I P I' P' m
    Hq Harg Hb Hd Hs Ec Ha Ean Er El Hm1 Hm2 Ecells d V R allowed Hn Hn' Hfit Hfit' Hinc EI EI' MI MP HIne Hroom Hsep Hval Hpad.
  assert (I' <> []) as HIne' by (intros ->; inversion MI; congruence).
  assert (forall p, In p P' -> at_most (query_count an) (within P' p (r * r)%Q)) as Hroom'.
  { intros p' Hp' L HL1 HL2. apply In_nth_error in Hp'. destruct Hp' as [i Hi]. destruct (Forall2_nth_error _ _ _ _ _ MP Hi) as [p [Hp _]].
    apply (Hroom p (nth_error_In _ _ Hp) L HL1). intros j Hj. apply (moved_within d V m P P' i p p' (r * r)%Q j MP Hp Hi). auto. }
  pose proof (fun i j x => moved_connected d V m allowed I I' P P' i j x MI MP) as Hc.
  assert (length P = length P') as LP by (clear -MP; induction MP; cbn; congruence).
  assert ((exists i i', i < length P' /\ i' < length P' /\ fewer (connected_sites allowed I' P') i i') \/
     (forall i j p, i <> j -> nth_error P' i = Some p -> within P' p (r * r)%Q j -> exists x, connected_sites allowed I' P' i j x)) as Hpad'.
  { destruct Hpad as [[i [i' [H1 [H2 H3]]]]|H]; [left|right].
    - exists i, i'. rewrite <- LP. split; auto. split; auto. eapply moved_fewer; [|exact H3]. exact Hc.
    - intros i j p' Hij Hp' Hw. destruct (Forall2_nth_error _ _ _ _ _ MP Hp') as [p [Hp _]].
      destruct (H i j p Hij Hp) as [x Hx]; [apply (moved_within d V m P P' i p p' (r * r)%Q j MP Hp Hp'); auto|]. exists x. apply Hc. auto. }
  destruct (C71_build_connects_the_sites query argsort norms s s' conns an l sh primitive pos check callback I P r Hq Harg Hb Hd Hs Ec Ha Ean El Hn Hfit Hinc EI HIne Er Hroom)
    as [m1 [cells1 [A1 [A2 [A3 A]]]]].
  destruct (C71_build_connects_the_sites query argsort norms s s' conns an l sh' primitive' pos' check' callback' I' P' r Hq Harg Hb Hd Hs Ec Ha Ean El Hn' Hfit' Hinc EI' HIne' Er Hroom')
    as [m2 [cells2 [B1 [B2 [B3 B]]]]].
  assert (m1 = mx) as -> by (destruct Hm2 as [a1 [c1 E1]]; destruct A2 as [a2 [c2 E2]]; specialize (A1 a1 c1); specialize (Hm1 a2 c2); lia).
  assert (m2 = mx) as -> by (destruct Hm2 as [a1 [c1 E1]]; destruct B2 as [a2 [c2 E2]]; specialize (B1 a1 c1); specialize (Hm1 a2 c2); lia).
  rewrite Ecells in A3, B3. injection A3 as <-. injection B3 as <-. cbv zeta in A, B.
  destruct (A Hsep Hval Hpad) as (l1 & dt1 & F1 & _ & _ & _ & F2 & _ & _ & _ & _ & F3 & F4 & _ & F5).
  destruct (B Hsep Hval Hpad') as (l2 & dt2 & G1 & _ & _ & _ & G2 & _ & _ & _ & _ & G3 & G4 & _ & G5).
  exists l1, l2, dt1, dt2. split; auto. split; auto. split; auto. split; auto. rewrite F3, F4, G3, G4. split; auto. split; auto.
  intros i Hi. assert (i < length P) as HiP.
  { unfold nsites in Hi. rewrite F3 in Hi.
    assert (forall x, In x R -> length x = d) as HR by (intros x Hx; apply Hs; auto).
    destruct (C31_indices_and_positions_aligned _ _ _ _ _ _ _ _ _ _ Hb Hn HR EI) as [Hlen _]. congruence. }
  destruct (F5 i HiP) as [N1 K1]. destruct (G5 i ltac:(congruence)) as [N2 K2]. apply NoDup_Permutation.
  - eapply NoDup_map_inv. exact N1.
  - eapply NoDup_map_inv. exact N2.
  - intros [j x]. rewrite K1, K2. apply Hc.
Qed.

(** ** Examples *)

Lemma quarter (x : Q) z lo hi : (x == inject_Z z * (1#4))%Q ->
  (inject_Z lo * (1#4) - (1#1000) <= x <= inject_Z hi * (1#4) + (1#1000))%Q -> (inject_Z lo * (1#4) <= x <= inject_Z hi * (1#4))%Q.
Proof.
  intros E H. assert (lo <= z <= hi)%Z as [H1 H2].
  { assert (inject_Z lo - 1 < inject_Z z)%Q as G1 by lra. assert (inject_Z z < inject_Z hi + 1)%Q as G2 by lra.
    change 1%Q with (inject_Z 1) in G1, G2. unfold Qminus in G1. rewrite <- inject_Z_opp, <- inject_Z_plus, <- Zlt_Qlt in G1. rewrite <- inject_Z_plus, <- Zlt_Qlt in G2. lia. }
  rewrite Zle_Qle in H1, H2. lra.
Qed.

(** Two atoms on a rectangular lattice: a box, moved by -2 and 3 cells, and a disc. *)
Definition rect : basis := mkBasis [[1; 0]; [0; 1#2]]%Q [[1; 0]; [0; 2]]%Q.
Definition rect_atoms : list (list Q) := [[0; 0]; [1#2; 1#4]]%Q.

Lemma rect_valid : valid_basis rect.
Proof.
  split; [|split; [|split]].
  - split; [reflexivity|]. intros r [<-|[<-|[]]]; reflexivity.
  - split; [reflexivity|]. intros r [<-|[<-|[]]]; reflexivity.
  - intros [|[|i]] [|[|j]] Hi Hj; cbn in *; try lia; reflexivity.
  - intros [|[|i]] [|[|j]] Hi Hj; cbn in *; try lia; reflexivity.
Qed.

Lemma rect_inverse i j : i < 2 -> j < 2 -> (0 <= entry (b_inv rect) i j)%Q.
Proof. destruct i as [|[|i]], j as [|[|j]]; intros; try lia; unfold entry; cbn; lra. Qed.

Lemma rect_atoms_ok r : In r rect_atoms -> length r = 2 /\ forall i, i < 2 -> (0 <= coordinate 2 (b_inv rect) r i < 2)%Q.
Proof. intros [<-|[<-|[]]]; (split; [reflexivity|]); intros [|[|i]] Hi; try lia; vm_compute; split; congruence. Qed.

Lemma rect_quarters r n i : In r rect_atoms -> length n = 2 -> i < 2 -> exists z, (nth i (lattice_point 2 (b_mat rect) r n) 0 == inject_Z z * (1#4))%Q.
Proof.
  intros Hr Ln Hi. destruct n as [|x [|y [|]]]; try discriminate.
  destruct Hr as [<-|[<-|[]]]; destruct i as [|[|i]]; try lia; unfold lattice_point, entry; cbn -[Qplus Qmult inject_Z].
  - exists (4 * x)%Z. rewrite inject_Z_mult. change (inject_Z 4) with 4%Q. ring.
  - exists (2 * y)%Z. rewrite inject_Z_mult. change (inject_Z 2) with 2%Q. ring.
  - exists (4 * x + 2)%Z. rewrite inject_Z_plus, inject_Z_mult. change (inject_Z 4) with 4%Q. change (inject_Z 2) with 2%Q. ring.
  - exists (2 * y + 1)%Z. rewrite inject_Z_plus, inject_Z_mult. change (inject_Z 2) with 2%Q. change (inject_Z 1) with 1%Q. ring.
Qed.

Definition in_range (l : list (Z * Z)) : bool := forallb (fun l => (-64 <=? fst l) && (fst l <=? 64) && (-64 <=? snd l) && (snd l <=? 64))%Z l.

Lemma small_ranges l : in_range l = true -> no_wrap l.
Proof.
  intro H. unfold in_range in H. rewrite forallb_forall in H.
  assert (forall x, In x l -> (-64 <= fst x <= 64)%Z /\ (-64 <= snd x <= 64)%Z) as G.
  { intros x Hx. specialize (H x Hx). rewrite !andb_true_iff, !Z.leb_le in H. lia. }
  exists 8%Z. split.
  - apply width8. intros x Hx. apply in_flat_map in Hx. destruct Hx as [y [Hy [<-|[<-|[]]]]]; specialize (G y Hy); lia.
  - intros x Hx. specialize (G x Hx). change (2 ^ (8 - 1))%Z with 128%Z. lia.
Qed.

Example C94_moved_box_example :
  let box p := AShape (build_shape rect (ASize [1; 1#2]%Q) false (Some p)) in
  valid_basis rect /\ moved_point 2 (b_mat rect) [-2; 3]%Z [0; 0]%Q [-2; 3#2]%Q /\
  (forall i j, i < 2 -> j < 2 -> (0 <= entry (b_inv rect) i j)%Q) /\
  no_wrap (searched rect [] (box [0; 0]%Q) false (Some [0; 0]%Q)) /\ no_wrap (searched rect [] (box [-2; 3#2]%Q) false (Some [-2; 3#2]%Q)) /\
  (forall r, In r rect_atoms -> length r = 2 /\ forall i, i < 2 -> (0 <= coordinate 2 (b_inv rect) r i < 2)%Q) /\
  (forall r n, In r rect_atoms -> length n = 2 ->
     (forall i, i < 2 -> (nth i [0; 0] 0 - (1#1000) <= nth i (lattice_point 2 (b_mat rect) r n) 0 <= nth i [0; 0] 0 + nth i [1; 1#2] 0 + (1#1000))%Q) ->
     (forall i, i < 2 -> (nth i [0; 0] 0 <= nth i (lattice_point 2 (b_mat rect) r n) 0 <= nth i [0; 0] 0 + nth i [1; 1#2] 0)%Q)) /\
  (exists P, build_indices rect [] rect_atoms (box [0; 0]%Q) false (Some [0; 0]%Q) true None =
     Ok ([[0; 0; 0]; [0; 0; 1]; [0; 1; 0]; [1; 0; 0]; [1; 1; 0]]%Z, P)) /\
  (exists P, build_indices rect [] rect_atoms (box [-2; 3#2]%Q) false (Some [-2; 3#2]%Q) true None =
     Ok ([[-2; 3; 0]; [-2; 3; 1]; [-2; 4; 0]; [-1; 3; 0]; [-1; 4; 0]]%Z, P)).
Proof.
  cbv zeta. split; [exact rect_valid|]. split.
  { split; [reflexivity|]. split; [reflexivity|]. intros [|[|i]] Hi; try lia; vm_compute; reflexivity. }
  split; [exact rect_inverse|]. split; [apply small_ranges; vm_compute; reflexivity|]. split; [apply small_ranges; vm_compute; reflexivity|].
  split; [exact rect_atoms_ok|]. split.
  { intros r n Hr Ln H i Hi. specialize (H i Hi). destruct (rect_quarters r n i Hr Ln Hi) as [z Hz].
    destruct i as [|[|i]]; [| |lia]; cbn [nth] in *.
    - pose proof (quarter _ z 0 4 Hz) as G. change (inject_Z 0) with 0%Q in G. change (inject_Z 4) with 4%Q in G. lra.
    - pose proof (quarter _ z 0 2 Hz) as G. change (inject_Z 0) with 0%Q in G. change (inject_Z 2) with 2%Q in G. lra. }
  split; eexists; vm_compute; reflexivity.
Qed.

Example C94_moved_circle_example :
  moved_point 2 (b_mat rect) [-2; 3]%Z [0; 0]%Q [-2; 3#2]%Q /\
  no_wrap (searched rect [] (AShape (SCircle [0; 0]%Q (3#4))) false None) /\ no_wrap (searched rect [] (AShape (SCircle [-2; 3#2]%Q (3#4))) false None) /\
  (forall r n, In r rect_atoms -> length n = 2 ->
     (sqdist (lattice_point 2 (b_mat rect) r n) [0; 0] <= ((3#4) + (1#1000)) * ((3#4) + (1#1000)))%Q ->
     (sqdist (lattice_point 2 (b_mat rect) r n) [0; 0] <= (3#4) * (3#4))%Q) /\
  (exists P, build_indices rect [] rect_atoms (AShape (SCircle [0; 0]%Q (3#4))) false None true None =
     Ok ([[-1; -1; 1]; [-1; 0; 1]; [0; -1; 0]; [0; -1; 1]; [0; 0; 0]; [0; 0; 1]; [0; 1; 0]]%Z, P)) /\
  (exists P, build_indices rect [] rect_atoms (AShape (SCircle [-2; 3#2]%Q (3#4))) false None true None =
     Ok ([[-3; 2; 1]; [-3; 3; 1]; [-2; 2; 0]; [-2; 2; 1]; [-2; 3; 0]; [-2; 3; 1]; [-2; 4; 0]]%Z, P)).
Proof.
  split; [exact (proj1 (proj2 C94_moved_box_example))|]. split; [apply small_ranges; vm_compute; reflexivity|]. split; [apply small_ranges; vm_compute; reflexivity|].
  split.
  { intros r n Hr Ln. destruct (rect_quarters r n 0 Hr Ln ltac:(lia)) as [x Hx]. destruct (rect_quarters r n 1 Hr Ln ltac:(lia)) as [y Hy].
    unfold sqdist. rewrite lattice_point_length. cbn [sum_upto]. change (nth 0 [0; 0]%Q 0%Q) with 0%Q. change (nth 1 [0; 0]%Q 0%Q) with 0%Q. rewrite Hx, Hy. intro H.
    assert (inject_Z (x * x + y * y) < inject_Z 10)%Q as G by (rewrite inject_Z_plus, !inject_Z_mult; change (inject_Z 10) with 10%Q; lra).
    rewrite <- Zlt_Qlt in G. assert (x * x + y * y <= 9)%Z as G' by lia. rewrite Zle_Qle, inject_Z_plus, !inject_Z_mult in G'. change (inject_Z 9) with 9%Q in G'. lra. }
  split; eexists; vm_compute; reflexivity.
Qed.

(** The three sites of the chain of A and B of C71 (which states that the guards hold), and the same chain three cells to
    the left. *)
Example C94_moved_build_example :
  let shape pos := AShape (build_shape (st_basis ab_chain) (ASize [1]%Q) false pos) in
  let built pos := lt_data (fst (build brute dist_argsort [] (mkLattice (fst (analyze brute ab_chain)) None None None [] None) (ASize [1]%Q) false pos true None None None)) in
  fitting 1 (ASize [1]%Q) false (Some [-3]%Q) /\
  (exists P', build_indices (st_basis ab_chain) [] (st_positions ab_chain) (shape None) false None true None = Ok (ab_indices, ab_points) /\
    build_indices (st_basis ab_chain) [] (st_positions ab_chain) (shape (Some [-3]%Q)) false (Some [-3]%Q) true None = Ok ([[-3; 0]; [-3; 1]; [-2; 0]]%Z, P') /\
    Forall2 (moved_site 1 [-3]%Z) ab_indices [[-3; 0]; [-3; 1]; [-2; 0]]%Z /\ Forall2 (moved_point 1 [[1%Q]] [-3]%Z) ab_points P') /\
  (exists dt1 dt2, built None = Some dt1 /\ built (Some [-3]%Q) = Some dt2 /\ map (links dt1) [0; 1; 2] = map (links dt2) [0; 1; 2] /\
    map (links dt2) [0; 1; 2] = [[(1, Fin 500000)]; [(0, Fin 500000); (2, Fin 500000)]; [(1, Fin 500000)]]).
Proof.
  cbv zeta. split; [split; [intros p E; injection E as <-; reflexivity|discriminate]|]. split.
  - eexists. split; [vm_compute; reflexivity|]. split; [vm_compute; reflexivity|]. split.
    + constructor; [exists [0%Z], 0%Z; repeat split|]. constructor; [exists [0%Z], 1%Z; repeat split|]. constructor; [exists [1%Z], 0%Z; repeat split|]. constructor.
    + repeat constructor; intros [|i] Hi; try lia; vm_compute; reflexivity.
  - eexists. eexists. split; [vm_compute; reflexivity|]. split; [vm_compute; reflexivity|]. split; vm_compute; reflexivity.
Qed.

Print Assumptions C94_order_of_vindices.
Print Assumptions C94_order_of_sites.
Print Assumptions C94_same_sites_same_tables.
Print Assumptions C94_wide_box_refuted.
Print Assumptions C94_moved_sites.
Print Assumptions C94_moved_shape.
Print Assumptions C94_moved_box.
Print Assumptions C94_moved_circle.
Print Assumptions C94_moved_box_refuted.
Print Assumptions C94_moved_build.
