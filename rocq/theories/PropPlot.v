(** * Properties C98, C99 (lattpy/plotting.py, lattpy/lattice.py: plot, lattpy/structure.py: plot_cell) *)
From Coq Require Import String List ZArith QArith Qabs Bool Arith Lia Lqa Permutation Sorting.Sorted.
From Verif Require Import Np NpFacts LinAlg LinFacts UtilsModel SpecUtils SpecBasis AtomModel BasisModel BasisProofs PropBasis SpatialModel SpecSpatial
  NeighborCellProofs SpecStructure ShapeModel StructureModel StructureFacts StructureProofs PropStructure KDBrute AnalyzeProofs DataModel SpecData DataFacts DataProofs PropData PropDataMap LatticeModel LatticeExamples IdentityModel PathModel PropPath
  PropLimits RangeProofs PlotModel SpecPlot.
Import ListNotations.
Open Scope nat_scope.
Open Scope list_scope.

Lemma planar_page p : planar p = on_page p.
Proof. destruct p as [|x [|y p]]; reflexivity. Qed.

Lemma on_page_veq p q : veq p q -> veq (on_page p) (on_page q).
Proof.
  intro H. unfold on_page. replace (length p) with (length q) by (symmetry; apply (proj1 (proj1 (veq_nth _ _) H))).
  destruct (length q =? 1); auto. apply Forall2_app; auto. constructor; [reflexivity|constructor].
Qed.

Lemma planar_add p v : length p = length v -> veq (vadd (planar p) (planar v)) (on_page (vadd p v)).
Proof.
  intro H. destruct p as [|x [|y p]], v as [|a [|b v]]; cbn in H; try discriminate; try apply veq_refl.
Qed.

(** [draw_vector] draws the line between two points. *)
Lemma draw_vector_drawn p v q c : length p = length v -> veq (vadd p v) q -> drawn p q c (draw_vector v p c).
Proof.
  intros H E. unfold draw_vector, drawn. cbn. split; [apply planar_page|]. split; auto.
  eapply veq_trans; [apply planar_add; auto|]. apply on_page_veq. auto.
Qed.

Lemma vadd_vsub p q : length p = length q -> veq (vadd p (vsub q p)) q.
Proof.
  intro H. apply veq_nth. rewrite vadd_length by (rewrite vsub_length; auto). split; auto. intro i.
  rewrite nth_vadd by (rewrite vsub_length; auto). rewrite nth_vsub by auto. ring.
Qed.

Lemma part_way_spec t p q : length p = length q -> veq (vadd p (vscale t (vsub q p))) (part_way t p q).
Proof.
  intro H. assert (length (vscale t (vsub q p)) = length p) as L by (unfold vscale; rewrite map_length, vsub_length; auto).
  apply (veq_nth_lt _ _ (length p)).
  - rewrite vadd_length; auto.
  - unfold part_way. rewrite map_length, seq_length. reflexivity.
  - intros i Hi. rewrite nth_vadd by auto. unfold part_way. rewrite (nth_map_in _ _ _ 0) by (rewrite seq_length; auto). rewrite seq_nth by auto. cbn [Nat.add].
    unfold vscale. rewrite (nth_map_in _ _ _ 0%Q) by (rewrite vsub_length by auto; lia). rewrite nth_vsub by auto. reflexivity.
Qed.

(** ** Colours *)

Lemma color_table n default colors : (forall e, In e colors -> exists i j, for_pair n i j e) ->
  exists t, connection_color_array n default colors = Some t /\
    forall i j, i < n -> j < n -> exists c, color_at t i j = Some c /\ pair_color n default colors i j c.
Proof.
  intro H. destruct (C65_colors pyval n default colors) as [H1 H2].
  destruct (connection_color_array n default colors) as [t|] eqn:E.
  - exists t. split; auto. destruct (H2 t eq_refl) as (Lt & Lr & _ & Hc). intros i j Hi Hj. destruct (Hc i j Hi Hj) as [Hd Hg].
    assert (length (nth i t []) = n) as Li by (apply Lr, nth_In; lia).
    exists (nth j (nth i t []) default). split.
    + unfold color_at. assert (i < length t) as Hit by lia. rewrite (nth_error_nth' t [] Hit). apply nth_error_nth'. lia.
    + assert (forall cs, (forall e, In e cs -> ~ for_pair n i j e) \/ exists l1 e l2, cs = l1 ++ e :: l2 /\ for_pair n i j e /\ forall e', In e' l2 -> ~ for_pair n i j e') as Last.
      { assert (forall e, {for_pair n i j e} + {~ for_pair n i j e}) as dec.
        { assert (forall k a, {means n k a} + {~ means n k a}) as dm.
          { intros k a. unfold means. destruct (lt_dec k n); [|right; tauto]. destruct (Z.eq_dec a (Z.of_nat k)); [left; auto|].
            destruct (Z.eq_dec a (Z.of_nat k - Z.of_nat n)); [left; auto|right; tauto]. }
          intro e. unfold for_pair. destruct (dm i (fst (fst e))), (dm j (snd (fst e))), (dm j (fst (fst e))), (dm i (snd (fst e))); tauto. }
        intro cs. induction cs as [|e cs [IH|(l1 & e' & l2 & -> & IH)]].
        - left. intros e [].
        - destruct (dec e) as [He|He]; [right; exists [], e, cs; auto|left; intros e' [<-|H']; auto].
        - right. exists (e :: l1), e', l2. auto. }
      destruct (Last colors) as [L|(l1 & e & l2 & Ec & L1 & L2)]; [left; split; auto|].
      right. exists l1, e, l2. repeat (split; auto). exact (Hg l1 e l2 Ec L1 L2).
  - exfalso. destruct (proj1 H1 eq_refl) as [e [He Hn]]. destruct (H e He) as [i [j Hij]]. exact (Hn i j Hij).
Qed.

(** ** Rows of the tables *)

Lemma periodic_mask d i : wf d -> i < nsites d ->
  exists m, neighbor_mask d i None (Some true) false = Some m /\ length m = d_cols d /\ forall c, c < d_cols d -> nth c m false = valid d i c && pm d i c.
Proof.
  intros W Hi. pose proof (wf_c _ W) as C. unfold neighbor_mask.
  destruct (rect_row _ _ _ _ (wf_neighbors _ C) Hi) as [nr [-> [Hnl Hnn]]].
  destruct (rect_row _ _ _ _ (wf_distances _ C) Hi) as [dr [-> [Hdl Hdn]]].
  destruct (rect_row _ _ _ _ (wf_pmask _ W) Hi) as [pr [-> [Hpl Hpn]]].
  eexists. split; [reflexivity|]. split; [rewrite map2_length, map_length; lia|]. intros c Hc.
  rewrite (nth_map2 _ _ _ _ false false) by (rewrite ?map_length; lia). rewrite (nth_map_lt _ _ _ 0) by lia.
  unfold valid, di, pm, cell. rewrite Hdn, Hpn. reflexivity.
Qed.

Lemma periodic_row_spec d i : wf d -> i < nsites d ->
  periodic_row d i = Some (map (fun s => (s_nbr s, s_nvec s)) (filter s_per (slots d i))).
Proof.
  intros W Hi. pose proof (wf_c _ W) as C. destruct (periodic_mask d i W Hi) as [m [Em [Lm Hm]]]. unfold periodic_row. rewrite Em.
  destruct (rect_row _ _ _ _ (wf_neighbors _ C) Hi) as [nr [-> [Hnl Hnn]]].
  destruct (rect_row _ _ _ _ (wf_pnvecs _ W) Hi) as [pr [-> [Hpl Hpn]]].
  rewrite (select_seq 0 m nr), (select_seq [] m pr) by lia. rewrite Hnl, Hpl. f_equal.
  unfold slots, valid_slots. rewrite (map_filter_comm (slot_at d i)), filter_filter, map_map.
  rewrite (filter_ext_seq (fun c => nth c m false) (fun c => valid d i c && s_per (slot_at d i c))) by (intros c _ Hc; apply Hm; lia).
  induction (filter _ (seq 0 (d_cols d))) as [|c cs IH]; [reflexivity|]. cbn [map combine]. rewrite IH. f_equal. cbn [slot_at s_nbr s_nvec]. unfold nb, cell. rewrite Hnn, Hpn. reflexivity.
Qed.

Lemma regular_row d i : wf d -> i < nsites d ->
  DataModel.get_neighbors d i None (Some false) true = Some (filter (Nat.ltb i) (map fst (regular_links d i))).
Proof.
  intros W Hi. rewrite get_neighbors_wf by auto. f_equal. unfold regular_links, slots, valid_slots.
  rewrite (map_filter_comm (slot_at d i)), filter_filter, !map_map, map_filter_comm, filter_filter. f_equal.
  apply filter_ext. intro c. unfold selects. cbn [slot_at s_nbr s_per fst]. destruct (valid d i c), (i <? nb d i c), (pm d i c); reflexivity.
Qed.

(** ** Collecting the lines *)

Lemma all_some_forall2 {A B} (f : A -> option B) (R : A -> B -> Prop) l :
  (forall x, In x l -> exists y, f x = Some y /\ R x y) -> exists ys, all_some (map f l) = Some ys /\ Forall2 R l ys.
Proof.
  induction l as [|x l IH]; intro H; [exists []; split; auto; constructor|].
  destruct (H x (or_introl eq_refl)) as [y [E Hy]]. destruct IH as [ys [Es Hs]]; [intros; apply H; right; auto|].
  exists (y :: ys). cbn. rewrite E. cbn. rewrite Es. split; auto.
Qed.

Lemma collect_two {A B C D} (R1 : B -> D -> Prop) (R2 : C -> D -> Prop) (e : A -> list B) (f : A -> list C) is rows :
  Forall2 (fun i row => exists l1 l2, row = l1 ++ l2 /\ Forall2 R1 (e i) l1 /\ Forall2 R2 (f i) l2) is rows ->
  exists L1 L2, Permutation (concat rows) (L1 ++ L2) /\ Forall2 R1 (flat_map e is) L1 /\ Forall2 R2 (flat_map f is) L2.
Proof.
  induction 1 as [|i row is rows (l1 & l2 & -> & H1 & H2) _ (L1 & L2 & P & G1 & G2)]; [exists [], []; repeat split; constructor|].
  exists (l1 ++ L1), (l2 ++ L2). cbn. split; [|split; apply Forall2_app; auto].
  rewrite <- !app_assoc. apply Permutation_app_head. rewrite P, !app_assoc. apply Permutation_app_tail. apply Permutation_app_comm.
Qed.

Lemma Forall2_map_l {A B C} (f : A -> B) (R : B -> C -> Prop) l m : Forall2 R (map f l) m <-> Forall2 (fun x => R (f x)) l m.
Proof.
  split; revert m; induction l as [|x l IH]; intros m H; inversion H; subst; constructor; auto.
Qed.

(** ** C98: Lattice.plot *)

(** Every site is drawn with the colour of its atom; every regular bond is drawn from its lower to its higher site in the colour
    of the connection; every periodic neighbour is drawn as a grey line from the site towards the image of the neighbour, the
    fraction [pscale] of the way. *)
Theorem C98_plot :
  forall l d show pscale colors,
    let b := lt_basis l in
    let atoms := st_atoms (lt_structure l) in
    let n := length atoms in
    valid_basis b -> b_dim b <= 3 -> lt_data l = Some d -> wf d -> d_dim d = b_dim b ->
    (forall i, In i (d_indices d) -> (0 <= last i 0 < Z.of_nat n)%Z) ->
    (forall a, In a atoms -> atom_getattr a "color" <> None /\ atom_getattr a "radius" <> None /\ atom_getattr a "name" <> None) ->
    (forall e, In e colors -> exists i j, for_pair n i j e) ->
    exists discs lines L1 L2, plot l show pscale colors = Ok (discs, lines) /\
      (* the sites *)
      Forall2 (fun k D => exists a col, nth_error atoms k = Some a /\ atom_getattr a "color" = Some col /\
          dt_points D = map (fun i => on_page (place_of d i)) (filter (fun i => atom_at d i =? k) (seq 0 (nsites d))) /\
          Some (dt_radius D) = atom_getattr a "radius" /\ dt_scale D = 1%Q /\ dt_label D = atom_getattr a "name" /\
          dt_color D = (if match col with VNone => true | VStr s => String.eqb s "" | VNum q => Qeq_bool q 0 end then VStr (String.append "C" (show_nat k)) else col))
        (seq 0 n) discs /\
      (* the lines *)
      Permutation lines (L1 ++ L2) /\
      Forall2 (fun ij => fun s => exists c, pair_color n (VStr "k") colors (atom_at d (fst ij)) (atom_at d (snd ij)) c /\
          drawn (place_of d (fst ij)) (place_of d (snd ij)) c s) (bonds_up d) L1 /\
      Forall2 (fun e => drawn (place_of d (fst e))
          (part_way pscale (place_of d (fst e)) (lattice_point (b_dim b) (b_mat b) (place_of d (s_nbr (snd e))) (map Z.opp (s_nvec (snd e)))))
          (VStr "0.5")) (if show then crossings d else []) L2.
Proof.
  intros l d show pscale colors b atoms n Hb Hd Ed W Hdim Hat Hattr Hcol. pose proof (wf_c _ W) as C.
  destruct (color_table n (VStr "k") colors Hcol) as [hop [Eh Hhop]].
  destruct (color_table n (VStr "0.5") [] ltac:(intros e [])) as [per [Ep Hper]].
  assert (forall i, i < nsites d -> site_alpha d i = Some (atom_at d i) /\ atom_at d i < n) as Halpha.
  { intros i Hi. unfold site_alpha, atom_at. rewrite (nth_error_nth' (d_indices d) [] Hi). split; auto.
    specialize (Hat (nth i (d_indices d) []) (nth_In _ _ Hi)). lia. }
  assert (forall i, i < nsites d -> nth_error (d_positions d) i = Some (place_of d i) /\ length (place_of d i) = b_dim b) as Hpos.
  { intros i Hi. destruct (wf_positions _ C) as [Lp Hp]. unfold place_of. unfold vec in *.
    split; [apply nth_error_nth'; lia|]. rewrite <- Hdim. apply Hp, nth_In. lia. }
  destruct (all_some_forall2 (atom_dots l d) (fun k D => exists a col, nth_error atoms k = Some a /\ atom_getattr a "color" = Some col /\
          dt_points D = map (fun i => on_page (place_of d i)) (filter (fun i => atom_at d i =? k) (seq 0 (nsites d))) /\
          Some (dt_radius D) = atom_getattr a "radius" /\ dt_scale D = 1%Q /\ dt_label D = atom_getattr a "name" /\
          dt_color D = (if match col with VNone => true | VStr s => String.eqb s "" | VNum q => Qeq_bool q 0 end then VStr (String.append "C" (show_nat k)) else col)) (seq 0 n)) as [discs [Ediscs Hdiscs]].
  { intros k Hk. apply in_seq in Hk. destruct (nth_error atoms k) as [a|] eqn:Ea; [|apply nth_error_None in Ea; fold n in Ea; lia].
    destruct (Hattr a (nth_error_In _ _ Ea)) as (A1 & A2 & A3). unfold atom_dots. fold atoms. rewrite Ea.
    destruct (atom_getattr a "color") as [col|] eqn:Ec; [|congruence]. destruct (atom_getattr a "name") as [nm|] eqn:En; [|congruence].
    destruct (atom_getattr a "radius") as [rd|] eqn:Er; [|congruence]. eexists. split; [reflexivity|]. exists a, col. rewrite Er, En.
    cbn [draw_sites dt_points dt_radius dt_scale dt_label dt_color]. repeat (split; [auto|]).
    - rewrite get_positions_select by auto. rewrite map_map. rewrite (filter_ext_seq (fun i => (atom_of d i =? Z.of_nat k)%Z) (fun i => atom_at d i =? k)).
      + apply map_ext. intro i. apply planar_page.
      + intros i _ Hi. cbn in Hi. unfold atom_of, atom_at. specialize (Hat (nth i (d_indices d) []) (nth_In _ _ Hi)).
        destruct (Z.eqb_spec (last (nth i (d_indices d) []) 0%Z) (Z.of_nat k)), (Nat.eqb_spec (Z.to_nat (last (nth i (d_indices d) []) 0%Z)) k); auto; lia.
    - repeat (split; auto). unfold disc_color. destruct col as [|s|q]; cbn [truthy]; auto; [destruct (String.eqb s "")|destruct (Qeq_bool q 0)]; reflexivity. }
  set (R1 := fun (ij : nat * nat) (s : line) => exists c, pair_color n (VStr "k") colors (atom_at d (fst ij)) (atom_at d (snd ij)) c /\ drawn (place_of d (fst ij)) (place_of d (snd ij)) c s).
  set (R2 := fun (e : nat * slot) => drawn (place_of d (fst e))
          (part_way pscale (place_of d (fst e)) (lattice_point (b_dim b) (b_mat b) (place_of d (s_nbr (snd e))) (map Z.opp (s_nvec (snd e))))) (VStr "0.5")).
  destruct (all_some_forall2 (site_lines b d hop per show pscale) (fun i row => exists l1 l2, row = l1 ++ l2 /\
      Forall2 R1 (map (pair i) (filter (Nat.ltb i) (map fst (regular_links d i)))) l1 /\
      Forall2 R2 (if show then map (pair i) (filter s_per (slots d i)) else []) l2) (seq 0 (nsites d))) as [rows [Erows Hrows]].
  { intros i Hi. apply in_seq in Hi. destruct Hi as [_ Hi]. cbn in Hi. destruct (Halpha i Hi) as [A1 A2]. destruct (Hpos i Hi) as [P1 P2].
    unfold site_lines. rewrite A1, P1, (regular_row d i W Hi).
    destruct (all_some_forall2 (bond_line d hop (atom_at d i) (place_of d i)) (fun j s => R1 (i, j) s) (filter (Nat.ltb i) (map fst (regular_links d i)))) as [l1 [-> H1]].
    { intros j Hj. apply filter_In in Hj. destruct Hj as [Hj _]. assert (j < nsites d) as Hjn.
      { unfold regular_links in Hj. rewrite map_map in Hj. apply in_map_iff in Hj. destruct Hj as [s [<- Hs]]. apply filter_In in Hs. destruct Hs as [Hs _].
        unfold slots, valid_slots in Hs. apply in_map_iff in Hs. destruct Hs as [c [<- Hc]]. apply filter_In in Hc. destruct Hc as [Hc Hv]. apply in_seq in Hc.
        apply (wf_nb _ C); auto; lia. }
      destruct (Halpha j Hjn) as [B1 B2]. destruct (Hpos j Hjn) as [Q1 Q2]. unfold bond_line. rewrite Q1, B1.
      destruct (Hhop _ _ A2 B2) as [c [-> Hc]]. eexists. split; [reflexivity|]. exists c. split; auto. cbn [fst snd].
      apply draw_vector_drawn; [rewrite vsub_length; congruence|]. apply vadd_vsub. congruence. }
    assert (exists l2, (if show then match periodic_row d i with None => None | Some es => all_some (map (stub_line b d per pscale (atom_at d i) (place_of d i)) es) end
             else Some []) = Some l2 /\ Forall2 R2 (if show then map (pair i) (filter s_per (slots d i)) else []) l2) as [l2 [-> H2]].
    { destruct show; [|exists []; split; auto]. rewrite (periodic_row_spec d i W Hi). rewrite map_map.
      destruct (all_some_forall2 (fun s => stub_line b d per pscale (atom_at d i) (place_of d i) (s_nbr s, s_nvec s)) (fun s => R2 (i, s)) (filter s_per (slots d i))) as [l2 [E2 H2]].
      - intros s Hs. apply filter_In in Hs. destruct Hs as [Hs _]. unfold slots, valid_slots in Hs. apply in_map_iff in Hs. destruct Hs as [c [<- Hc]].
        apply filter_In in Hc. destruct Hc as [Hc Hv]. apply in_seq in Hc. assert (c < d_cols d) as Hc' by lia.
        pose proof (wf_nb _ C i c Hi Hc' Hv) as Hjn. pose proof (wf_nvec _ W i c Hi Hc') as Hn. cbn [slot_at s_nbr s_nvec].
        destruct (Halpha _ Hjn) as [B1 B2]. destruct (Hpos _ Hjn) as [Q1 Q2]. unfold stub_line. cbn [fst snd]. rewrite Q1, B1.
        destruct (Hper _ _ A2 B2) as [c0 [-> Hc0]]. assert (c0 = VStr "0.5") as ->.
        { destruct Hc0 as [[_ ->]|(l1' & e & l2' & E & _)]; auto. destruct l1'; discriminate. }
        eexists. split; [reflexivity|]. unfold R2. cbn [fst snd slot_at s_nbr s_nvec]. set (j := nb d i c) in *. set (v := map Z.opp (cell [] (d_pnvecs d) i c)) in *.
        assert (length v = b_dim b) as Lv by (unfold v; rewrite map_length; congruence).
        assert (length (translate b v (place_of d j)) = b_dim b) as Lt by (apply translate_length; auto).
        apply draw_vector_drawn; [unfold vscale; rewrite map_length, vsub_length; congruence|].
        eapply veq_trans; [apply part_way_spec; congruence|].
        pose proof (translate_point b v (place_of d j) Hb Lv Q2) as Ht. apply veq_nth in Ht. destruct Ht as [_ Ht].
        apply (veq_nth_lt _ _ (length (place_of d i))); [unfold part_way; rewrite map_length, seq_length; auto..|].
        intros k Hk. unfold part_way. rewrite !(nth_map_in _ _ _ 0) by (rewrite seq_length; auto). rewrite seq_nth by auto. cbn [Nat.add]. rewrite Ht. reflexivity.
      - exists l2. split; auto. apply Forall2_map_l. exact H2. }
    exists (l1 ++ l2). split; auto. exists l1, l2. split; auto. split; auto. apply Forall2_map_l. exact H1. }
  destruct (collect_two R1 R2 (fun i => map (pair i) (filter (Nat.ltb i) (map fst (regular_links d i))))
     (fun i => if show then map (pair i) (filter s_per (slots d i)) else []) _ _ Hrows) as (L1 & L2 & HP & H1 & H2).
  exists discs, (concat rows), L1, L2. split.
  { unfold plot. fold b atoms n. destruct (Nat.ltb_spec 3 (b_dim b)); [lia|]. rewrite Ed, Ediscs, Eh, Ep. unfold num_sites. fold (nsites d). rewrite Erows. reflexivity. }
  split; auto. split; auto. split; [exact H1|]. destruct show; [exact H2|].
  assert (flat_map (fun _ : nat => ([] : list (nat * slot))) (seq 0 (nsites d)) = []) as E0 by (clear; induction (seq 0 (nsites d)) as [|x xs IH]; [reflexivity|exact IH]).
  rewrite E0 in H2. exact H2.
Qed.

(** The bonds that are drawn: every pair of regular neighbours once. *)
Theorem C98_bonds_once :
  forall d, wf d -> (forall i, i < nsites d -> NoDup (map fst (regular_links d i))) ->
    NoDup (bonds_up d) /\
    (forall i j, In (i, j) (bonds_up d) <-> i < j /\ i < nsites d /\ In j (map fst (regular_links d i))) /\
    ((forall i j, i < nsites d -> In j (map fst (regular_links d i)) -> In i (map fst (regular_links d j))) ->
     forall i j, i < nsites d -> i <> j -> In j (map fst (regular_links d i)) ->
       In (Nat.min i j, Nat.max i j) (bonds_up d) /\ ~ In (Nat.max i j, Nat.min i j) (bonds_up d)).
Proof.
  intros d W Hnd.
  assert (forall i j, In (i, j) (bonds_up d) <-> i < j /\ i < nsites d /\ In j (map fst (regular_links d i))) as Hin.
  { intros i j. unfold bonds_up. rewrite in_flat_map. split.
    - intros [k [Hk H]]. apply in_seq in Hk. apply in_map_iff in H. destruct H as [j' [E H]]. injection E as -> ->. apply filter_In in H.
      destruct H as [H1 H2]. apply Nat.ltb_lt in H2. split; auto. split; auto. lia.
    - intros [H1 [H2 H3]]. exists i. split; [apply in_seq; lia|]. apply in_map. apply filter_In. split; auto. apply Nat.ltb_lt. auto. }
  split; [|split; auto].
  - unfold bonds_up. apply NoDup_flat_map.
    + apply seq_NoDup.
    + intros i Hi. apply in_seq in Hi. apply FinFun.Injective_map_NoDup; [intros x y E; congruence|]. apply NoDup_filter. apply Hnd. lia.
    + intros x y z _ _ Hx Hy. apply in_map_iff in Hx, Hy. destruct Hx as [u [<- _]], Hy as [v [E _]]. congruence.
  - intros Hsym i j Hi Hne Hj.
    assert (j < nsites d) as Hjn.
    { unfold regular_links in Hj. rewrite map_map in Hj. apply in_map_iff in Hj. destruct Hj as [s [<- Hs]]. apply filter_In in Hs. destruct Hs as [Hs _].
      unfold slots, valid_slots in Hs. apply in_map_iff in Hs. destruct Hs as [c [<- Hc]]. apply filter_In in Hc. destruct Hc as [Hc Hv]. apply in_seq in Hc.
      apply (wf_nb _ (wf_c _ W)); auto; lia. }
    split; [|intro H; apply Hin in H; lia].
    apply Hin. destruct (Nat.lt_ge_cases i j).
    + rewrite Nat.min_l, Nat.max_r by lia. auto.
    + rewrite Nat.min_r, Nat.max_l by lia. split; [lia|]. split; auto.
Qed.

(** Lattices of more than three dimensions and lattices that are not built cannot be drawn. *)
Theorem C98_errors :
  forall l show pscale colors,
    (3 < b_dim (lt_basis l) -> plot l show pscale colors = Raise ValueError) /\
    (b_dim (lt_basis l) <= 3 -> lt_data l = None -> st_atoms (lt_structure l) <> [] -> plot l show pscale colors = Raise IndexError).
Proof.
  intros l show pscale colors. unfold plot. cbv zeta. split.
  - intro H. apply Nat.ltb_lt in H. rewrite H. reflexivity.
  - intros H E Ha. destruct (Nat.ltb_spec 3 (b_dim (lt_basis l))); [lia|]. rewrite E. destruct (st_atoms (lt_structure l)); [congruence|reflexivity].
Qed.

Example C98_errors_example :
  let b4 := mkBasis [[1; 0; 0; 0]; [0; 1; 0; 0]; [0; 0; 1; 0]; [0; 0; 0; 1]]%Q [[1; 0; 0; 0]; [0; 1; 0; 0]; [0; 0; 1; 0]; [0; 0; 0; 1]]%Q in
  plot (new_lattice (run_calls brute b4 [])) true (1#2) [] = Raise ValueError /\ plot (new_lattice two_atoms) true (1#2) [] = Raise IndexError.
Proof. split; vm_compute; reflexivity. Qed.

(** The ring of five sites: the hypotheses of both theorems hold; four bonds in the given colour, two grey half lines. *)
Example C98_example :
  valid_basis (lt_basis ring5) /\ b_dim (lt_basis ring5) <= 3 /\ lt_data ring5 = Some ring5_data /\ d_dim ring5_data = b_dim (lt_basis ring5) /\
  (forall i, In i (d_indices ring5_data) -> (0 <= last i 0 < Z.of_nat (length (st_atoms (lt_structure ring5))))%Z) /\
  for_pair 1 0 0 (0, -1, VStr "r")%Z /\ bonds_up ring5_data = [(0, 1); (1, 2); (2, 3); (3, 4)] /\
  match plot ring5 true (1#2) [(0, -1, VStr "r")]%Z with
  | Ok (_, lines) => map (fun s => (map Qred (ln_start s), map Qred (ln_end s), ln_color s)) lines =
      [([0; 0], [1; 0], VStr "r"); ([0; 0], [-1#2; 0], VStr "0.5"); ([1; 0], [2; 0], VStr "r"); ([2; 0], [3; 0], VStr "r");
       ([3; 0], [4; 0], VStr "r"); ([4; 0], [9#2; 0], VStr "0.5")]%Q
  | Raise _ => False
  end.
Proof.
  split; [split; [split; [reflexivity|intros r [<-|[]]; reflexivity]|split; [split; [reflexivity|intros r [<-|[]]; reflexivity]|
    split; intros [|i] [|j] Hi Hj; cbn in Hi, Hj; try lia; reflexivity]]|].
  split; [cbn; lia|]. split; [reflexivity|]. split; [reflexivity|].
  split; [intros i Hi; cbn in Hi; repeat (destruct Hi as [<-|Hi]; [cbn; lia|]); contradiction|].
  split; [left; split; (split; [lia|cbn; lia])|]. split; vm_compute; reflexivity.
Qed.

Print Assumptions C98_plot.
Print Assumptions C98_bonds_once.
Print Assumptions C98_errors.
Print Assumptions C98_example.
