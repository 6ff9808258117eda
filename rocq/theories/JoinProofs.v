(** * Joining pieces of a hypercubic lattice *)
From Coq Require Import String List ZArith QArith Qabs Qround Bool Arith Lia Lqa Permutation Sorting.Sorted.
From Verif Require Import Np NpFacts LinAlg LinFacts SpecUtils SpecBasis BasisModel BasisProofs PropBasis SpatialModel SpecSpatial SpatialProofs SpecStructure StructureModel RoundFacts StructureFacts
  AnalyzeProofs SpecNeighbors SpecLattice DataModel SpecData DataFacts DataProofs DataAppend LatticeModel SpecGrid GridProofs PropMinDist RepeatProofs SpecSeam PropSeam SpecJoin.
Import ListNotations.
Open Scope nat_scope.
Open Scope list_scope.

Lemma cubic_aligned d V a : square d V -> cubic_lattice d V a -> axis_aligned d V.
Proof.
  intros Hs [Ha HV]. split; auto. intros i j Hi Hj. specialize (HV i j Hi Hj). unfold delta in HV. destruct (i =? j); rewrite HV; lra.
Qed.

Lemma unit_step_ext d n m n' m' : (forall k, k < d -> nth k n 0%Z = nth k n' 0%Z) -> (forall k, k < d -> nth k m 0%Z = nth k m' 0%Z) ->
  unit_step d n m <-> unit_step d n' m'.
Proof.
  intros H1 H2. unfold unit_step. split; intros [k [Hk [E1 E2]]]; exists k; (split; [auto|]).
  - rewrite <- H1, <- H2 by auto. split; auto. intros b Hb Hbk. rewrite <- H1, <- H2 by auto. auto.
  - rewrite H1, H2 by auto. split; auto. intros b Hb Hbk. rewrite H1, H2 by auto. auto.
Qed.

Lemma unit_step_sym d n m : unit_step d n m <-> unit_step d m n.
Proof.
  unfold unit_step. split; intros [k [Hk [E1 E2]]]; exists k; (split; [auto|]); (split; [lia|]); intros b Hb Hbk; symmetry; auto.
Qed.

Lemma unit_step_shift d n m t n' m' : (forall k, k < d -> nth k n' 0%Z = (nth k n 0 + nth k t 0)%Z) ->
  (forall k, k < d -> nth k m' 0%Z = (nth k m 0 + nth k t 0)%Z) -> unit_step d n m <-> unit_step d n' m'.
Proof.
  intros H1 H2. unfold unit_step. split; intros [k [Hk [E1 E2]]]; exists k; (split; [auto|]).
  - rewrite H1, H2 by auto. split; [lia|]. intros b Hb Hbk. rewrite H1, H2 by auto. rewrite E2 by auto. auto.
  - rewrite H1, H2 in E1 by auto. split; [lia|]. intros b Hb Hbk. specialize (E2 b Hb Hbk). rewrite H1, H2 in E2 by auto. lia.
Qed.

Section Grid.
  Variables (d : nat) (a : Q) (za : Z) (r0 : list Q) (C : list Z -> Prop) (m : nat) (dt : data).
  Hypothesis G : grid_data d a za r0 C m dt.

  Lemma grid_cell i : i < nsites dt -> exists n, nth i (d_indices dt) [] = n ++ [0%Z] /\ length n = d /\ C n.
  Proof. intro Hi. apply (gd_cells _ _ _ _ _ _ _ G). apply nth_In. auto. Qed.

  Lemma grid_site n : length n = d -> C n -> exists i, i < nsites dt /\ nth i (d_indices dt) [] = n ++ [0%Z].
  Proof.
    intros Hn HC. assert (In (n ++ [0%Z]) (d_indices dt)) as Hin by (apply (gd_cells _ _ _ _ _ _ _ G); eauto).
    apply (In_nth _ _ []) in Hin. destruct Hin as [i [Hi E]]. exists i. auto.
  Qed.

  Lemma grid_inj i j : i < nsites dt -> j < nsites dt -> (forall k, k < d -> nth k (nth i (d_indices dt) []) 0%Z = nth k (nth j (d_indices dt) []) 0%Z) -> i = j.
  Proof.
    intros Hi Hj H. destruct (grid_cell i Hi) as [n [En [Ln _]]]. destruct (grid_cell j Hj) as [n' [En' [Ln' _]]].
    assert (n = n') as <-.
    { apply (list_eq_nth _ _ 0%Z); [lia|]. intros k Hk. specialize (H k ltac:(lia)). rewrite En, En' in H. rewrite !app_nth1 in H by lia. auto. }
    pose proof (gd_once _ _ _ _ _ _ _ G) as HN. rewrite (NoDup_nth _ []) in HN. apply HN; auto. congruence.
  Qed.

  Lemma grid_nonempty : 0 < nsites dt.
  Proof. destruct (gd_free _ _ _ _ _ _ _ G) as [i [c [H _]]]. lia. Qed.

  Lemma grid_values : length (d_distvals dt) <= 2.
  Proof.
    assert (NoDup (d_distvals dt)) as HN.
    { pose proof (wf_distvals _ (gd_wf _ _ _ _ _ _ _ G)) as H. apply increasing_NoDup in H. auto. }
    change 2 with (length [Inf; Fin za]). apply NoDup_incl_length; auto. intros x Hx. destruct (gd_values _ _ _ _ _ _ _ G x Hx) as [->| ->]; cbn; auto.
  Qed.
End Grid.

(** A free place, when some site has fewer links than there are columns. *)
Lemma free_place dt i : i < nsites dt -> length (links dt i) < d_cols dt -> exists c, c < d_cols dt /\ valid dt i c = false.
Proof.
  intros Hi H. unfold links, valid_slots in H. rewrite map_length in H.
  destruct (forallb (valid dt i) (seq 0 (d_cols dt))) eqn:E.
  - exfalso. rewrite forallb_forall in E. assert (forall q, (forall x, In x q -> valid dt i x = true) -> length (filter (valid dt i) q) = length q) as F.
    { induction q as [|x q IHq]; cbn [filter length]; intro HF; auto. rewrite (HF x) by (left; auto). cbn [length]. rewrite IHq; auto. intros; apply HF; right; auto. }
    rewrite (F _ E), seq_length in H. lia.
  - assert (exists c, In c (seq 0 (d_cols dt)) /\ valid dt i c = false) as [c [Hc Hv]].
    { clear H. induction (seq 0 (d_cols dt)) as [|x q IHq]; [discriminate|]. cbn [forallb] in E. destruct (valid dt i x) eqn:V; cbn [andb] in E.
      - destruct (IHq E) as [c [H1 H2]]. exists c. split; [right|]; auto.
      - exists x. split; [left|]; auto. }
    apply in_seq in Hc. exists c. split; auto. lia.
Qed.

Definition has_link (d : nat) (C : list Z -> Prop) : Prop :=
  exists n n', length n = d /\ length n' = d /\ C n /\ C n' /\ unit_step d n n'.

Section Join.
  Variables (ball : list vec -> list vec -> Q -> list (list nat)) (argsort : list dist -> list nat) (w : conversions) (l : lattice) (dim ax : nat) (side E : Z).
  Variables (d e : data) (an : analysis) (r a : Q) (za : Z) (r0 : list Q) (C D : list Z -> Prop) (m m' : nat) (n : list Z).
  Let V := b_mat (lt_basis l).
  Let J := joined_cells dim n C D.
  Hypothesis (Hball : correct_ball ball) (Harg : is_argsort dleb argsort) (B : built dim l) (HV : cubic_lattice dim V a) (Hax : ax < dim).
  Hypothesis (Ed : lt_data l = Some d) (Gd : grid_data dim a za r0 C m d) (Ge : grid_data dim a za r0 D m' e).
  Hypothesis (Ean : st_analysis (lt_structure l) = Some an) (Er : query_radius an = Some r) (Hr : (a * a <= r * r /\ r * r < 2 * (a * a))%Q) (Hza0 : (0 <= za)%Z).
  Hypothesis (Hext : extent (if (0 <? side)%Z then d_indices d else d_indices e) ax E) (Hn : n = unit dim ax (if (0 <? side)%Z then E else - E)%Z).
  Hypothesis (Hdis : forall c, length c = dim -> C c -> moved_cells dim n D c -> False).
  Hypothesis (Hdeg : forall c, length c = dim -> J c -> degree_at_most dim J c (Nat.max m m')).
  Hypothesis (Huneven : exists c, length c = dim /\ J c /\ degree_at_most dim J c (Nat.max m m' - 1)).
  Hypothesis (Hlink : has_link dim C \/ has_link dim D).

  Let gap i j := sqdist (nth i (d_positions d) []) (lattice_point dim V (nth j (d_positions e) []) n).
  Let ci i := nth i (d_indices d) [].
  Let cj j := shift_index n (nth j (d_indices e) []).

  Lemma join_n : length n = dim.
  Proof. rewrite Hn. apply unit_length. Qed.

  Lemma join_index j : j < nsites e -> length (nth j (d_indices e) []) = S dim.
  Proof.
    intro Hj. rewrite <- (gd_dim _ _ _ _ _ _ _ Ge). apply (wf_indices _ (gd_wf _ _ _ _ _ _ _ Ge)). apply nth_In. auto.
  Qed.

  Lemma join_cj j k : j < nsites e -> nth k (cj j) 0%Z = (nth k (nth j (d_indices e) []) 0 + nth k n 0)%Z.
  Proof. intro Hj. apply (nth_shift_index _ _ dim); [apply join_index; auto|apply join_n]. Qed.

  Lemma join_cj_app j : j < nsites e -> exists c, cj j = c ++ [0%Z] /\ length c = dim /\ moved_cells dim n D c.
  Proof.
    intro Hj. destruct (grid_cell _ _ _ _ _ _ _ Ge j Hj) as [c [Ec [Lc HD]]]. unfold cj. rewrite Ec, shift_index_app. exists (map2 Z.add c n).
    pose proof join_n as Ln. split; auto. split; [rewrite DataFacts.map2_length; lia|]. exists c. split; auto. split; auto. intros k Hk.
    assert (nth k (map2 Z.add c n ++ [0%Z]) 0%Z = (nth k (c ++ [0%Z]) 0 + nth k n 0)%Z) as H.
    { rewrite <- shift_index_app, <- Ec. apply (nth_shift_index _ _ dim); [apply join_index; auto|auto]. }
    rewrite !app_nth1 in H by (try rewrite DataFacts.map2_length; lia). auto.
  Qed.

  Lemma join_gap i j : i < nsites d -> j < nsites e -> (gap i j == a * a * inject_Z (zs dim (fun k => nth k (cj j) 0 - nth k (ci i) 0)%Z))%Q.
  Proof.
    intros Hi Hj. rewrite <- sum_squares. unfold gap, sqdist.
    destruct (gd_positions _ _ _ _ _ _ _ Gd i Hi) as [L1 P1]. destruct (gd_positions _ _ _ _ _ _ _ Ge j Hj) as [L2 P2]. unfold vec in *. rewrite L1.
    apply sum_ext. intros k Hk. rewrite nth_lattice_point by auto. rewrite (row_sum dim V a HV) by auto. rewrite P1, P2 by auto.
    rewrite join_cj by auto. unfold ci, Z.sub. rewrite !inject_Z_plus, inject_Z_opp. ring.
  Qed.

  Lemma join_apart i j : i < nsites d -> j < nsites e -> (1 <= zs dim (fun k => nth k (cj j) 0 - nth k (ci i) 0))%Z.
  Proof.
    intros Hi Hj. pose proof (zs_nonneg dim (fun k => nth k (cj j) 0 - nth k (ci i) 0)%Z) as H.
    destruct (Z.eq_dec (zs dim (fun k => nth k (cj j) 0 - nth k (ci i) 0)%Z) 0) as [E0|]; [|lia]. exfalso.
    destruct (grid_cell _ _ _ _ _ _ _ Gd i Hi) as [c [Ec [Lc HC]]]. destruct (join_cj_app j Hj) as [c' [Ec' [Lc' HD]]].
    assert (c = c') as <-.
    { apply (list_eq_nth _ _ 0%Z); [lia|]. intros k Hk. pose proof (zs_zero dim _ E0 k ltac:(lia)) as E1. cbv beta in E1. unfold ci in E1. rewrite Ec, Ec' in E1.
      rewrite !app_nth1 in E1 by lia. lia. }
    exact (Hdis c Lc HC HD).
  Qed.

  Lemma join_near i j : i < nsites d -> j < nsites e -> (gap i j <= r * r)%Q <-> unit_step dim (ci i) (cj j).
  Proof.
    intros Hi Hj. rewrite (join_gap i j Hi Hj), unit_step_sq. pose proof (join_apart i j Hi Hj) as H1.
    assert (0 < a * a)%Q as Haa by (destruct HV as [Ha _]; nra).
    set (z := zs dim (fun k => nth k (cj j) 0 - nth k (ci i) 0)%Z) in *. split.
    - intro Hle. destruct (Z_le_gt_dec z 1) as [|G]; [lia|]. exfalso. assert (2 <= inject_Z z)%Q by (change 2%Q with (inject_Z 2); rewrite <- Zle_Qle; lia). nra.
    - intros ->. change (inject_Z 1) with 1%Q. lra.
  Qed.

  Lemma join_in i : i < nsites d -> exists c, ci i = c ++ [0%Z] /\ length c = dim /\ J c.
  Proof. intro Hi. destruct (grid_cell _ _ _ _ _ _ _ Gd i Hi) as [c [Ec [Lc HC]]]. exists c. split; auto. split; auto. left. auto. Qed.
  Lemma join_in' j : j < nsites e -> exists c, cj j = c ++ [0%Z] /\ length c = dim /\ J c.
  Proof. intro Hj. destruct (join_cj_app j Hj) as [c [Ec [Lc HC]]]. exists c. split; auto. split; auto. right. auto. Qed.

  (** Both parts in one numbering. *)
  Let cc k := if k <? nsites d then ci k else cj (k - nsites d).
  Lemma join_cc k : k < nsites d + nsites e -> exists c, cc k = c ++ [0%Z] /\ length c = dim /\ J c.
  Proof. intro Hk. unfold cc. destruct (Nat.ltb_spec k (nsites d)); [apply join_in|apply join_in']; lia. Qed.

  Lemma join_cc_inj k k' : k < nsites d + nsites e -> k' < nsites d + nsites e -> (forall i, i < dim -> nth i (cc k) 0%Z = nth i (cc k') 0%Z) -> k = k'.
  Proof.
    assert (forall i j, i < nsites d -> j < nsites e -> (forall k, k < dim -> nth k (ci i) 0%Z = nth k (cj j) 0%Z) -> False) as Hx.
    { intros i j Hi Hj H. pose proof (join_apart i j Hi Hj) as H1. rewrite zs_all_zero in H1; [lia|]. intros q Hq. rewrite H by auto. lia. }
    intros Hk Hk' H. unfold cc in H. destruct (Nat.ltb_spec k (nsites d)), (Nat.ltb_spec k' (nsites d)).
    - apply (grid_inj _ _ _ _ _ _ _ Gd); auto.
    - exfalso. apply (Hx k (k' - nsites d)); auto; lia.
    - exfalso. apply (Hx k' (k - nsites d)); auto; try lia. intros i Hi. symmetry. auto.
    - assert (k - nsites d = k' - nsites d); [|lia]. apply (grid_inj _ _ _ _ _ _ _ Ge); try lia. intros i Hi. specialize (H i Hi).
      rewrite !join_cj in H by lia. lia.
  Qed.

  (** A list of partners is not longer than allowed. *)
  Lemma join_count k q c : k < nsites d + nsites e -> cc k = c ++ [0%Z] -> length c = dim -> degree_at_most dim J c q -> forall L, NoDup L ->
    (forall k', In k' L -> k' < nsites d + nsites e /\ unit_step dim (cc k) (cc k')) -> length L <= q.
  Proof.
    intros Hk Ec Lc Hc L HL1 HL2. rewrite <- (map_length (fun k' => removelast (cc k')) L). apply Hc.
    - apply NoDup_map_inj; auto. intros x y Hx Hy Exy. destruct (HL2 x Hx) as [Hx1 _]. destruct (HL2 y Hy) as [Hy1 _].
      destruct (join_cc x Hx1) as [cx [Ex _]]. destruct (join_cc y Hy1) as [cy [Ey _]]. apply join_cc_inj; auto. rewrite Ex, Ey in Exy. rewrite !removelast_last in Exy. congruence.
    - intros v Hv. apply in_map_iff in Hv. destruct Hv as [x [<- Hx]]. destruct (HL2 x Hx) as [Hx1 Hx2]. destruct (join_cc x Hx1) as [cx [Ex [Lx HJ]]].
      rewrite Ex in *. rewrite removelast_last. split; auto. split; auto. rewrite Ec in Hx2.
      eapply unit_step_ext; [| |exact Hx2]; intros i Hi; rewrite app_nth1 by lia; auto.
  Qed.

  Lemma cc_left i : i < nsites d -> cc i = ci i.
  Proof. intro H. unfold cc. rewrite (proj2 (Nat.ltb_lt _ _)) by auto. auto. Qed.
  Lemma cc_right j : cc (nsites d + j) = cj j.
  Proof. unfold cc. rewrite (proj2 (Nat.ltb_ge _ _)) by lia. f_equal. lia. Qed.

  Lemma join_roomy : roomy dim V n r d e.
  Proof.
    split; rewrite (gd_cols _ _ _ _ _ _ _ Gd), (gd_cols _ _ _ _ _ _ _ Ge); fold gap.
    - intros i Hi L HL1 HL2. destruct (join_in i Hi) as [c [Ec [Lc HJ]]]. destruct (gd_links _ _ _ _ _ _ _ Gd i Hi) as [N1 I1].
      assert (length (map fst (links d i) ++ map (Nat.add (nsites d)) L) <= Nat.max m m') as H.
      { apply (join_count i _ c); [lia|rewrite cc_left; auto|auto|auto| |].
        - apply NoDup_app'; auto.
          + apply NoDup_map_inj; auto. intros; lia.
          + intros x Hx Hx'. apply in_map_iff in Hx. destruct Hx as [[j z] [<- Hx]]. apply I1 in Hx. apply in_map_iff in Hx'. destruct Hx' as [j' [E1 _]]. cbn in E1. lia.
        - intros x Hx. apply in_app_or in Hx. rewrite (cc_left i) by auto. destruct Hx as [Hx|Hx]; apply in_map_iff in Hx.
          + destruct Hx as [[j z] [<- Hx]]. apply I1 in Hx. destruct Hx as [Hj [Hu _]]. cbn. split; [lia|]. rewrite cc_left by auto. auto.
          + destruct Hx as [j [<- Hj]]. destruct (HL2 j Hj) as [Hj1 Hj2]. split; [lia|]. rewrite cc_right. apply join_near; auto. }
      rewrite app_length, !map_length in H. lia.
    - intros j Hj L HL1 HL2. destruct (join_in' j Hj) as [c [Ec [Lc HJ]]]. destruct (gd_links _ _ _ _ _ _ _ Ge j Hj) as [N1 I1].
      assert (length (L ++ map (Nat.add (nsites d)) (map fst (links e j))) <= Nat.max m m') as H.
      { apply (join_count (nsites d + j) _ c); [lia|rewrite cc_right; auto|auto|auto| |].
        - apply NoDup_app'; auto.
          + apply NoDup_map_inj; auto. intros; lia.
          + intros x Hx Hx'. destruct (HL2 x Hx) as [Hx1 _]. apply in_map_iff in Hx'. destruct Hx' as [j' [E1 _]]. lia.
        - intros x Hx. apply in_app_or in Hx. rewrite cc_right. destruct Hx as [Hx|Hx].
          + destruct (HL2 x Hx) as [Hx1 Hx2]. split; [lia|]. rewrite cc_left by auto. apply unit_step_sym. apply join_near; auto.
          + apply in_map_iff in Hx. destruct Hx as [j' [<- Hx]]. apply in_map_iff in Hx. destruct Hx as [[j0 z] [<- Hx]]. apply I1 in Hx. destruct Hx as [Hj0 [Hu _]]. cbn.
            split; [lia|]. rewrite cc_right. apply (unit_step_shift dim (nth j (d_indices e) []) (nth j0 (d_indices e) []) n); auto; intros k Hk; apply join_cj; auto. }
      rewrite app_length, !map_length in H. lia.
  Qed.

  Lemma join_known x : (x = Inf \/ distance_of_links d e x) <-> x = Inf \/ x = Fin za.
  Proof.
    split; (intros [H|H]; [left; auto|right]).
    - destruct H as [[i [j [Hi H]]]|[i [j [Hi H]]]]; [apply (gd_links _ _ _ _ _ _ _ Gd i Hi) in H|apply (gd_links _ _ _ _ _ _ _ Ge i Hi) in H]; apply H.
    - subst x. destruct Hlink as [[c [c' [L1 [L2 [H1 [H2 Hu]]]]]]|[c [c' [L1 [L2 [H1 [H2 Hu]]]]]]].
      + left. destruct (grid_site _ _ _ _ _ _ _ Gd c L1 H1) as [i [Hi E1]]. destruct (grid_site _ _ _ _ _ _ _ Gd c' L2 H2) as [j [Hj E2]].
        exists i, j. split; auto. apply (gd_links _ _ _ _ _ _ _ Gd i Hi). split; auto. split; auto. rewrite E1, E2.
        eapply unit_step_ext; [| |exact Hu]; intros k Hk; rewrite app_nth1 by lia; auto.
      + right. destruct (grid_site _ _ _ _ _ _ _ Ge c L1 H1) as [i [Hi E1]]. destruct (grid_site _ _ _ _ _ _ _ Ge c' L2 H2) as [j [Hj E2]].
        exists i, j. split; auto. apply (gd_links _ _ _ _ _ _ _ Ge i Hi). split; auto. split; auto. rewrite E1, E2.
        eapply unit_step_ext; [| |exact Hu]; intros k Hk; rewrite app_nth1 by lia; auto.
  Qed.

  Lemma join_across i j x : i < nsites d -> j < nsites e ->
    (gap i j <= r * r)%Q /\ x <> Inf /\ rounded_up (fun y => y = Inf \/ distance_of_links d e y) (gap i j) x <->
    unit_step dim (ci i) (cj j) /\ x = Fin za /\ (a * 1000000 <= inject_Z za)%Q.
  Proof.
    intros Hi Hj. rewrite (join_near i j Hi Hj). assert (0 <= inject_Z za)%Q as Hz by (change 0%Q with (inject_Z 0); rewrite <- Zle_Qle; lia).
    destruct HV as [Ha _].
    assert (unit_step dim (ci i) (cj j) -> root_below (gap i j) (Fin za) <-> (a * 1000000 <= inject_Z za)%Q) as Hroot.
    { intro Hu. pose proof (join_gap i j Hi Hj) as Eg. apply unit_step_sq in Hu. rewrite Hu in Eg. change (inject_Z 1) with 1%Q in Eg. unfold root_below. rewrite Eg, inject_Z_mult.
      set (z := inject_Z za) in *. split.
      - intros [_ H]. apply Qnot_lt_le. intro Lt. assert (z * z < (a * 1000000) * (a * 1000000))%Q by nra. lra.
      - intro H. split; auto. nra. }
    split.
    - intros [Hu [Hx [Hk [Hb _]]]]. split; auto. apply join_known in Hk. destruct Hk as [|Hk]; [contradiction|]. split; auto. subst x. apply Hroot; auto.
    - intros [Hu [-> Hle]]. split; auto. split; [discriminate|]. split; [apply join_known; auto|]. split; [apply Hroot; auto|].
      intros y Hy _. apply join_known in Hy. destruct Hy as [->| ->]; [reflexivity|]. cbn. apply Z.leb_refl.
  Qed.

  Lemma grid_join : exists l' d', append_section ball argsort w l (data_section e) ax side None false (is_primitive l) = Some l' /\
    lt_structure l' = lt_structure l /\ lt_primitive l' = lt_primitive l /\ lt_data l' = Some d' /\
    d_indices d' = d_indices d ++ map (shift_index n) (d_indices e) /\
    ((a * 1000000 <= inject_Z za)%Q -> grid_data dim a za r0 J (Nat.max m m') d') /\
    ((inject_Z za < a * 1000000)%Q -> forall i, i < nsites d' -> forall j x, In (j, x) (links d' i) <->
       j < nsites d' /\ unit_step dim (nth i (d_indices d') []) (nth j (d_indices d') []) /\ (i < nsites d <-> j < nsites d) /\ x = Fin za).
  Proof.
    pose proof (grid_nonempty _ _ _ _ _ _ _ Gd) as Nd. pose proof (grid_nonempty _ _ _ _ _ _ _ Ge) as Ne.
    pose proof (gd_wf _ _ _ _ _ _ _ Gd) as Wd. pose proof (gd_wf _ _ _ _ _ _ _ Ge) as We.
    assert (axis_aligned dim V) as Hal.
    { pose proof (bt_basis _ _ B) as [HB1 _]. apply (cubic_aligned dim V a); auto. unfold V. rewrite <- (bt_dim _ _ B). auto. }
    destruct (append_section_links ball argsort w l dim ax side E d e an r n) as (l' & d' & A1 & A2 & A3 & A4 & A5 & A6 & A7 & A8 & A9 & A10 & A11 & A12); auto.
    { apply We. } { apply (gd_dim _ _ _ _ _ _ _ Gd). } { apply (gd_dim _ _ _ _ _ _ _ Ge). }
    { destruct (gd_free _ _ _ _ _ _ _ Ge) as [? [? [? [? ?]]]]. lia. }
    { left. apply (gd_free _ _ _ _ _ _ _ Gd). }
    { pose proof (grid_values _ _ _ _ _ _ _ Gd). pose proof (grid_values _ _ _ _ _ _ _ Ge). lia. }
    { apply join_roomy. }
    destruct A12 as [J1 [J2 [J3 [J4 J5]]]]. fold gap in J4, J5.
    assert (forall k, k < nsites d' -> nth k (d_indices d') [] = cc k) as Hcc.
    { intros k Hk. rewrite A11. unfold cc, ci, cj. destruct (Nat.ltb_spec k (nsites d)).
      - apply app_nth1. auto.
      - rewrite app_nth2 by auto. fold (nsites d). apply (nth_map_in _ _ _ []). unfold nsites in *. lia. }
    (* the links *)
    assert (forall k, k < nsites d' -> NoDup (map fst (links d' k)) /\ forall k' x, In (k', x) (links d' k) <->
              k' < nsites d' /\ unit_step dim (cc k) (cc k') /\ x = Fin za /\ ((k < nsites d <-> k' < nsites d) \/ (a * 1000000 <= inject_Z za)%Q)) as HL.
    { intros k Hk. destruct (Nat.ltb_spec k (nsites d)) as [Hk1|Hk1].
      - destruct (J4 k Hk1) as [S [P1 [P2 P3]]]. destruct (gd_links _ _ _ _ _ _ _ Gd k Hk1) as [N1 I1]. split.
        + eapply Permutation_NoDup; [symmetry; apply Permutation_map; exact P1|]. rewrite map_app. apply NoDup_app'; auto.
          intros x Hx Hx'. apply in_map_iff in Hx. destruct Hx as [[j z] [<- Hx]]. apply I1 in Hx. apply in_map_iff in Hx'. destruct Hx' as [[j' z'] [E1 Hx']].
          apply P3 in Hx'. destruct Hx' as [j0 [-> _]]. cbn in E1. lia.
        + intros k' x. rewrite cc_left by auto. split.
          * intro H. apply (Permutation_in _ P1) in H. apply in_app_or in H. destruct H as [H|H].
            { apply I1 in H. destruct H as [H1 [H2 H3]]. split; [lia|]. rewrite cc_left by auto. split; auto. split; auto. left. tauto. }
            { apply P3 in H. destruct H as [j [-> [_ [Hj H]]]]. apply join_across in H; auto. destruct H as [H1 [H2 H3]]. split; [lia|]. rewrite cc_right. auto. }
          * intros [Hk' [Hu [-> Ho]]]. apply (Permutation_in _ (Permutation_sym P1)). apply in_or_app. destruct (Nat.ltb_spec k' (nsites d)) as [Hk2|Hk2].
            { left. apply I1. rewrite cc_left in Hu by auto. auto. }
            { right. apply P3. exists (k' - nsites d). split; [lia|]. split; auto. split; [lia|]. replace k' with (nsites d + (k' - nsites d)) in Hu by lia. rewrite cc_right in Hu.
              apply join_across; auto; [lia|]. split; auto. split; auto. destruct Ho as [Ho|Ho]; auto. exfalso. apply Ho in Hk1. lia. }
      - assert (exists j, k = nsites d + j) as [j ->] by (exists (k - nsites d); lia). assert (j < nsites e) as Hj by lia.
        destruct (J5 j Hj) as [S [P1 [P2 P3]]]. destruct (gd_links _ _ _ _ _ _ _ Ge j Hj) as [N1 I1]. split.
        + eapply Permutation_NoDup; [symmetry; apply Permutation_map; exact P1|]. rewrite map_app, map_map. cbn [fst]. apply NoDup_app'; auto.
          * rewrite <- (map_map fst (Nat.add (nsites d))). apply NoDup_map_inj; auto. intros; lia.
          * intros x Hx Hx'. apply in_map_iff in Hx. destruct Hx as [[j1 z] [<- Hx]]. apply in_map_iff in Hx'. destruct Hx' as [[i' z'] [E1 Hx']].
            apply P3 in Hx'. destruct Hx' as [Hi _]. cbn in E1. lia.
        + intros k' x. rewrite cc_right. split.
          * intro H. apply (Permutation_in _ P1) in H. apply in_app_or in H. destruct H as [H|H].
            { apply in_map_iff in H. destruct H as [[j1 z] [E1 H]]. cbn in E1. injection E1 as <- <-. apply I1 in H. destruct H as [H1 [H2 H3]]. split; [lia|]. rewrite cc_right.
              split; [|split; auto; left; split; lia].
              apply (unit_step_shift dim (nth j (d_indices e) []) (nth j1 (d_indices e) []) n); auto; intros q Hq; apply join_cj; auto. }
            { apply P3 in H. destruct H as [Hi [_ H]]. apply join_across in H; auto. destruct H as [H1 [H2 H3]]. split; [lia|]. rewrite cc_left by auto.
              split; auto. apply unit_step_sym. auto. }
          * intros [Hk' [Hu [-> Ho]]]. apply (Permutation_in _ (Permutation_sym P1)). apply in_or_app. destruct (Nat.ltb_spec k' (nsites d)) as [Hk2|Hk2].
            { right. apply P3. split; auto. split; auto. apply join_across; auto. rewrite cc_left in Hu by auto. split; [apply unit_step_sym; auto|]. split; auto.
              destruct Ho as [Ho|Ho]; auto. exfalso. apply Ho in Hk2. lia. }
            { left. assert (exists j', k' = nsites d + j') as [j' ->] by (exists (k' - nsites d); lia). apply in_map_iff. exists (j', Fin za). split; auto. apply I1.
              split; [lia|]. split; auto. rewrite cc_right in Hu.
              apply (unit_step_shift dim (nth j (d_indices e) []) (nth j' (d_indices e) []) n) in Hu; auto; intros q Hq; apply join_cj; lia. } }
    exists l', d'. do 5 (split; auto). split.
    - intro Hle. constructor; auto.
      + rewrite A8, (gd_cols _ _ _ _ _ _ _ Gd), (gd_cols _ _ _ _ _ _ _ Ge). auto.
      + destruct Huneven as [c [Lc [HJ Hc]]].
        assert (exists k, k < nsites d' /\ cc k = c ++ [0%Z]) as [k [Hk Ek]].
        { destruct HJ as [HC|[c' [Lc' [HD Hs]]]].
          - destruct (grid_site _ _ _ _ _ _ _ Gd c Lc HC) as [i [Hi Ei]]. exists i. split; [lia|]. rewrite cc_left; auto.
          - destruct (grid_site _ _ _ _ _ _ _ Ge c' Lc' HD) as [j [Hj Ej]]. exists (nsites d + j). split; [lia|]. rewrite cc_right.
            destruct (join_cj_app j Hj) as [c0 [E0 [L0 _]]]. rewrite E0. f_equal. apply (list_eq_nth _ _ 0%Z); [lia|]. intros q Hq.
            pose proof (join_cj j q Hj) as H. rewrite E0, Ej in H. rewrite !app_nth1 in H by lia. rewrite Hs by lia. auto. }
        exists k. destruct (HL k Hk) as [N1 I1].
        assert (length (links d' k) <= Nat.max m m' - 1) as Hlen.
        { rewrite <- (map_length fst). apply (join_count k _ c); auto; [lia|]. intros k' Hk'. apply in_map_iff in Hk'. destruct Hk' as [[k1 x] [<- Hk']]. apply I1 in Hk'. cbn.
          split; [lia|]. apply Hk'. }
        assert (0 < Nat.max m m') as Hm.
        { destruct (gd_free _ _ _ _ _ _ _ Gd) as [? [? [_ [? _]]]]. pose proof (gd_cols _ _ _ _ _ _ _ Gd). lia. }
        destruct (free_place d' k Hk) as [q [Hq1 Hq2]]; [|exists q; auto].
        rewrite A8, (gd_cols _ _ _ _ _ _ _ Gd), (gd_cols _ _ _ _ _ _ _ Ge). lia.
      + intros x Hx. apply join_known. auto.
      + rewrite A11. apply NoDup_app'; [apply (gd_once _ _ _ _ _ _ _ Gd)| |].
        * apply (NoDup_shift dim); [apply join_n| |apply (gd_once _ _ _ _ _ _ _ Ge)]. intros i Hi. rewrite <- (gd_dim _ _ _ _ _ _ _ Ge). apply (wf_indices _ We). auto.
        * intros x Hx Hx'. apply (In_nth _ _ []) in Hx. destruct Hx as [i [Hi <-]]. apply in_map_iff in Hx'. destruct Hx' as [y [Ey Hy]]. apply (In_nth _ _ []) in Hy. destruct Hy as [j [Hj <-]].
          pose proof (join_apart i j Hi Hj) as H. rewrite zs_all_zero in H; [lia|]. intros k Hk. unfold cj, ci. rewrite Ey. lia.
      + intro s. rewrite A11, in_app_iff, in_map_iff. split.
        * intros [H|[y [<- Hy]]].
          { apply (gd_cells _ _ _ _ _ _ _ Gd) in H. destruct H as [c [-> [Lc HC]]]. exists c. split; auto. split; auto. left. auto. }
          { apply (In_nth _ _ []) in Hy. destruct Hy as [j [Hj <-]]. apply join_in'. auto. }
        * intros [c [-> [Lc [HC|[c' [Lc' [HD Hs]]]]]]].
          { left. apply (gd_cells _ _ _ _ _ _ _ Gd). eauto. }
          { right. exists (c' ++ [0%Z]). split; [|apply (gd_cells _ _ _ _ _ _ _ Ge); eauto]. rewrite shift_index_app. f_equal. pose proof join_n as Ln.
            apply (list_eq_nth _ _ 0%Z); [rewrite DataFacts.map2_length; lia|]. intros q Hq. rewrite DataFacts.map2_length in Hq. rewrite Hs by lia. apply nth_map2; lia. }
      + intros k Hk. rewrite (Hcc k Hk). unfold cc. destruct (Nat.ltb_spec k (nsites d)) as [Hk1|Hk1].
        * destruct (J2 k Hk1) as [_ ->]. apply (gd_positions _ _ _ _ _ _ _ Gd k Hk1).
        * assert (exists j, k = nsites d + j) as [j ->] by (exists (k - nsites d); lia). assert (j < nsites e) as Hj by lia. destruct (J3 j Hj) as [_ [_ [_ Hs]]].
          destruct (gd_positions _ _ _ _ _ _ _ Ge j Hj) as [L2 P2].
          assert (length (nth (nsites d + j) (d_positions d') []) = dim) as Lp.
          { rewrite <- A7. apply (wf_positions _ A5). apply nth_In. pose proof (npos _ A5) as L. unfold vec in *. lia. }
          split; auto. intros q Hq. replace (nsites d + j - nsites d) with j by lia. rewrite join_cj by auto.
          destruct Hs as [Hs1 Hs2]. rewrite Hs2. rewrite nth_lattice_point by auto. pose proof (row_sum dim V a HV n q Hq) as Hrow. unfold V in Hrow. rewrite Hrow. rewrite P2 by auto.
          rewrite inject_Z_plus. ring.
      + intros k Hk. destruct (HL k Hk) as [N1 I1]. split; auto. intros k' x. rewrite I1. split.
        * intros [H1 [H2 [H3 _]]]. rewrite !Hcc by auto. auto.
        * intros [H1 [H2 H3]]. rewrite !Hcc in H2 by auto. auto.
    - intros Hlt k Hk k' x. destruct (HL k Hk) as [_ I1]. rewrite I1. split.
      + intros [H1 [H2 [H3 [H4|H4]]]]; [|lra]. rewrite !Hcc by auto. auto.
      + intros [H1 [H2 [H3 H4]]]. rewrite !Hcc in H2 by auto. auto.
  Qed.
End Join.
