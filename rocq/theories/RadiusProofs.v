(** * The radius and the number of neighbours asked for by compute_neighbors *)
From Coq Require Import List ZArith QArith Bool Arith Lia Lqa Permutation Sorting.Sorted.
From Verif Require Import Np NpFacts LinAlg LinFacts SpecUtils SpecBasis SpecSpatial BasisModel BasisProofs SpatialModel
  SpecStructure StructureModel StructureFacts RoundFacts AnalyzeProofs PropAnalyze.
Import ListNotations.
Open Scope nat_scope.
Open Scope list_scope.

Lemma zmax_list_spec l m : zmax_list l = Some m -> In m l /\ forall x, In x l -> (x <= m)%Z.
Proof.
  destruct l as [|x l]; [discriminate|]. cbn. intro E. injection E as <-. revert x.
  induction l as [|y l IH]; intro x; cbn; [split; auto; intros ? [->|[]]; lia|].
  destruct (IH (Z.max x y)) as [H1 H2]. split.
  - destruct H1 as [H1|H1]; auto. destruct (Z.max_spec x y) as [[_ E]|[_ E]]; rewrite E in *; auto.
  - intros z Hz. assert (Z.max x y <= fold_left Z.max l (Z.max x y))%Z by (apply H2; cbn; auto).
    destruct Hz as [->|[->|Hz]]; [lia|lia|]. apply H2; cbn; auto.
Qed.

Lemma zmin_list_spec l m : zmin_list l = Some m -> In m l /\ forall x, In x l -> (m <= x)%Z.
Proof.
  destruct l as [|x l]; [discriminate|]. cbn. intro E. injection E as <-. revert x.
  induction l as [|y l IH]; intro x; cbn; [split; auto; intros ? [->|[]]; lia|].
  destruct (IH (Z.min x y)) as [H1 H2]. split.
  - destruct H1 as [H1|H1]; auto. destruct (Z.min_spec x y) as [[_ E]|[_ E]]; rewrite E in *; auto.
  - intros z Hz. assert (fold_left Z.min l (Z.min x y) <= Z.min x y)%Z by (apply H2; cbn; auto).
    destruct Hz as [->|[->|Hz]]; [lia|lia|]. apply H2; cbn; auto.
Qed.

Section Radius.
  Variables (query : kd_tree) (b : basis) (R : list vec) (cells : list (list Z)) (conns : list (list nat)).
  Let d := b_dim b.
  Let V := b_mat b.
  Let nb := length R.
  Let m := max_connections conns.
  Hypothesis (Hq : correct_tree query) (Hb : valid_basis b) (Hd : 1 <= d) (HR : forall r, In r R -> length r = d).
  Hypothesis (Hcells : get_neighbor_cells b (2 * m) true Qle_bool = Some cells).
  Let raw := raw_dicts query b R m cells.
  Let an := analyze_raw raw conns nb.
  Let allowed a c x := among_first (nth c (nth a conns []) 0) (occurs d V R cells a c) x.

  Lemma distmat_length : length (an_distmat an) = nb.
  Proof. unfold an, analyze_raw. cbn. rewrite map_length, seq_length. reflexivity. Qed.

  Lemma In_distmat a c x : In x (nth c (nth a (an_distmat an) []) []) <-> a < nb /\ c < nb /\ allowed a c x.
  Proof.
    unfold an, analyze_raw. cbn [an_distmat]. destruct (lt_dec a nb) as [Ha|Ha].
    2:{ rewrite (nth_overflow (map _ (seq 0 nb))) by (rewrite map_length, seq_length; lia). destruct c; cbn; split; [tauto|lia|tauto|lia]. }
    rewrite (nth_map_in _ _ _ 0) by (rewrite seq_length; auto). rewrite seq_nth by auto. cbn [Nat.add].
    destruct (lt_dec c nb) as [Hc|Hc].
    2:{ rewrite nth_overflow by (rewrite map_length, seq_length; lia). cbn; split; [tauto|lia]. }
    rewrite (nth_map_in _ _ _ 0) by (rewrite seq_length; auto). rewrite seq_nth by auto. cbn [Nat.add].
    rewrite In_sort_stable. unfold raw. rewrite (In_pair_dists query b R m Hq Hb Hd HR cells Hcells conns (in_max_connections conns)) by auto.
    unfold allowed. tauto.
  Qed.

  Lemma allowed_occurs a c x : allowed a c x -> occurs d V R cells a c x.
  Proof. intros [L [_ [HL [i [_ E]]]]]. apply HL. eapply nth_error_In; eauto. Qed.

  Lemma occurs_pos a c x : occurs d V R cells a c x -> exists z, x = Fin z /\ (1 <= z)%Z.
  Proof.
    intros [Hx [n [_ [z [-> Hz]]]]]. exists z. split; auto. destruct Hz as [Hz _]. assert (z <> 0)%Z by congruence. lia.
  Qed.

  (** Every configured distance is among the distances of the lattice. *)
  Lemma allowed_in_distances a c x : a < nb -> c < nb -> allowed a c x -> In x (concat (an_distances an)).
  Proof.
    intros Ha Hc Hx. destruct (base_row_spec query b R m Hq Hb Hd HR cells Hcells conns (in_max_connections conns) a Ha) as [Hnd [Hk _]].
    fold raw nb in Hnd, Hk.
    apply in_concat. unfold an, analyze_raw. cbn [an_distances]. rewrite map_map.
    eexists. split; [apply in_map_iff; exists a; split; [reflexivity|apply in_seq; lia]|].
    set (keys := dd_keys (base_row raw conns nb a)) in *. set (U := length (unique_distances raw conns nb)).
    assert (In x keys) as Hin.
    { apply Hk. exists c. split; auto. unfold raw. apply (In_pair_dists query b R m Hq Hb Hd HR cells Hcells conns (in_max_connections conns)); auto. }
    assert (length keys <= U) as Hle.
    { apply NoDup_incl_length; auto. intros y Hy. apply Hk in Hy. destruct Hy as [c' [Hc' Hy]]. change (c' < nb) in Hc'. unfold unique_distances.
      apply In_unique; [exact dleb_antisym|]. apply in_flat_map. exists a. split; [apply in_seq; lia|]. apply in_flat_map. exists c'. split; [apply in_seq; lia|auto]. }
    assert (In x (sort_stable dleb keys)) as Hs by (apply In_sort_stable; auto). apply In_nth_error in Hs. destruct Hs as [i Hi].
    pose proof (nth_error_length_lt _ _ _ Hi) as Hil. apply (nth_error_In _ i). rewrite nth_error_assign_slice, repeat_length. rewrite Nat.sub_0_r.
    fold U.
    assert (length (sort_stable dleb keys) = length keys) as El by (apply Permutation_length, sort_stable_perm).
    cbn [Nat.add Nat.leb andb]. 
    destruct (Nat.ltb_spec i (length (sort_stable dleb keys))) as [H1|H1]; [|lia].
    destruct (Nat.ltb_spec i U) as [H2|H2]; [|lia]. cbn. exact Hi.
  Qed.

  Lemma distances_nonneg x : In x (concat (an_distances an)) -> (0 <= micro x)%Z.
  Proof.
    intro H. apply in_concat in H. destruct H as [row [Hrow Hx]]. unfold an, analyze_raw in Hrow. cbn [an_distances] in Hrow. rewrite map_map in Hrow.
    apply in_map_iff in Hrow. destruct Hrow as [a [<- Ha]]. apply in_seq in Ha. assert (a < length R) as Ha' by (destruct Ha; unfold nb in *; lia). apply In_nth_error in Hx. destruct Hx as [i Hi].
    rewrite nth_error_assign_slice in Hi.
    assert (forall y, nth_error (repeat (Fin 0) (length (unique_distances raw conns nb))) i = Some y -> (0 <= micro y)%Z) as H0.
    { intros y E. apply nth_error_In, repeat_spec in E. subst. cbn. lia. }
    destruct (_ && _) in Hi; [|auto]. apply nth_error_In in Hi. apply In_sort_stable in Hi.
    destruct (base_row_spec query b R m Hq Hb Hd HR cells Hcells conns (in_max_connections conns) a Ha') as [_ [Hk _]].
    apply Hk in Hi. destruct Hi as [c [Hc Hin]]. apply (In_pair_dists query b R m Hq Hb Hd HR cells Hcells conns (in_max_connections conns)) in Hin; [|exact Ha'|exact Hc].
    destruct (occurs_pos a c x (allowed_occurs a c x Hin)) as [z [-> Hz]]. cbn. lia.
  Qed.

  Lemma In_raw x : In x (concat (concat (raw_distance_matrix raw))) -> exists a c, a < nb /\ c < nb /\ In x (dd_keys (entry2 [] raw a c)) /\ occurs d V R cells a c x.
  Proof.
    intro H. apply in_concat in H. destruct H as [keys [H Hx]]. apply in_concat in H. destruct H as [row [H Hk]].
    unfold raw_distance_matrix, raw, raw_dicts in H. rewrite map_map in H. apply in_map_iff in H. destruct H as [a [<- Ha]].
    rewrite map_map in Hk. apply in_map_iff in Hk. destruct Hk as [c [<- Hc]]. apply in_seq in Ha. apply in_seq in Hc.
    assert (a < nb) as Ha' by (destruct Ha; auto). assert (c < nb) as Hc' by (destruct Hc; auto).
    exists a, c. split; auto. split; auto. split; [unfold raw; rewrite raw_entry; auto|].
    destruct (full_keys query b R m Hq Hb Hd HR cells Hcells a c Ha' Hc') as [Hinc Hocc].
    rewrite drop_extra_keys in Hx by exact Hinc. apply Hocc. apply In_firstn in Hx. destruct Hx as [? [_ Hx]]. apply nth_error_In in Hx. exact Hx.
  Qed.

  Lemma radius_spec r : query_radius an = Some r -> (forall a c x, a < nb -> c < nb -> occurs d V R cells a c x -> dleb (Fin 6) x = true) ->
    (0 < r)%Q /\ forall a c z, In (Fin z) (entry2 [] (an_distmat an) a c) -> (inject_Z z + (1#2) < r * (1000000#1))%Q.
  Proof.
    unfold query_radius. change (an_raw an) with raw.
    destruct (forallb _ _); [|discriminate].
    destruct (zmax_list _) as [mx|] eqn:Emx; [|discriminate]. destruct (zmin_list _) as [mn|] eqn:Emn; [|discriminate].
    intros E Hsep. injection E as <-. apply zmax_list_spec in Emx. apply zmin_list_spec in Emn. destruct Emx as [Hmx1 Hmx2]. destruct Emn as [Hmn1 Hmn2].
    assert (6 <= mn)%Z as H6.
    { apply in_map_iff in Hmn1. destruct Hmn1 as [x [<- Hx]]. apply In_raw in Hx. destruct Hx as [a [c [Ha [Hc [_ Ho]]]]].
      specialize (Hsep a c x Ha Hc Ho). destruct (occurs_pos a c x Ho) as [z [-> _]]. cbn in *. lia. }
    assert (0 <= mx)%Z as H0. { apply in_map_iff in Hmx1. destruct Hmx1 as [x [<- Hx]]. apply distances_nonneg. auto. }
    assert (6 <= inject_Z mn)%Q as Q6 by (change 6%Q with (inject_Z 6); rewrite <- Zle_Qle; auto).
    assert (0 <= inject_Z mx)%Q as Q0 by (change 0%Q with (inject_Z 0); rewrite <- Zle_Qle; auto).
    split; [lra|]. intros a c z Hz. unfold entry2 in Hz. apply In_distmat in Hz. destruct Hz as [Ha [Hc Hz]].
    assert (inject_Z z <= inject_Z mx)%Q. { rewrite <- Zle_Qle. apply Hmx2. apply in_map_iff. exists (Fin z). split; auto. apply (allowed_in_distances a c (Fin z) Ha Hc Hz). }
    lra.
  Qed.

  Lemma count_spec r : query_radius an = Some r -> 2 <= query_count an.
  Proof.
    intro Hr.
    assert (exists a c x, a < nb /\ c < nb /\ In x (dd_keys (entry2 [] raw a c)) /\ occurs d V R cells a c x) as [a [c [x [Ha [Hc [Hin Hx]]]]]].
    { unfold query_radius in Hr. change (an_raw an) with raw in Hr. destruct (forallb _ _); [|discriminate].
      destruct (zmax_list _) as [mx|]; [|discriminate]. destruct (zmin_list _) as [mn|] eqn:Emn; [|discriminate].
      apply zmin_list_spec in Emn. destruct Emn as [H _]. apply in_map_iff in H. destruct H as [x [_ H]]. apply In_raw in H. destruct H as [a [c H]].
      exists a, c, x. exact H. }
    unfold query_count. change (an_raw an) with raw.
    assert (exists s, In s (dd_get (entry2 [] raw a c) x)) as [s Hs].
    { unfold raw in *. rewrite raw_entry in * by auto.
      destruct (full_keys query b R m Hq Hb Hd HR cells Hcells a c Ha Hc) as [Hinc Hocc]. rewrite drop_extra_keys in Hin by auto.
      rewrite drop_extra_get by auto. destruct (full_get query b R m Hq Hb Hd HR cells Hcells a c x Ha Hc) as [_ Hg].
      destruct Hx as [H0 [n [Hn Hp]]]. exists (n ++ [Z.of_nat c]). apply Hg. exists n. auto. }
    assert (1 <= dd_count (entry2 [] raw a c)) as H1.
    { clear -Hs. unfold dd_count. revert Hs. generalize (entry2 [] raw a c). intro dd. induction dd as [|[k v] l IH]; cbn; [tauto|].
      destruct (deqb x k); intro H; [destruct v; [destruct H|cbn; lia]|specialize (IH H); lia]. }
    enough (dd_count (entry2 [] raw a c) <= sum_all (raw_num_neighbors raw)) by lia.
    unfold sum_all. assert (forall l v, In v l -> v <= fold_right Nat.add 0 l) as Hsum.
    { induction l as [|y l IH]; intros v; cbn; [tauto|]. intros [->|H]; [lia|]. specialize (IH v H). lia. }
    apply Hsum. apply in_concat. unfold raw_num_neighbors, entry2.
    assert (a < length raw) as La by (unfold raw, raw_dicts; rewrite map_length, seq_length; auto).
    assert (c < length (nth a raw [])) as Lc.
    { unfold raw, raw_dicts. rewrite (nth_map_in _ _ _ 0) by (rewrite seq_length; auto). rewrite map_length, seq_length. auto. }
    exists (map dd_count (nth a raw [])). split; [apply in_map, nth_In; auto|apply in_map, nth_In; auto].
  Qed.
End Radius.
