(** * Queries on the analysed unit cell: outcomes and the table of distances (C36, C67) *)
From Coq Require Import String List ZArith QArith Qround Qabs Bool Arith Lia Lqa Permutation Sorting.Sorted.
From Verif Require Import Np NpFacts LinAlg LinFacts SpecUtils SpecBasis SpecSpatial AtomModel BasisModel BasisProofs SpatialModel
  SpecStructure KDBrute StructureModel StructureFacts StructureProofs RoundFacts AnalyzeProofs PropStructure PropAnalyze RadiusProofs TranslationFacts.
Import ListNotations.
Open Scope nat_scope.
Open Scope list_scope.

(** ** C36: the table of distances *)

Lemma assign_slice_repeat {A} (x : A) vs K : length vs <= K -> assign_slice 0 vs (repeat x K) = vs ++ repeat x (K - length vs).
Proof.
  revert K. induction vs as [|v vs IH]; intros K H.
  - cbn [length app]. rewrite Nat.sub_0_r. destruct K; reflexivity.
  - destruct K as [|K]; cbn in H; [lia|]. cbn. f_equal. apply IH. lia.
Qed.

Theorem C36_distances :
  forall query s s' conns an,
    correct_tree query -> valid_basis (st_basis s) -> 1 <= b_dim (st_basis s) -> in_step s ->
    st_connections s = Some conns -> analyze query s = (s', Ok tt) -> st_analysis s' = Some an ->
    let d := b_dim (st_basis s) in
    let V := b_mat (st_basis s) in
    let R := st_positions s in
    exists m cells U,
      (forall a c, nth c (nth a conns []) 0 <= m) /\ (exists a c, nth c (nth a conns []) 0 = m) /\
      get_neighbor_cells (st_basis s) (2 * m) true Qle_bool = Some cells /\
      (* all distances *)
      increasing dleb U /\ (forall x, In x U <-> exists a c n, a < length R /\ c < length R /\ linked d V R cells conns a c n x) /\
      length (an_distances an) = length R /\
      forall a, a < length R ->
        exists Ds, increasing dleb Ds /\
          (forall x, In x Ds <-> exists c n, c < length R /\ linked d V R cells conns a c n x) /\
          (* its row: the distances, then zeros *)
          length Ds <= length U /\ nth a (an_distances an) [] = Ds ++ repeat (Fin 0) (length U - length Ds) /\
          (* which sites are found at the distance in column i *)
          (forall i L t, get_neighbors s' (repeat 0%Z d) a i = Ok L -> In t L ->
             exists c n x, c < length R /\ t = n ++ [Z.of_nat c] /\ nth_error (nth a (an_distances an) []) i = Some x /\ linked d V R cells conns a c n x) /\
          forall c, c < length R -> increasing dleb (nth c (nth a (an_distmat an) []) []).
Proof.
  intros query s s' conns an Hq Hb Hd Hs Ec0 Ha Ean d V R.
  destruct (C29_neighbors_translation_covariant query s s' conns Hq Hb Hd Hs Ec0 Ha) as [m [cells [Hm [Hm' [Ecells Hn]]]]].
  fold d V R in Hn.
  destruct (analysed_table query s s' Hb Hd Hs Ha) as [conns' [cells' [Ec [_ [_ [_ [Ecells' [_ [HR Es]]]]]]]]].
  rewrite Ec0 in Ec. injection Ec as <-. fold R in HR, Es.
  assert (m = max_connections conns) as ->.
  { apply Nat.le_antisymm.
    - destruct Hm' as [a [c <-]]. apply in_max_connections.
    - destruct (Nat.eq_dec (max_connections conns) 0) as [E|E]; [lia|]. destruct (max_connections_reached conns E) as [a [c <-]]. apply Hm. }
  rewrite Ecells in Ecells'. injection Ecells' as <-.
  set (mm := max_connections conns) in *.
  set (raw := raw_dicts query (st_basis s) R mm cells) in *.
  assert (an = analyze_raw raw conns (length R)) as ->. { rewrite Es in Ean. cbn in Ean. injection Ean as <-. reflexivity. }
  set (U := unique_distances raw conns (length R)).
  assert (forall a c x, a < length R -> c < length R -> In x (pair_dists raw conns a c) <-> exists n, linked d V R cells conns a c n x) as Hpd.
  { intros a c x HaR Hc. unfold raw. rewrite (In_pair_dists query (st_basis s) R mm Hq Hb Hd HR cells Ecells conns (in_max_connections conns)) by auto.
    unfold linked. fold d V. split.
    - intro H. destruct (proj2 (allowed_occurs (st_basis s) R cells conns a c x H)) as [n [Hn1 Hn2]]. exists n. auto.
    - intros [n [_ [_ H]]]. exact H. }
  exists mm, cells, U. split; auto. split; auto. split; auto. split.
  { unfold U, unique_distances. unfold increasing. apply unique_strict; [exact dleb_total|exact dleb_trans|exact dleb_antisym]. }
  split.
  { intro x. unfold U, unique_distances. rewrite In_unique by exact dleb_antisym. rewrite in_flat_map. split.
    - intros [a [HaR H]]. apply in_seq in HaR. apply in_flat_map in H. destruct H as [c [Hc H]]. apply in_seq in Hc.
      apply Hpd in H; [|lia|lia]. destruct H as [n H]. exists a, c, n. split; [lia|]. split; [lia|auto].
    - intros [a [c [n [HaR [Hc H]]]]]. exists a. split; [apply in_seq; lia|]. apply in_flat_map. exists c. split; [apply in_seq; lia|].
      apply Hpd; eauto. }
  split. { cbn [analyze_raw an_distances]. rewrite !map_length, seq_length. reflexivity. }
  intros a HaR.
  destruct (base_keys query (st_basis s) R mm Hq Hb Hd HR cells Ecells conns (in_max_connections conns) a HaR) as [Hinc Hkeys].
  fold raw d V in Hinc, Hkeys.
  destruct (base_row_spec query (st_basis s) R mm Hq Hb Hd HR cells Ecells conns (in_max_connections conns) a HaR) as [Hnd [Hk _]].
  fold raw in Hnd, Hk.
  set (keys := dd_keys (base_row raw conns (length R) a)) in *.
  assert (length (sort_stable dleb keys) = length keys) as El by (apply Permutation_length, sort_stable_perm).
  assert (length keys <= length U) as Hle.
  { apply NoDup_incl_length; auto. intros y Hy. apply Hk in Hy. destruct Hy as [c' [Hc' Hy]]. unfold U, unique_distances.
    apply In_unique; [exact dleb_antisym|]. apply in_flat_map. exists a. split; [apply in_seq; lia|]. apply in_flat_map. exists c'. split; [apply in_seq; split; [apply Nat.le_0_l|exact Hc']|auto]. }
  exists (sort_stable dleb keys). split; auto. split; auto. split; [lia|].
  assert (nth a (an_distances (analyze_raw raw conns (length R))) [] = sort_stable dleb keys ++ repeat (Fin 0) (length U - length (sort_stable dleb keys))) as Erow.
  { cbn [analyze_raw an_distances]. rewrite map_map. rewrite (nth_map_in _ _ _ 0) by (rewrite seq_length; auto). rewrite seq_nth by auto. cbn [Nat.add].
    fold keys U. apply assign_slice_repeat. lia. }
  split; [exact Erow|]. split.
  - intros i L t EL Ht. destruct (Hn a HaR) as [Ds [HDinc [HDs Hget]]]. specialize (Hget (repeat 0%Z d) i (repeat_length _ _)).
    assert (Ds = sort_stable dleb keys) as ->.
    { apply (strict_unique dleb dleb_antisym); auto. intro x. rewrite HDs. symmetry. apply Hkeys. }
    destruct (nth_error (sort_stable dleb keys) i) as [x|] eqn:Ei; [|congruence].
    destruct Hget as [L1 [_ [E1 [_ [_ [_ [Hin _]]]]]]]. rewrite EL in E1. injection E1 as <-. apply Hin in Ht. destruct Ht as [n [c [Hc [-> Hl]]]].
    exists c, n, x. split; auto. split.
    { f_equal. destruct (cells_props (st_basis s) mm Hb Hd cells Ecells) as [_ [Hlen _]]. specialize (Hlen n (proj1 Hl)). fold d in Hlen.
      apply (list_eq_nth _ _ 0%Z).
      - rewrite map2_length, repeat_length. lia.
      - intros k Hk'. rewrite map2_length, repeat_length in Hk'. rewrite (nth_map2 _ _ _ _ 0%Z 0%Z) by (rewrite ?repeat_length; lia).
        rewrite nth_repeat. lia. }
    split; [|exact Hl]. rewrite Erow. rewrite nth_error_app1 by (eapply nth_error_length_lt; eauto). exact Ei.
  - intros c Hc. cbn [analyze_raw an_distmat]. rewrite (nth_map_in _ _ _ 0) by (rewrite seq_length; auto). rewrite seq_nth by auto. cbn [Nat.add].
    rewrite (nth_map_in _ _ _ 0) by (rewrite seq_length; auto). rewrite seq_nth by auto. cbn [Nat.add].
    rewrite increasing_sorted_id; apply (pair_dists_increasing query (st_basis s) R mm Hq Hb Hd HR cells Ecells conns (in_max_connections conns)); auto.
Qed.

Example C36_distances_example :
  correct_tree brute /\ valid_basis (st_basis ex_state) /\ in_step ex_state /\ analyze brute ex_state = (ex_state, Ok tt) /\
  exists an, st_analysis ex_state = Some an /\
    an_distances an = [[Fin 1000000; Fin 0]; [Fin 1000000; Fin 2000000]].
Proof.
  destruct C28_example as [H1 [H2 [H3 [H4 _]]]]. split; auto. split; auto. split; auto. split; auto. eexists. split; [reflexivity|]. vm_compute. reflexivity.
Qed.

(** ** C67: outcomes of the queries *)

Theorem C67_position :
  forall s alpha,
    (alpha < length (st_positions s) ->
       get_position s None alpha = Ok (nth alpha (st_positions s) []) /\
       forall n, let d := b_dim (st_basis s) in
         valid_basis (st_basis s) -> length n = d -> length (nth alpha (st_positions s) []) = d ->
         exists p, get_position s (Some n) alpha = Ok p /\ same p (lattice_point d (b_mat (st_basis s)) (nth alpha (st_positions s) []) n)) /\
    (length (st_positions s) <= alpha -> forall n, get_position s n alpha = Raise IndexError).
Proof.
  intros s alpha. unfold get_position. split.
  - intro H. rewrite (nth_error_nth' (st_positions s) ([] : vec) H). split; [reflexivity|]. intros n Hb Hn Hp. eexists. split; [reflexivity|].
    apply same_veq. apply (translate_point (st_basis s)); auto.
  - intros H n. apply nth_error_None in H. unfold vec in *. rewrite H. reflexivity.
Qed.

Lemma Qrint_even q : (Qabs (inject_Z (Qrint q) - q) == 1#2)%Q -> Z.even (Qrint q) = true.
Proof.
  intro H. unfold Qrint in *. set (f := Qfloor q) in *. pose proof (Qfloor_le q) as H1. pose proof (Qlt_floor q) as H2. fold f in H1, H2.
  rewrite inject_Z_plus in H2. change (inject_Z 1) with 1%Q in H2.
  assert (forall z, (Qabs (inject_Z z - q) == 1#2)%Q -> (inject_Z z - q == 1#2)%Q \/ (inject_Z z - q == -(1#2))%Q) as HA
    by (intros z Hz; revert Hz; apply Qabs_case; intros; [left|right]; lra).
  destruct (Qle_bool (1 # 2) (q - inject_Z f) && negb (Qle_bool (q - inject_Z f) (1 # 2))) eqn:E1.
  - exfalso. apply andb_true_iff in E1. destruct E1 as [_ E1]. apply negb_true_iff in E1. rewrite Qle_bool_false_iff in E1.
    apply HA in H. rewrite inject_Z_plus in H. change (inject_Z 1) with 1%Q in H. destruct H; lra.
  - destruct (Qeq_bool (q - inject_Z f) (1 # 2)) eqn:E2.
    + destruct (Z.even f) eqn:Ev; [exact Ev|]. rewrite Z.even_add, Ev. reflexivity.
    + exfalso. apply Qeq_bool_neq in E2. apply HA in H. destruct H; [lra|]. apply E2. lra.
Qed.

Theorem C67_estimate_index :
  forall s, let d := b_dim (st_basis s) in let V := b_mat (st_basis s) in
    valid_basis (st_basis s) ->
    (* a position less than half a cell away *)
    (forall x r n, length r = d -> length n = d -> length x = d -> same x (lattice_point d V r n) ->
       (forall i, i < d -> (Qabs (nth i (itransform (st_basis s) r) 0) < 1#2)%Q) -> estimate_index s x = n) /\
    (* every position: the nearest coordinates, halves to even ones *)
    (forall x, length x = d -> length (estimate_index s x) = d /\
       forall i, i < d ->
         (Qabs (inject_Z (nth i (estimate_index s x) 0%Z) - nth i (itransform (st_basis s) x) 0) <= 1#2)%Q /\
         ((Qabs (inject_Z (nth i (estimate_index s x) 0%Z) - nth i (itransform (st_basis s) x) 0) == 1#2)%Q ->
            Z.even (nth i (estimate_index s x) 0%Z) = true)) /\
    (* the position of a site *)
    (forall n alpha p, length n = d -> length (nth alpha (st_positions s) []) = d -> get_position s (Some n) alpha = Ok p ->
       (forall i, i < d -> (Qabs (nth i (itransform (st_basis s) (nth alpha (st_positions s) [])) 0) < 1#2)%Q) -> estimate_index s p = n).
Proof.
  intros s d V Hb.
  assert (forall x r n, length r = d -> length n = d -> length x = d -> veq x (translate (st_basis s) n r) ->
    (forall i, i < d -> (Qabs (nth i (itransform (st_basis s) r) 0) < 1#2)%Q) -> estimate_index s x = n) as K.
  { intros x r n Hr Hn Hx Heq H. unfold estimate_index. change (matvec (b_inv (st_basis s)) x) with (itransform (st_basis s) x).
    apply nth_ext with (d := 0%Z) (d' := 0%Z); [rewrite map_length, itransform_length; auto|]. rewrite map_length, itransform_length by auto. intros i Hi.
    change 0%Z with (Qrint 0) at 1. rewrite map_nth. apply Qrint_close.
    assert (veq (itransform (st_basis s) x) (vadd (itransform (st_basis s) r) (of_Z n))) as E.
    { unfold itransform at 1. rewrite Heq. unfold translate. rewrite (matvec_vadd d); auto; [|apply Hb|apply matvec_length].
      apply vadd_proper; [reflexivity|]. apply itransform_transform; auto. rewrite of_Z_length; auto. }
    apply veq_nth in E. destruct E as [_ E]. rewrite E. rewrite nth_vadd by (rewrite itransform_length, of_Z_length; auto). rewrite nth_of_Z.
    specialize (H i Hi). eapply Qle_lt_trans; [|exact H]. apply Qle_lteq. right. apply Qabs_wd. ring. }
  split; [|split].
  - intros x r n Hr Hn Hx Hs H. apply (K x r n); auto. apply same_veq in Hs. rewrite Hs. symmetry. apply translate_point; auto.
  - intros x Hx. unfold estimate_index. change (matvec (b_inv (st_basis s)) x) with (itransform (st_basis s) x).
    split; [rewrite map_length; apply itransform_length; auto|]. intros i Hi. change 0%Z with (Qrint 0). rewrite map_nth. split; [apply Qrint_near|apply Qrint_even].
  - intros n alpha p Hn Hr Hp H. unfold get_position in Hp. destruct (nth_error (st_positions s) alpha) as [r|] eqn:Er; [|discriminate].
    apply (nth_error_nth _ _ ([] : vec)) in Er. unfold vec in *. rewrite Er in *. injection Hp as <-. apply (K _ r n); auto; [|reflexivity].
    apply translate_length. exact Hr.
Qed.

Example C67_estimate_index_example :
  valid_basis (st_basis ex_state) /\ st_basis ex_state = ex_rect /\ estimate_index (new_structure ex_rect) [5#2; -11#10]%Q = [1; -1]%Z /\
  estimate_index (new_structure ex_rect) [3; 1#2]%Q = [2; 0]%Z.
Proof. split; [apply C28_example|]. split; [reflexivity|]. split; reflexivity. Qed.

(** Half a cell matters: the index of a site with an atom beyond it is the index of the next cell. *)
Theorem C67_estimate_index_refuted :
  exists s p, fst (add_atom brute (fst (add_atom brute (new_structure ex_chain) (Some [0]%Q) (ex_atom "A") false 0)) (Some [3#4]%Q) (ex_atom "B") false 0) = s /\
    get_position s (Some [2]%Z) 1 = Ok p /\ estimate_index s p = [3]%Z.
Proof. eexists. eexists. split; [reflexivity|]. split; vm_compute; reflexivity. Qed.

Theorem C67_outcomes :
  forall s n alpha i,
    (st_analysis s = None ->
       get_neighbors s n alpha i = Raise NotAnalyzedError /\ get_neighbor_positions s n alpha i = Raise NotAnalyzedError /\
       forall z, get_neighbor_vectors s alpha i z = Raise NotAnalyzedError) /\
    (forall e, get_neighbors s n alpha i = Raise e -> get_neighbor_positions s n alpha i = Raise e) /\
    (forall L, get_neighbors s n alpha i = Ok L ->
       exists P, get_neighbor_positions s n alpha i = Ok P /\ length P = length L) /\
    (forall z, st_analysis s <> None -> length (st_positions s) <= alpha -> get_neighbor_vectors s alpha i z = Raise IndexError) /\
    (forall z e, st_analysis s <> None -> alpha < length (st_positions s) ->
       get_neighbors s (repeat 0%Z (b_dim (st_basis s))) alpha i = Raise e -> get_neighbor_vectors s alpha i z = Raise e).
Proof.
  intros s n alpha i. split; [|split; [|split; [|split]]].
  - intro E. unfold get_neighbor_positions, get_neighbor_vectors, get_neighbors. rewrite E. auto.
  - intros e E. unfold get_neighbor_positions. rewrite E. reflexivity.
  - intros L E. unfold get_neighbor_positions. rewrite E. eexists. split; [reflexivity|]. unfold get_positions. apply map_length.
  - intros z Hne H. unfold get_neighbor_vectors. destruct (st_analysis s); [|congruence]. apply nth_error_None in H. rewrite H. reflexivity.
  - intros z e Hne H E. unfold get_neighbor_vectors. destruct (st_analysis s); [|congruence]. rewrite (nth_error_nth' (st_positions s) ([] : vec) H).
    unfold get_neighbor_positions. rewrite E. reflexivity.
Qed.

(** After a successful analysis an atom that does not exist raises IndexError. *)
Theorem C67_no_such_atom :
  forall query s s' n alpha i z,
    valid_basis (st_basis s) -> 1 <= b_dim (st_basis s) -> in_step s ->
    analyze query s = (s', Ok tt) -> length (st_positions s) <= alpha ->
    get_neighbors s' n alpha i = Raise IndexError /\ get_neighbor_positions s' n alpha i = Raise IndexError /\
    get_neighbor_vectors s' alpha i z = Raise IndexError.
Proof.
  intros query s s' n alpha i z Hb Hd Hs Ha Hl.
  destruct (analysed_table query s s' Hb Hd Hs Ha) as [conns [cells [_ [_ [_ [_ [_ [_ [_ Es]]]]]]]]].
  assert (get_neighbors s' n alpha i = Raise IndexError) as E.
  { unfold get_neighbors. rewrite Es. cbn [st_analysis].
    assert (nth_error (an_base (analyze_raw (raw_dicts query (st_basis s) (st_positions s) (max_connections conns) cells) conns (length (st_positions s)))) alpha = None) as ->.
    { apply nth_error_None. rewrite analyze_raw_base_length. exact Hl. }
    reflexivity. }
  split; auto. split; [unfold get_neighbor_positions; rewrite E; reflexivity|].
  destruct (C67_outcomes s' n alpha i) as [_ [_ [_ [H _]]]]. apply H; rewrite Es; cbn; [discriminate|exact Hl].
Qed.

Example C67_outcomes_example :
  valid_basis (st_basis ex_state) /\ in_step ex_state /\ analyze brute ex_state = (ex_state, Ok tt) /\
  length (st_positions ex_state) = 2 /\
  get_position ex_state None 2 = Raise IndexError /\
  get_neighbors ex_state [0; 0]%Z 2 0 = Raise IndexError /\ get_neighbor_vectors ex_state 2 0 false = Raise IndexError /\
  get_neighbor_vectors ex_state 0 1 true = Raise IndexError /\
  get_neighbors (new_structure ex_rect) [0; 0]%Z 0 0 = Raise NotAnalyzedError /\
  exists p, get_position ex_state (Some [3; -1]%Z) 1 = Ok p /\ same p [7; -1]%Q.
Proof.
  destruct C28_example as [H1 [H2 [H3 [H4 _]]]]. split; auto. split; auto. split; auto. split; [reflexivity|].
  split; [reflexivity|]. split; [vm_compute; reflexivity|]. split; [vm_compute; reflexivity|]. split; [vm_compute; reflexivity|].
  split; [reflexivity|]. eexists. split; [vm_compute; reflexivity|]. apply same_veq. repeat constructor.
Qed.

Print Assumptions C36_distances.
Print Assumptions C67_position.
Print Assumptions C67_estimate_index.
Print Assumptions C67_estimate_index_refuted.
Print Assumptions C67_outcomes.
Print Assumptions C67_no_such_atom.
