(** * Properties of lattpy/structure.py: the analysis of the unit cell (C28, C29, C36, C67) *)
From Coq Require Import String List ZArith QArith Bool Arith Lia Permutation Sorting.Sorted.
From Verif Require Import Np NpFacts LinAlg LinFacts SpecUtils UtilsModel UtilsProofs SpecBasis AtomModel BasisModel BasisProofs
  NeighborCellProofs PropBasis SpecSpatial KDProofs SpecStructure StructureModel KDBrute RoundFacts StructureFacts
  AnalyzeProofs StructureProofs PropStructure.
Import ListNotations.
Open Scope nat_scope.
Open Scope list_scope.

(** ** The state after analyze *)

Lemma in_max_connections conns a c : entry2 0 conns a c <= max_connections conns.
Proof.
  assert (forall l x, In x l -> x <= fold_right Nat.max 0 l) as H.
  { induction l as [|y l IH]; intros x; [intros []|]. intros [<-|Hx]; cbn; [lia|]. specialize (IH x Hx). lia. }
  unfold entry2, max_connections. destruct (lt_dec a (length conns)) as [Ha|Ha].
  - destruct (lt_dec c (length (nth a conns []))) as [Hc|Hc].
    + apply H. apply in_concat. exists (nth a conns []). split; [apply nth_In; auto|apply nth_In; auto].
    + rewrite nth_overflow by lia. lia.
  - rewrite (nth_overflow conns) by lia. destruct c; cbn; lia.
Qed.

Lemma max_connections_reached conns : max_connections conns <> 0 ->
  exists a c, entry2 0 conns a c = max_connections conns.
Proof.
  intro Hne. unfold max_connections in *.
  assert (forall l, fold_right Nat.max 0 l <> 0 -> In (fold_right Nat.max 0 l) l) as H.
  { induction l as [|y l IH]; cbn; [lia|]. intro H. destruct (Nat.le_gt_cases y (fold_right Nat.max 0 l)) as [C|C].
    - rewrite Nat.max_r in * by lia. right. auto.
    - rewrite Nat.max_l in * by lia. left. auto. }
  apply H in Hne. apply in_concat in Hne. destruct Hne as [row [Hr Hx]].
  apply (In_nth _ _ []) in Hr. destruct Hr as [a [_ <-]]. apply (In_nth _ _ 0) in Hx. destruct Hx as [c [_ Hc]].
  exists a, c. exact Hc.
Qed.

Lemma analyze_ok query s s' :
  analyze query s = (s', Ok tt) ->
  exists conns raw, st_atoms s <> [] /\ st_connections s = Some conns /\
    forallb (forallb (Nat.eqb 0)) conns = false /\
    compute_base_neighbors query (st_basis s) (st_positions s) (max_connections conns) = Some raw /\
    s' = mkStructure (st_basis s) (st_atoms s) (st_positions s) true (Some conns)
           (Some (analyze_raw raw conns (length (st_positions s)))).
Proof.
  unfold analyze. destruct (st_atoms s) as [|a l] eqn:Ea; [discriminate|].
  destruct (st_connections s) as [conns|]; [|discriminate].
  destruct (forallb (forallb (Nat.eqb 0)) conns) eqn:Ez; [discriminate|]. cbn [st_basis st_positions].
  destruct (compute_base_neighbors query (st_basis s) (st_positions s) (max_connections conns)) as [raw|] eqn:Er; [|discriminate].
  intro E. injection E as <-. exists conns, raw. split; [discriminate|]. auto.
Qed.

Section Analysed.
  Variables (query : kd_tree) (s s' : structure).
  Hypothesis Hq : correct_tree query.
  Hypothesis Hb : valid_basis (st_basis s).
  Hypothesis Hd : 1 <= b_dim (st_basis s).
  Hypothesis Hs : in_step s.
  Hypothesis Ha : analyze query s = (s', Ok tt).

  Let b := st_basis s.
  Let d := b_dim b.
  Let V := b_mat b.
  Let R := st_positions s.

  Lemma analysed_table : exists conns cells,
    st_connections s = Some conns /\ conns <> [] /\ R <> [] /\
    max_connections conns <> 0 /\
    get_neighbor_cells b (2 * max_connections conns) true Qle_bool = Some cells /\
    sym_table (length R) conns /\
    (forall r, In r R -> length r = d) /\
    s' = mkStructure b (st_atoms s) R true (Some conns)
       (Some (analyze_raw (raw_dicts query b R (max_connections conns) cells) conns (length R))).
  Proof.
    destruct (analyze_ok query s s' Ha) as [conns [raw [Hne [Ec [Ez [Er ->]]]]]].
    destruct Hs as [H1 [H2 [H3 H4]]]. rewrite Ec in H4.
    destruct (get_neighbor_cells b (2 * max_connections conns) true Qle_bool) as [cells|] eqn:Ecells.
    2:{ exfalso. revert Ecells. apply cells_exist; auto. }
    exists conns, cells. rewrite <- H1 in H4.
    assert (st_atoms s <> []) as Hne' by auto.
    assert (R <> []) as HR by (unfold R; destruct (st_positions s); [destruct (st_atoms s); [congruence|discriminate]|discriminate]).
    split; auto. split. { destruct H4 as [H4 _]. intros ->. unfold R in HR. destruct (st_positions s); [congruence|discriminate]. }
    split; auto. split.
    { intro E0. apply not_true_iff_false in Ez. apply Ez. apply forallb_forall. intros row Hrow. apply forallb_forall. intros x Hx.
      apply Nat.eqb_eq. apply (In_nth _ _ []) in Hrow. destruct Hrow as [i [_ <-]]. apply (In_nth _ _ 0) in Hx. destruct Hx as [j [_ Hj]].
      pose proof (in_max_connections conns i j) as Hm. unfold entry2 in Hm. lia. }
    split; auto. split; auto. split; auto.
    pose proof (compute_base_neighbors_eq query b R (max_connections conns) Hb Hd cells Ecells) as Er'.
    assert (raw = raw_dicts query b R (max_connections conns) cells) as -> by (unfold b, R, vec in *; rewrite Er in Er'; injection Er'; auto).
    reflexivity.
  Qed.
End Analysed.

(** The rounded distance between atom [a] in cell [m] and atom [c] in cell [n]. *)
Definition apart (d : nat) (V R : list (list Q)) (m : list Z) (a : nat) (n : list Z) (c : nat) (x : dist) : Prop :=
  exists z, x = Fin z /\
    rounds_to_micro (sqdist (lattice_point d V (nth a R []) m) (lattice_point d V (nth c R []) n)) z.

Lemma rounds_ext q q' z : (q == q')%Q -> rounds_to_micro q z -> rounds_to_micro q' z.
Proof.
  intros E. unfold rounds_to_micro. cbv zeta.
  assert (q * (1000000000000 # 1) == q' * (1000000000000 # 1))%Q as E' by (rewrite E; reflexivity).
  intros [H0 [H1 [H2 [H3 H4]]]]. split; auto.
  split; [rewrite <- E'; auto|]. split; [rewrite <- E'; auto|]. split; rewrite <- E'; auto.
Qed.

Lemma pair_apart d V R a c m n x :
  length (nth a R []) = d -> length m = d -> length n = d ->
  pair_distance d V R a c n x -> apart d V R m a (map2 Z.add n m) c x.
Proof.
  intros Ha Hm Hn [z [-> Hz]]. exists z. split; auto. eapply rounds_ext; [|exact Hz].
  unfold sqdist. rewrite lattice_point_length, Ha. apply sum_ext. intros i Hi. rewrite !nth_lattice_point by auto.
  assert (sum_upto d (fun k => entry V i k * inject_Z (nth k (map2 Z.add n m) 0%Z)) ==
          sum_upto d (fun k => entry V i k * inject_Z (nth k n 0%Z)) + sum_upto d (fun k => entry V i k * inject_Z (nth k m 0%Z)))%Q as E.
  { rewrite <- sum_plus. apply sum_ext. intros k Hk. rewrite (nth_map2 _ _ _ _ 0%Z 0%Z) by lia. rewrite inject_Z_plus. ring. }
  rewrite E. ring.
Qed.

Lemma nth_error_sorted_lt L i j x y :
  increasing dleb L -> i < j -> nth_error L i = Some x -> nth_error L j = Some y -> dleb x y = true /\ x <> y.
Proof.
  unfold increasing. intro H. revert i j. induction H as [|z l Hs IH Hf]; intros i j Hij Hi Hj; [destruct i; discriminate|].
  destruct j as [|j]; [lia|]. destruct i as [|i].
  - cbn in Hi, Hj. injection Hi as <-. rewrite Forall_forall in Hf. apply Hf. eapply nth_error_In; eauto.
  - apply (IH i j); auto. lia.
Qed.

(** The sites listed by [get_neighbors] in terms of the table. *)
Lemma get_neighbors_eq s an m a i :
  st_analysis s = Some an -> a < length (an_base an) ->
  get_neighbors s m a i =
  match nth_error (sort_stable dleb (dd_keys (nth a (an_base an) []))) i with
  | None => Raise IndexError
  | Some k => Ok (map (fun t => map2 Z.add (site_cell t) m ++ [last t 0%Z]) (dd_get (nth a (an_base an) []) k))
  end.
Proof.
  intros E Ha. unfold get_neighbors. rewrite E. rewrite (nth_error_nth' _ ([] : distdict) Ha). reflexivity.
Qed.

Lemma analyze_raw_base raw conns n a : a < n -> nth a (an_base (analyze_raw raw conns n)) [] = base_row raw conns n a.
Proof. intro H. cbn [analyze_raw an_base]. rewrite (nth_map_in _ _ _ 0) by (rewrite seq_length; auto). rewrite seq_nth by auto. reflexivity. Qed.

Lemma analyze_raw_base_length raw conns n : length (an_base (analyze_raw raw conns n)) = n.
Proof. cbn [analyze_raw an_base]. rewrite map_length, seq_length. reflexivity. Qed.

Lemma NoDup_map_in {A B} (f : A -> B) l :
  (forall x y, In x l -> In y l -> f x = f y -> x = y) -> NoDup l -> NoDup (map f l).
Proof.
  intros H Hn. induction Hn as [|x l Hx Hn IH]; cbn; constructor.
  - intro Hin. apply in_map_iff in Hin. destruct Hin as [y [E Hy]]. apply Hx. rewrite (H x y); cbn; auto.
  - apply IH. intros. apply H; cbn; auto.
Qed.

(** ** C29 *)

Theorem C29_neighbors_translation_covariant :
  forall query s s' conns,
    correct_tree query -> valid_basis (st_basis s) -> 1 <= b_dim (st_basis s) -> in_step s ->
    st_connections s = Some conns -> analyze query s = (s', Ok tt) ->
    let d := b_dim (st_basis s) in
    let V := b_mat (st_basis s) in
    let R := st_positions s in
    exists m cells,
      (forall a c, nth c (nth a conns []) 0 <= m) /\ (exists a c, nth c (nth a conns []) 0 = m) /\
      get_neighbor_cells (st_basis s) (2 * m) true Qle_bool = Some cells /\
      forall a, a < length R ->
        (* the distances of the atom *)
        exists Ds, increasing dleb Ds /\
        (forall x, In x Ds <-> exists c n, c < length R /\ linked d V R cells conns a c n x) /\
        (* the neighbours of the site with cell index N at the i-th distance *)
        forall N i, length N = d ->
          match nth_error Ds i with
          | None => get_neighbors s' N a i = Raise IndexError
          | Some x => exists L L0,
              get_neighbors s' N a i = Ok L /\ get_neighbors s' (repeat 0%Z d) a i = Ok L0 /\
              L = map (fun t => map2 Z.add (removelast t) N ++ [last t 0%Z]) L0 /\ NoDup L /\
              (forall t, In t L <-> exists n c, c < length R /\ t = map2 Z.add n N ++ [Z.of_nat c] /\
                 linked d V R cells conns a c n x) /\
              (forall n c, In (n ++ [Z.of_nat c]) L -> apart d V R N a n c x)
          end.
Proof.
  intros query s s' conns Hq Hb Hd Hs Ec0 Ha d V R.
  destruct (analysed_table query s s' Hb Hd Hs Ha) as [conns' [cells [Ec [Hcne [HRne [Hm0 [Ecells [[Hcl [Hcr Hcs]] [HR Es]]]]]]]]].
  rewrite Ec0 in Ec. injection Ec as <-.
  exists (max_connections conns), cells. fold R in HR, HRne, Es.
  split; [exact (in_max_connections conns)|]. split; [exact (max_connections_reached conns Hm0)|]. split; auto.
  intros a HaR.
  destruct (base_keys query (st_basis s) R (max_connections conns) Hq Hb Hd HR cells Ecells conns (in_max_connections conns) a HaR) as [Hinc Hkeys].
  set (raw := raw_dicts query (st_basis s) R (max_connections conns) cells) in *.
  destruct (cells_props (st_basis s) (max_connections conns) Hb Hd cells Ecells) as [_ [Hlen _]]. fold d in Hlen.
  exists (sort_stable dleb (dd_keys (base_row raw conns (length R) a))). split; auto. split; auto.
  intros N i HN.
  assert (st_analysis s' = Some (analyze_raw raw conns (length R))) as Ean by (rewrite Es; reflexivity).
  assert (a < length (an_base (analyze_raw raw conns (length R)))) as Hal by (rewrite analyze_raw_base_length; auto).
  rewrite !(get_neighbors_eq s' _ _ _ _ Ean Hal). rewrite analyze_raw_base by auto.
  destruct (nth_error (sort_stable dleb (dd_keys (base_row raw conns (length R) a))) i) as [x|] eqn:Ei; auto.
  destruct (base_get query (st_basis s) R (max_connections conns) Hq Hb Hd HR cells Ecells conns (in_max_connections conns) a x HaR) as [Hnd Hin].
  fold raw in Hnd, Hin. set (T := dd_get (base_row raw conns (length R) a) x) in *.
  assert (forall t, In t T -> exists n c, c < length R /\ t = n ++ [Z.of_nat c] /\ length n = d /\ linked d V R cells conns a c n x) as HT.
  { intros t Ht. apply Hin in Ht. destruct Ht as [n [c [Hc [-> Hl]]]]. exists n, c. split; auto. split; auto. split; auto.
    apply Hlen. apply Hl. }
  assert (forall n c, map2 Z.add (site_cell (n ++ [Z.of_nat c])) N ++ [last (n ++ [Z.of_nat c]) 0%Z] = map2 Z.add n N ++ [Z.of_nat c]) as Happ.
  { intros n c. rewrite site_cell_app, last_last. reflexivity. }
  assert (forall n n', length n = d -> length n' = d -> map2 Z.add n N = map2 Z.add n' N -> n = n') as Hinj.
  { intros n n' Hn Hn' E. apply (list_eq_nth _ _ 0%Z); [lia|]. intros k Hk.
    assert (nth k (map2 Z.add n N) 0%Z = nth k (map2 Z.add n' N) 0%Z) as Ek by (rewrite E; auto).
    rewrite !(nth_map2 _ _ _ _ 0%Z 0%Z) in Ek by lia. lia. }
  assert (map (fun t => map2 Z.add (site_cell t) (repeat 0%Z d) ++ [last t 0%Z]) T = T) as H0.
  { rewrite <- (map_id T) at 2. apply map_ext_in. intros t Ht. destruct (HT t Ht) as [n [c [_ [-> [Hn _]]]]].
    rewrite site_cell_app, last_last. f_equal. apply (list_eq_nth _ _ 0%Z); [rewrite map2_length, repeat_length; lia|].
    intros k Hk. rewrite map2_length, repeat_length in Hk.
    rewrite (nth_map2 _ _ _ _ 0%Z 0%Z) by (rewrite ?repeat_length; lia). rewrite nth_repeat. lia. }
  exists (map (fun t => map2 Z.add (site_cell t) N ++ [last t 0%Z]) T), T. rewrite H0.
  split; auto. split; auto. split; auto. split; [|split].
  - apply NoDup_map_in; auto. intros t t' Ht Ht'. destruct (HT t Ht) as [n [c [_ [-> [Hn _]]]]]. destruct (HT t' Ht') as [n' [c' [_ [-> [Hn' _]]]]].
    rewrite !Happ. intro E. apply site_app_inj in E. destruct E as [E ->]. rewrite (Hinj n n'); auto.
  - intro t. rewrite in_map_iff. split.
    + intros [t' [<- Ht']]. destruct (HT t' Ht') as [n [c [Hc [-> [Hn Hl]]]]]. rewrite Happ. eauto.
    + intros [n [c [Hc [-> Hl]]]]. exists (n ++ [Z.of_nat c]). split; [apply Happ|]. apply Hin. eauto.
  - intros n c Hnc. apply in_map_iff in Hnc. destruct Hnc as [t' [E Ht']]. destruct (HT t' Ht') as [n' [c' [Hc [-> [Hn Hl]]]]].
    rewrite Happ in E. apply site_app_inj in E. destruct E as [<- <-]. apply pair_apart; auto; [apply HR, nth_In; auto|apply Hl].
Qed.

(** ** C28 *)

Lemma zero_cell_unlinked d V R cells conns a x :
  length (nth a R []) = d -> ~ linked d V R cells conns a a (repeat 0%Z d) x.
Proof.
  intros Ha [_ [[z [-> Hz]] [L [_ [HL [i [_ Hi]]]]]]]. apply nth_error_In in Hi. apply HL in Hi. destruct Hi as [Hne _].
  apply Hne. f_equal.
  eapply rounds_unique; [exact Hz|exact (sqrt_micro_rounds 0 (Qle_refl 0))|].
  unfold sqdist. apply sum_zero. intros k Hk. rewrite nth_lattice_point by lia.
  assert (sum_upto d (fun j => entry V k j * inject_Z (nth j (repeat 0%Z d) 0%Z)) == 0)%Q as E.
  { apply sum_zero. intros j Hj. rewrite nth_repeat. change (inject_Z 0) with 0%Q. ring. }
  rewrite E. ring.
Qed.

Theorem C28_analyze_finds_configured_distances :
  forall query s s' conns,
    correct_tree query -> valid_basis (st_basis s) -> 1 <= b_dim (st_basis s) -> in_step s ->
    st_connections s = Some conns -> analyze query s = (s', Ok tt) ->
    let d := b_dim (st_basis s) in
    let V := b_mat (st_basis s) in
    let R := st_positions s in
    exists m cells,
      (* the searched cells *)
      (forall a c, nth c (nth a conns []) 0 <= m) /\ (exists a c, nth c (nth a conns []) 0 = m) /\
      get_neighbor_cells (st_basis s) (2 * m) true Qle_bool = Some cells /\
      (* the neighbours of an atom *)
      (forall a t, a < length R ->
         (exists i L, get_neighbors s' (repeat 0%Z d) a i = Ok L /\ In t L) <->
         (exists c n x, c < length R /\ t = n ++ [Z.of_nat c] /\ linked d V R cells conns a c n x)) /\
      (* symmetric and irreflexive *)
      (forall a c n x, a < length R -> c < length R ->
         linked d V R cells conns a c n x <-> (length n = d /\ linked d V R cells conns c a (map Z.opp n) x)) /\
      (forall a x, a < length R -> ~ linked d V R cells conns a a (repeat 0%Z d) x).
Proof.
  intros query s s' conns Hq Hb Hd Hs Ec0 Ha d V R.
  destruct (C29_neighbors_translation_covariant query s s' conns Hq Hb Hd Hs Ec0 Ha) as [m [cells [Hm [Hm' [Ecells Hn]]]]].
  fold d V R in Hn.
  destruct (analysed_table query s s' Hb Hd Hs Ha) as [conns' [cells' [Ec [_ [_ [_ [_ [[_ [_ Hsym]] [HR _]]]]]]]]].
  rewrite Ec0 in Ec. injection Ec as <-.
  destruct (cells_props (st_basis s) m Hb Hd cells Ecells) as [_ [Hlen Hneg]]. fold d in Hlen.
  exists m, cells. split; auto. split; auto. split; auto. split; [|split].
  - intros a t HaR. destruct (Hn a HaR) as [Ds [_ [HDs Hget]]]. split.
    + intros [i [L [E Hin]]]. specialize (Hget (repeat 0%Z d) i (repeat_length _ _)).
      destruct (nth_error Ds i) as [x|]; [|congruence]. destruct Hget as [L1 [L0 [E1 [E0 [_ [_ [Hin1 _]]]]]]].
      rewrite E in E1. injection E1 as <-. apply Hin1 in Hin. destruct Hin as [n [c [Hc [-> Hl]]]].
      exists c, n, x. split; auto. split; auto. f_equal. apply (list_eq_nth _ _ 0%Z).
      * rewrite map2_length, repeat_length. specialize (Hlen n (proj1 Hl)). lia.
      * intros k Hk. rewrite map2_length, repeat_length in Hk. rewrite (nth_map2 _ _ _ _ 0%Z 0%Z) by (rewrite ?repeat_length; lia).
        rewrite nth_repeat. lia.
    + intros [c [n [x [Hc [-> Hl]]]]]. assert (In x Ds) as Hx by (apply HDs; eauto). apply In_nth_error in Hx. destruct Hx as [i Hi].
      specialize (Hget (repeat 0%Z d) i (repeat_length _ _)). rewrite Hi in Hget. destruct Hget as [L [_ [E [_ [_ [_ [Hin _]]]]]]].
      exists i, L. split; auto. apply Hin. exists n, c. split; auto. split; auto. f_equal. symmetry. apply (list_eq_nth _ _ 0%Z).
      * rewrite map2_length, repeat_length. specialize (Hlen n (proj1 Hl)). lia.
      * intros k Hk. rewrite map2_length, repeat_length in Hk. rewrite (nth_map2 _ _ _ _ 0%Z 0%Z) by (rewrite ?repeat_length; lia).
        rewrite nth_repeat. lia.
  - intros a c n x HaR HcR. split.
    + intro Hl. split; [apply Hlen, Hl|]. apply linked_sym; auto.
    + intros [_ Hl]. rewrite <- (opp_opp n). apply linked_sym; auto.
  - intros a x HaR. apply zero_cell_unlinked. apply HR, nth_In. auto.
Qed.

(** When analyze succeeds. *)
Theorem C28_analyze_outcome :
  forall query s, valid_basis (st_basis s) -> 1 <= b_dim (st_basis s) -> in_step s ->
    let r := snd (analyze query s) in
    let zero := forall c i j, st_connections s = Some c -> nth j (nth i c []) 0 = 0 in
    (r = Raise NoAtomsError <-> st_atoms s = []) /\
    (r = Raise NoConnectionsError <-> st_atoms s <> [] /\ zero) /\
    (r = Ok tt <-> st_atoms s <> [] /\ ~ zero).
Proof.
  intros query s Hb Hd [_ [_ [_ Hc]]] r zero.
  destruct (st_atoms s) as [|a l] eqn:Ea.
  { unfold r, analyze. rewrite Ea. cbn. intuition congruence. }
  destruct (st_connections s) as [conns|] eqn:Ec; [|congruence].
  destruct (forallb (forallb (Nat.eqb 0)) conns) eqn:Ez.
  - assert (zero) as Hz.
    { intros c i j E. injection E as <-. rewrite forallb_forall in Ez. destruct (lt_dec i (length conns)) as [Hi|Hi].
      - assert (In (nth i conns []) conns) as Hin by (apply nth_In; auto). specialize (Ez _ Hin). rewrite forallb_forall in Ez.
        destruct (lt_dec j (length (nth i conns []))) as [Hj|Hj]; [|apply nth_overflow; lia].
        symmetry. apply Nat.eqb_eq. apply Ez. apply nth_In. auto.
      - rewrite (nth_overflow conns) by lia. destruct j; reflexivity. }
    assert (r = Raise NoConnectionsError) as -> by (unfold r, analyze; rewrite Ea, Ec, Ez; reflexivity).
    split; [split; discriminate|]. split; [split; auto; intros _; split; [discriminate|auto]|]. split; [discriminate|tauto].
  - assert (~ zero) as Hz.
    { intro Hz. apply not_true_iff_false in Ez. apply Ez. apply forallb_forall. intros row Hr. apply forallb_forall. intros x Hx.
      apply Nat.eqb_eq. apply (In_nth _ _ []) in Hr. destruct Hr as [i [_ <-]]. apply (In_nth _ _ 0) in Hx. destruct Hx as [j [_ <-]].
      symmetry. apply Hz. reflexivity. }
    destruct (analyze_succeeds query s conns Hb Hd) as [cells [raw [_ [_ E]]]]; auto; [rewrite Ea; discriminate|].
    assert (r = Ok tt) as -> by (unfold r; rewrite E; reflexivity).
    split; [split; discriminate|]. split; [split; [discriminate|tauto]|]. split; auto. intros _. split; [discriminate|auto].
Qed.

(** Two atoms in a rectangular cell, connected to each other and, once, among the second kind. *)
Example C28_example :
  correct_tree brute /\ valid_basis (st_basis ex_state) /\ in_step ex_state /\
  analyze brute ex_state = (ex_state, Ok tt) /\
  get_neighbors ex_state [0; 0]%Z 0 0 = Ok [[-1; 0; 1]; [0; 0; 1]]%Z /\
  get_neighbors ex_state [5; -3]%Z 0 0 = Ok [[4; -3; 1]; [5; -3; 1]]%Z /\
  get_neighbors ex_state [0; 0]%Z 0 1 = Raise IndexError /\
  get_neighbors ex_state [0; 0]%Z 1 0 = Ok [[0; 0; 0]; [1; 0; 0]; [0; -1; 1]; [0; 1; 1]]%Z /\
  get_neighbors ex_state [0; 0]%Z 1 1 = Ok [[-1; 0; 1]; [0; -2; 1]; [0; 2; 1]; [1; 0; 1]]%Z.
Proof.
  split; [exact brute_nearest|]. split; [apply inverse2_check; reflexivity|].
  split; [apply (reachable_in_step brute ex_rect), C25_example|]. vm_compute. auto 10.
Qed.

(** ** C36 *)

Lemma dd_count_get (row : distdict) :
  NoDup (dd_keys row) -> dd_count row = length (concat (map (dd_get row) (dd_keys row))).
Proof.
  intro Hnd. assert (map (dd_get row) (dd_keys row) = map snd row) as ->.
  { unfold dd_keys in *. rewrite map_map. apply map_ext_in. intros [k v] Hin. cbn [fst snd].
    induction row as [|[k' v'] row IH]; [destruct Hin|]. cbn in Hnd. inversion Hnd as [|? ? Hk Hnd']; subst. cbn [dd_get].
    destruct Hin as [E|Hin].
    - injection E as -> ->. rewrite deqb_refl. reflexivity.
    - destruct (deqb k k') eqn:E; [|apply IH; auto]. apply deqb_eq in E. subst k'. exfalso. apply Hk.
      apply in_map_iff. exists (k, v). auto. }
  unfold dd_count. clear. induction row as [|[k v] row IH]; cbn; auto. rewrite app_length, IH. reflexivity.
Qed.

Lemma length_concat_perm {A} (l l' : list (list A)) : Permutation l l' -> length (concat l) = length (concat l').
Proof. induction 1; cbn; rewrite ?app_length; lia. Qed.

Lemma pair_distance_unique d V R a c n x y : pair_distance d V R a c n x -> pair_distance d V R a c n y -> x = y.
Proof. intros [z [-> Hz]] [z' [-> Hz']]. f_equal. eapply rounds_unique; eauto. reflexivity. Qed.

Theorem C36_num_neighbors :
  forall query s s', correct_tree query -> valid_basis (st_basis s) -> 1 <= b_dim (st_basis s) -> in_step s ->
    analyze query s = (s', Ok tt) ->
    exists an, st_analysis s' = Some an /\
    forall a, a < length (st_positions s) ->
      exists lists,
        (* everything get_neighbors returns for this atom, by distance index *)
        (forall i, get_neighbors s' (repeat 0%Z (b_dim (st_basis s))) a i =
           match nth_error lists i with Some L => Ok L | None => Raise IndexError end) /\
        NoDup (concat lists) /\
        (* the stored number is the number of sites, reduced to eight bits *)
        (length (concat lists) <= 127 -> nth a (an_num an) 0%Z = Z.of_nat (length (concat lists))) /\
        (128 <= length (concat lists) <= 255 ->
         nth a (an_num an) 0%Z = (Z.of_nat (length (concat lists)) - 256)%Z).
Proof.
  intros query s s' Hq Hb Hd Hs Ha.
  destruct (analysed_table query s s' Hb Hd Hs Ha) as [conns [cells [Ec [_ [_ [_ [Ecells [_ [HR Es]]]]]]]]].
  set (R := st_positions s) in *. set (d := b_dim (st_basis s)) in *.
  set (raw := raw_dicts query (st_basis s) R (max_connections conns) cells) in *.
  exists (analyze_raw raw conns (length R)). assert (st_analysis s' = Some (analyze_raw raw conns (length R))) as Ean by (rewrite Es; reflexivity).
  split; auto. intros a HaR.
  destruct (base_row_spec query (st_basis s) R (max_connections conns) Hq Hb Hd HR cells Ecells conns (in_max_connections conns) a HaR) as [Hknd _].
  fold raw in Hknd. set (row := base_row raw conns (length R) a) in *.
  pose proof (fun x => base_get query (st_basis s) R (max_connections conns) Hq Hb Hd HR cells Ecells conns (in_max_connections conns) a x HaR) as Hget.
  fold raw in Hget. fold row in Hget.
  destruct (cells_props (st_basis s) (max_connections conns) Hb Hd cells Ecells) as [_ [Hlen _]]. fold d in Hlen.
  set (keys := sort_stable dleb (dd_keys row)).
  assert (Permutation keys (dd_keys row)) as Hperm by apply sort_stable_perm.
  exists (map (dd_get row) keys).
  assert (length (concat (map (dd_get row) keys)) = dd_count row) as Hcount.
  { rewrite dd_count_get by auto. apply length_concat_perm. apply Permutation_map. exact Hperm. }
  assert (nth a (an_num (analyze_raw raw conns (length R))) 0%Z = wrap_signed 8 (Z.of_nat (dd_count row))) as Hnum.
  { cbn [analyze_raw an_num]. rewrite map_map. rewrite (nth_map_in _ _ _ 0) by (rewrite seq_length; auto). rewrite seq_nth by auto. reflexivity. }
  split; [|split; [|split]].
  - intro i. rewrite (get_neighbors_eq s' _ _ _ _ Ean) by (rewrite analyze_raw_base_length; auto).
    rewrite analyze_raw_base by auto. fold row. fold keys. rewrite nth_error_map'. destruct (nth_error keys i) as [x|]; auto. cbn [option_map].
    f_equal. rewrite <- (map_id (dd_get row x)) at 2. apply map_ext_in. intros t Ht. apply Hget in Ht.
    destruct Ht as [n [c [Hc [-> Hl]]]]. rewrite site_cell_app, last_last. f_equal.
    pose proof (Hlen n (proj1 Hl)) as Hn. apply (list_eq_nth _ _ 0%Z); [rewrite map2_length, repeat_length; lia|].
    intros k Hk. rewrite map2_length, repeat_length in Hk.
    rewrite (nth_map2 _ _ _ _ 0%Z 0%Z) by (rewrite ?repeat_length; lia). rewrite nth_repeat. lia.
  - assert (NoDup keys) as Hk by (eapply Permutation_NoDup; [symmetry; exact Hperm|auto]).
    clearbody keys. clear Hperm Hcount. induction Hk as [|x ks Hx Hk IH]; cbn; [constructor|].
    apply NoDup_app_intro; auto; [apply Hget|].
    intros t Ht Ht'. apply in_concat in Ht'. destruct Ht' as [L [HL Ht']]. apply in_map_iff in HL. destruct HL as [y [<- Hy]].
    apply Hget in Ht. apply Hget in Ht'. destruct Ht as [n [c [Hc [E Hl]]]]. destruct Ht' as [n' [c' [Hc' [E' Hl']]]].
    rewrite E in E'. apply site_app_inj in E'. destruct E' as [<- <-].
    assert (x = y) as -> by (eapply pair_distance_unique; [apply Hl|apply Hl']). auto.
  - rewrite Hcount, Hnum. intro H. unfold wrap_signed. cbn -[Z.of_nat Z.modulo]. rewrite Z.mod_small by lia. lia.
  - rewrite Hcount, Hnum. intro H. unfold wrap_signed. cbn -[Z.of_nat Z.modulo].
    replace (Z.of_nat (dd_count row) + 128)%Z with (Z.of_nat (dd_count row) - 128 + 1 * 256)%Z by lia.
    rewrite Z.mod_add by lia. rewrite Z.mod_small by lia. lia.
Qed.

Lemma inverse1_check (a a' : Q) : (a * a' == 1)%Q -> inverse_of 1 [[a]] [[a']].
Proof.
  intro H. split; [split; [reflexivity|intros r [<-|[]]; reflexivity]|].
  split; [split; [reflexivity|intros r [<-|[]]; reflexivity]|].
  split; intros i j Hi Hj; assert (i = 0) as -> by lia; assert (j = 0) as -> by lia; unfold entry, delta; cbn [sum_upto nth Nat.eqb].
  - rewrite H. reflexivity.
  - rewrite (Qmult_comm a' a), H. reflexivity.
Qed.

Definition long_chain : structure :=
  fst (run_call brute (fst (run_call brute (new_structure ex_chain) (CAddAtom None (ex_atom "A") false 0)))
         (CAddConnections 64 false)).

Definition long_chain_check (sr : structure * result unit) : bool :=
  match sr with
  | (s', Ok tt) =>
    forallb (fun i => match get_neighbors s' [0%Z] 0 i with
       | Ok [[x; 0%Z]; [y; 0%Z]] => (x =? - Z.of_nat (i + 1))%Z && (y =? Z.of_nat (i + 1))%Z | _ => false end) (seq 0 64)
    && (match get_neighbors s' [0%Z] 0 64 with Raise IndexError => true | _ => false end)
    && (match st_analysis s' with Some an => match an_num an with [x] => (x =? -128)%Z | _ => false end | None => false end)
  | _ => false
  end.

Lemma long_chain_checked : long_chain_check (analyze brute long_chain) = true.
Proof. vm_compute. reflexivity. Qed.

(** A chain with 64 distances: 128 neighbours, and num_neighbors is -128. *)
Theorem C36_wraps_refuted :
  exists s s' an, in_step s /\ valid_basis (st_basis s) /\ analyze brute s = (s', Ok tt) /\ st_analysis s' = Some an /\
    (forall i, i < 64 -> get_neighbors s' [0%Z] 0 i = Ok [[- Z.of_nat (i + 1); 0]; [Z.of_nat (i + 1); 0]]%Z) /\
    get_neighbors s' [0%Z] 0 64 = Raise IndexError /\
    an_num an = [-128]%Z.
Proof.
  pose proof long_chain_checked as H. exists long_chain.
  assert (in_step long_chain) as Hs.
  { apply (reachable_in_step brute ex_chain). unfold long_chain. repeat (apply r_call; [|intro; reflexivity || discriminate]). apply r_new. }
  assert (valid_basis (st_basis long_chain)) as Hb by (apply inverse1_check; reflexivity).
  generalize dependent long_chain. intros s H Hs Hb.
  destruct (analyze brute s) as [s' [[]|e]]; [|discriminate]. unfold long_chain_check in H.
  rewrite !andb_true_iff in H. destruct H as [[H1 H2] H3].
  destruct (st_analysis s') as [an|] eqn:Ean; [|discriminate].
  exists s', an. split; auto. split; auto. split; auto. split; auto. split; [|split].
  - rewrite forallb_forall in H1. intros i Hi. specialize (H1 i ltac:(apply in_seq; lia)).
    destruct (get_neighbors s' [0%Z] 0 i) as [[|[|x [|[| |] [|]]] [|[|y [|[| |] [|]]] [|]]]|]; try discriminate.
    apply andb_true_iff in H1. rewrite !Z.eqb_eq in H1. destruct H1 as [-> ->]. reflexivity.
  - destruct (get_neighbors s' [0%Z] 0 64) as [|[]]; try discriminate. reflexivity.
  - destruct (an_num an) as [|x [|]]; try discriminate. apply Z.eqb_eq in H3. rewrite H3. reflexivity.
Qed.

Example C36_example :
  exists an, st_analysis ex_state = Some an /\ an_num an = [2; 8]%Z.
Proof. eexists. split; [reflexivity|]. reflexivity. Qed.

(** ** C67 *)

Theorem C67_neighbor_vectors :
  forall query s s' conns a i L,
    correct_tree query -> valid_basis (st_basis s) -> 1 <= b_dim (st_basis s) -> in_step s ->
    st_connections s = Some conns -> analyze query s = (s', Ok tt) ->
    let d := b_dim (st_basis s) in
    let V := b_mat (st_basis s) in
    let R := st_positions s in
    a < length R -> get_neighbors s' (repeat 0%Z d) a i = Ok L ->
    exists W x, get_neighbor_vectors s' a i false = Ok W /\ length W = length L /\
      (* vector k leads from the atom to neighbour k *)
      (forall k n c, nth_error L k = Some (n ++ [Z.of_nat c]) ->
         exists w, nth_error W k = Some w /\ length w = d /\
           forall j, j < d -> (nth j w 0 == nth j (lattice_point d V (nth c R []) n) 0 - nth j (nth a R []) 0)%Q) /\
      (* all have the same length *)
      (forall w, In w W -> rounds_to_micro (sum_upto d (fun j => nth j w 0 * nth j w 0)%Q) x) /\
      (* the extra row of include_zero *)
      exists w0, get_neighbor_vectors s' a i true = Ok (w0 :: W) /\ length w0 = d /\
        forall j, j < d -> (nth j w0 0 == - nth j (nth a R []) 0)%Q.
Proof.
  intros query s s' conns a i L Hq Hb Hd Hs Ec0 Ha d V R HaR EL.
  destruct (C29_neighbors_translation_covariant query s s' conns Hq Hb Hd Hs Ec0 Ha) as [m [cells [_ [_ [Ecells Hn]]]]].
  destruct (Hn a HaR) as [Ds [_ [_ Hget]]]. specialize (Hget (repeat 0%Z d) i (repeat_length _ _)).
  destruct (analysed_table query s s' Hb Hd Hs Ha) as [conns' [cells' [Ec [_ [_ [_ [_ [_ [HR Es]]]]]]]]].
  destruct (cells_props (st_basis s) m Hb Hd cells Ecells) as [_ [Hlen _]]. fold d R V in Hlen, Hget.
  destruct (nth_error Ds i) as [x|]; [|fold d in Hget; congruence].
  destruct Hget as [L' [_ [EL' [_ [_ [_ [Hin Hap]]]]]]]. assert (L' = L) as -> by (unfold d in *; congruence).
  assert (length (nth a R []) = d) as Hal by (apply HR, nth_In; auto).
  assert (forall t, In t L -> exists n c, c < length R /\ t = n ++ [Z.of_nat c] /\ length n = d /\ apart d V R (repeat 0%Z d) a n c x) as HL.
  { intros t Ht. pose proof Ht as Ht'. apply Hin in Ht. destruct Ht as [n [c [Hc [-> Hl]]]]. exists (map2 Z.add n (repeat 0%Z d)), c.
    split; auto. split; auto. split; [rewrite map2_length, repeat_length; pose proof (Hlen n (proj1 Hl)); lia|]. apply Hap. exact Ht'. }
  set (vecs := map (fun t => vsub (translate (st_basis s) (site_cell t) (nth (site_atom t) R [])) (nth a R [])) L).
  assert (st_basis s' = st_basis s /\ st_positions s' = R /\ st_analysis s' <> None) as [E1 [E2 E3]].
  { rewrite Es. cbn. split; auto. split; auto. discriminate. }
  assert (forall z, get_neighbor_vectors s' a i z = Ok (if z then vsub (vzero d) (nth a R []) :: vecs else vecs)) as Evec.
  { intro z. unfold get_neighbor_vectors. destruct (st_analysis s'); [|congruence]. rewrite E1, E2. fold d.
    rewrite (nth_error_nth' R [] HaR). unfold get_neighbor_positions. rewrite EL, E1, E2. unfold get_positions.
    destruct z; cbn [map]; rewrite map_map; reflexivity. }
  assert (forall n c, c < length R -> length n = d ->
     let w := vsub (translate (st_basis s) n (nth c R [])) (nth a R []) in
     length w = d /\ forall j, j < d -> (nth j w 0 == nth j (lattice_point d V (nth c R []) n) 0 - nth j (nth a R []) 0)%Q) as Hw.
  { intros n c Hc Hnl. cbv zeta. assert (length (nth c R []) = d) as Hcl by (apply HR, nth_In; auto).
    pose proof (translate_point (st_basis s) n (nth c R []) Hb Hnl Hcl) as Ht. pose proof (veq_length _ _ Ht) as Htl.
    rewrite lattice_point_length in Htl. fold d in Htl. split; [rewrite vsub_length; lia|]. intros j Hj.
    unfold vsub. rewrite (nth_map2 _ _ _ _ 0%Q 0%Q) by lia. apply veq_nth in Ht. destruct Ht as [_ Ht]. rewrite Ht. reflexivity. }
  assert (exists z, x = Fin z \/ L = []) as [z Hz].
  { destruct L as [|t L]; [exists 0%Z; auto|]. destruct (HL t (or_introl eq_refl)) as [n [c [_ [_ [_ [z [-> _]]]]]]]. eauto. }
  exists vecs, z. split; [apply (Evec false)|]. split; [apply map_length|]. split; [|split].
  - intros k n c Hk. pose proof (nth_error_In _ _ Hk) as Hkin. destruct (HL _ Hkin) as [n' [c' [Hc [E [Hnl _]]]]].
    apply site_app_inj in E. destruct E as [<- <-]. eexists. split; [unfold vecs; rewrite nth_error_map', Hk; reflexivity|].
    rewrite site_cell_app, site_atom_app. apply Hw; auto.
  - intros w Hwin. unfold vecs in Hwin. apply in_map_iff in Hwin. destruct Hwin as [t [<- Ht]].
    destruct (HL t Ht) as [n [c [Hc [-> [Hnl Hapart]]]]]. rewrite site_cell_app, site_atom_app. destruct (Hw n c Hc Hnl) as [_ He].
    destruct Hapart as [z' [Ex Hr]]. destruct Hz as [Hz|Hz]; [|subst L; destruct Ht]. assert (z' = z) as -> by congruence.
    eapply rounds_ext; [|exact Hr]. unfold sqdist. rewrite lattice_point_length. apply sum_ext. intros j Hj. rewrite !He by auto.
    rewrite (nth_lattice_point d V (nth a R [])) by auto.
    assert (sum_upto d (fun k => entry V j k * inject_Z (nth k (repeat 0%Z d) 0%Z)) == 0)%Q as E.
    { apply sum_zero. intros k Hk. rewrite nth_repeat. change (inject_Z 0) with 0%Q. ring. }
    rewrite E. unfold vec in *. generalize (nth j (lattice_point d V (nth c R []) n) 0%Q) (nth j (nth a R []) 0%Q). intros. ring.
  - exists (vsub (vzero d) (nth a R [])). split; [apply (Evec true)|].
    split; [rewrite vsub_length; rewrite ?vzero_len; auto|]. intros j Hj.
    unfold vsub. rewrite (nth_map2 _ _ _ _ 0%Q 0%Q) by (rewrite ?vzero_len; lia).
    assert (nth j (vzero d) 0 = 0)%Q as -> by (unfold vzero; apply nth_repeat). ring.
Qed.

(** [include_zero] adds a row that is not zero. *)
Theorem C67_include_zero_refuted :
  exists w0 W, get_neighbor_vectors ex_state 1 0 true = Ok (w0 :: W) /\
    same w0 [-1; 0]%Q /\ forall w, In w (w0 :: W) -> ~ same w [0; 0]%Q.
Proof.
  eexists. eexists. split; [vm_compute; reflexivity|]. split; [apply same_veq; repeat constructor|].
  intros w Hw Hs. apply same_veq, veqb_veq in Hs. revert Hs. cbn [In] in Hw.
  repeat (destruct Hw as [<-|Hw]; [vm_compute; discriminate|]). destruct Hw.
Qed.

Example C67_example :
  match get_neighbor_vectors ex_state 0 0 false with
  | Ok [u; v] => same u [-1; 0]%Q /\ same v [1; 0]%Q
  | _ => False
  end.
Proof. vm_compute get_neighbor_vectors. split; apply same_veq; repeat constructor. Qed.

Print Assumptions C28_analyze_finds_configured_distances.
Print Assumptions C28_analyze_outcome.
Print Assumptions C29_neighbors_translation_covariant.
Print Assumptions C36_num_neighbors.
Print Assumptions C36_wraps_refuted.
Print Assumptions C67_neighbor_vectors.
Print Assumptions C67_include_zero_refuted.
