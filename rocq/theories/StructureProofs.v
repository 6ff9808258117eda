(** * Atoms, references and connections *)
From Coq Require Import String List ZArith QArith Bool Arith Lia Sorting.Sorted.
From Verif Require Import Np NpFacts LinAlg LinFacts SpecUtils SpecBasis AtomModel BasisModel BasisProofs NeighborCellProofs SpecStructure
  StructureModel StructureFacts AnalyzeProofs.
Import ListNotations.
Open Scope nat_scope.
Open Scope list_scope.

(** Atoms, positions and connections agree. *)
Definition in_step (s : structure) : Prop :=
  length (st_positions s) = length (st_atoms s) /\
  (forall r, In r (st_positions s) -> length r = b_dim (st_basis s)) /\
  (forall i j r r', i < j -> nth_error (st_positions s) i = Some r -> nth_error (st_positions s) j = Some r' ->
     ~ same r r') /\
  match st_connections s with
  | None => st_atoms s = []
  | Some c => length c = length (st_atoms s) /\
      (forall row, In row c -> length row = length (st_atoms s)) /\
      (forall i j, nth j (nth i c []) 0 = nth i (nth j c []) 0)
  end.

(** The calls that change a lattice. *)
Inductive call :=
| CAddAtom (pos : option (list Q)) (a : atom) (primitive : bool) (neighbors : nat)
| CAddConnection (a1 a2 : aref) (num : nat) (run_analyze : bool)
| CAddConnections (num : nat) (run_analyze : bool)
| CAnalyze.

Definition run_call (query : kd_tree) (s : structure) (c : call) : structure * result unit :=
  match c with
  | CAddAtom pos a primitive neighbors => add_atom query s pos a primitive neighbors
  | CAddConnection a1 a2 num an => add_connection query s a1 a2 num an
  | CAddConnections num an => add_connections query s num an
  | CAnalyze => analyze query s
  end.

Definition adds_atom (c : call) : bool := match c with CAddAtom _ _ _ _ => true | _ => false end.

(** Any history of calls, also failing ones, in which no atom is added to an analysed lattice. *)
Inductive reachable (query : kd_tree) (b : basis) : structure -> Prop :=
| r_new : reachable query b (new_structure b)
| r_call s c : reachable query b s -> (adds_atom c = true -> st_frozen s = false) ->
    reachable query b (fst (run_call query s c)).

Lemma analyze_keeps query s :
  let s' := fst (analyze query s) in
  st_basis s' = st_basis s /\ st_atoms s' = st_atoms s /\ st_positions s' = st_positions s /\
  st_connections s' = st_connections s.
Proof.
  unfold analyze. destruct (st_atoms s) eqn:Ea; [auto|]. destruct (st_connections s) eqn:Ec; [|auto].
  destruct (forallb (forallb (Nat.eqb 0)) l0); [auto|]. cbn [st_basis st_positions].
  destruct (compute_base_neighbors _ _ _ _); cbn; auto.
Qed.

Lemma analyze_succeeds query s conns :
  valid_basis (st_basis s) -> 1 <= b_dim (st_basis s) -> st_atoms s <> [] -> st_connections s = Some conns ->
  forallb (forallb (Nat.eqb 0)) conns = false ->
  exists cells raw, get_neighbor_cells (st_basis s) (2 * max_connections conns) true Qle_bool = Some cells /\
    compute_base_neighbors query (st_basis s) (st_positions s) (max_connections conns) = Some raw /\
    analyze query s = (mkStructure (st_basis s) (st_atoms s) (st_positions s) true (Some conns)
                        (Some (analyze_raw raw conns (length (st_positions s)))), Ok tt).
Proof.
  intros Hb Hd Ha Hc Hz. unfold analyze. destruct (st_atoms s); [congruence|]. rewrite Hc, Hz. cbn [st_basis st_positions].
  pose proof (cells_exist (st_basis s) (2 * max_connections conns) true Qle_bool Hb Hd) as He.
  destruct (compute_base_neighbors query (st_basis s) (st_positions s) (max_connections conns)) as [raw|] eqn:E.
  - destruct (get_neighbor_cells (st_basis s) (2 * max_connections conns) true Qle_bool) as [cells|] eqn:Ec; [|congruence].
    exists cells, raw. auto.
  - exfalso. unfold compute_base_neighbors in E.
    destruct (get_neighbor_cells (st_basis s) (2 * max_connections conns) true Qle_bool); congruence.
Qed.

Lemma in_step_analyze query s : in_step s -> in_step (fst (analyze query s)).
Proof.
  intro H. destruct (analyze_keeps query s) as [E1 [E2 [E3 E4]]]. unfold in_step in *. rewrite E1, E2, E3, E4. exact H.
Qed.

Lemma in_step_constant b atoms positions frozen an num :
  length positions = length atoms -> (forall r, In r positions -> length r = b_dim b) ->
  (forall i j r r', i < j -> nth_error positions i = Some r -> nth_error positions j = Some r' -> ~ same r r') ->
  forall c, length c = length atoms -> (forall row, In row c -> length row = length atoms) ->
  (forall i j, i < length atoms -> j < length atoms -> nth j (nth i c []) 0 = num) ->
  in_step (mkStructure b atoms positions frozen (Some c) an).
Proof.
  intros H1 H2 H3 c Hc Hr He. unfold in_step. cbn. split; auto. split; auto. split; auto. split; auto. split; auto.
  assert (forall i j, i < length atoms -> ~ j < length atoms -> nth j (nth i c []) 0 = 0) as Ho.
  { intros i j Hi Hj. rewrite nth_overflow; auto. rewrite (Hr (nth i c [])); [lia|]. apply nth_In. lia. }
  assert (forall i j, ~ i < length atoms -> nth j (nth i c []) 0 = 0) as Ho'.
  { intros i j Hi. rewrite (nth_overflow c) by lia. destruct j; reflexivity. }
  intros i j. destruct (lt_dec i (length atoms)) as [Hi|Hi], (lt_dec j (length atoms)) as [Hj|Hj].
  - rewrite !He by auto. reflexivity.
  - rewrite Ho by auto. rewrite Ho' by auto. reflexivity.
  - rewrite Ho' by auto. rewrite Ho by auto. reflexivity.
  - rewrite !Ho' by auto. reflexivity.
Qed.

Lemma nth_repeat2 n v i j : i < n -> j < n -> nth j (nth i (repeat (repeat v n) n) []) 0 = v.
Proof.
  intros Hi Hj. assert (forall A (x y : A) n i, i < n -> nth i (repeat x n) y = x) as Hr.
  { intros A x y m. induction m; intros [|k] Hk; cbn; auto; try lia. apply IHm. lia. }
  rewrite Hr by auto. apply Hr. auto.
Qed.

Lemma nth_map2d (num : nat) (c : list (list nat)) n i j :
  length c = n -> (forall row, In row c -> length row = n) -> i < n -> j < n ->
  nth j (nth i (map (map (fun _ => num)) c) []) 0 = num.
Proof.
  intros Hc Hr Hi Hj. rewrite (nth_map_in _ _ _ []) by lia.
  rewrite (nth_map_in _ _ _ 0); auto. rewrite (Hr (nth i c [])); auto. apply nth_In. lia.
Qed.

Lemma in_step_add_connections query s num an : in_step s -> in_step (fst (add_connections query s num an)).
Proof.
  intro H. unfold add_connections. destruct (st_connections s) as [c|] eqn:Ec; [|exact H].
  pose proof H as [H1 [H2 [H3 H4]]]. rewrite Ec in H4. destruct H4 as [Hc [Hr Hs]].
  assert (in_step (mkStructure (st_basis s) (st_atoms s) (st_positions s) (st_frozen s)
            (Some (map (map (fun _ => num)) c)) (st_analysis s))) as Hi.
  { apply in_step_constant with (num := num); auto.
    - rewrite map_length. auto.
    - intros row Hrow. apply in_map_iff in Hrow. destruct Hrow as [row' [<- Hrow]]. rewrite map_length. auto.
    - intros i j Hi Hj. eapply nth_map2d; eauto. }
  destruct an; [apply in_step_analyze|]; exact Hi.
Qed.

(** The argument [pos]. *)
Definition given_position (d : nat) (pos : option (list Q)) : list Q :=
  match pos with None => repeat 0%Q d | Some p => p end.

(** The position after [add_atom] has normalised it. *)
Definition cartesian (s : structure) (pos : option (list Q)) (primitive : bool) : list Q :=
  let dim := b_dim (st_basis s) in
  let p := given_position dim pos in
  if primitive then vadd (vzero dim) (matvec (b_mat (st_basis s)) p) else p.

Lemma vzero_len d : length (vzero d) = d.
Proof. apply repeat_length. Qed.

Lemma cartesian_length s pos primitive :
  length (given_position (b_dim (st_basis s)) pos) = b_dim (st_basis s) ->
  length (cartesian s pos primitive) = b_dim (st_basis s).
Proof.
  intro H. unfold cartesian. destruct primitive; auto. rewrite vadd_length; [apply vzero_len|].
  rewrite vzero_len, matvec_length. reflexivity.
Qed.

Lemma add_atom_eq query s pos a primitive neighbors :
  add_atom query s pos a primitive neighbors =
  if negb (length (given_position (b_dim (st_basis s)) pos) =? b_dim (st_basis s))
  then (s, Raise ValueError)
  else if existsb (veqb (cartesian s pos primitive)) (st_positions s) then (s, Raise SiteOccupiedError)
  else if st_frozen s then
    (mkStructure (st_basis s) (st_atoms s ++ [a]) (st_positions s) true (st_connections s) (st_analysis s),
     Raise AttributeError)
  else
    let n := length (st_atoms s ++ [a]) in
    let s' := mkStructure (st_basis s) (st_atoms s ++ [a]) (st_positions s ++ [cartesian s pos primitive]) false
                (Some (repeat (repeat 0 n) n)) (st_analysis s) in
    if neighbors =? 0 then (s', Ok tt) else add_connections query s' neighbors true.
Proof. reflexivity. Qed.

Lemma in_step_add_atom query s pos a primitive neighbors :
  in_step s -> st_frozen s = false -> in_step (fst (add_atom query s pos a primitive neighbors)).
Proof.
  intros H Hf. rewrite add_atom_eq.
  destruct (negb (length _ =? b_dim (st_basis s))) eqn:El; [exact H|].
  apply negb_false_iff, Nat.eqb_eq in El.
  destruct (existsb (veqb (cartesian s pos primitive)) (st_positions s)) eqn:Eo; [exact H|].
  rewrite Hf. destruct H as [H1 [H2 [H3 H4]]].
  set (n := length (st_atoms s ++ [a])).
  assert (in_step (mkStructure (st_basis s) (st_atoms s ++ [a]) (st_positions s ++ [cartesian s pos primitive]) false
            (Some (repeat (repeat 0 n) n)) (st_analysis s))) as Hi.
  { apply in_step_constant with (num := 0).
    - rewrite !app_length. cbn. lia.
    - intros r Hr. apply in_app_or in Hr. destruct Hr as [Hr|[<-|[]]]; auto. apply cartesian_length. exact El.
    - intros i j r r' Hij Ei Ej. destruct (lt_dec j (length (st_positions s))) as [Hj|Hj].
      + rewrite nth_error_app1 in Ei, Ej by lia. eauto.
      + rewrite nth_error_app2 in Ej by lia. destruct (j - length (st_positions s)) as [|k] eqn:Ek.
        * cbn in Ej. injection Ej as <-. rewrite nth_error_app1 in Ei by lia.
          intro Hs. apply same_veq, veq_sym, veqb_veq in Hs. apply not_true_iff_false in Eo. apply Eo.
          apply existsb_exists. exists r. split; auto. eapply nth_error_In; eauto.
        * destruct k; discriminate.
    - apply repeat_length.
    - intros row Hr. apply repeat_spec in Hr. subst row. apply repeat_length.
    - intros i j Hi Hj. apply nth_repeat2; auto. }
  destruct (neighbors =? 0); [exact Hi|]. apply in_step_add_connections. exact Hi.
Qed.

(** ** add_connection *)

Definition sym_table (n : nat) (c : list (list nat)) : Prop :=
  length c = n /\ (forall row, In row c -> length row = n) /\
  (forall i j, nth j (nth i c []) 0 = nth i (nth j c []) 0).

Lemma py_index_lt n i k : py_index n i = Some k -> k < n.
Proof.
  unfold py_index. destruct ((0 <=? i)%Z && (i <? Z.of_nat n)%Z) eqn:E.
  - intro H. injection H as <-. apply andb_true_iff in E. rewrite Z.leb_le, Z.ltb_lt in E. lia.
  - destruct ((- Z.of_nat n <=? i)%Z && (i <? 0)%Z) eqn:E'; [|discriminate].
    intro H. injection H as <-. apply andb_true_iff in E'. rewrite Z.leb_le, Z.ltb_lt in E'. lia.
Qed.

Lemma set2_square n c a b (v : nat) :
  length c = n -> (forall row, In row c -> length row = n) ->
  let c' := set_nth a (set_nth b v (nth a c [])) c in
  length c' = n /\ (a < n -> forall row, In row c' -> length row = n) /\
  (a < n -> b < n -> forall i j, i < n -> j < n -> nth j (nth i c' []) 0 = if (i =? a) && (j =? b) then v else nth j (nth i c []) 0).
Proof.
  intros Hc Hr. cbv zeta. split; [rewrite set_nth_length; auto|].
  assert (forall i, i < n -> length (nth i c []) = n) as Hn by (intros i Hi; apply Hr, nth_In; lia).
  split.
  - intros Ha row Hrow. apply In_nth_error in Hrow. destruct Hrow as [k Hk]. rewrite nth_error_set_nth in Hk.
    destruct (k =? a) eqn:E.
    + destruct (k <? length c); [|discriminate]. injection Hk as <-. rewrite set_nth_length. auto.
    + apply nth_error_In in Hk. auto.
  - intros Ha Hb i j Hi Hj. rewrite nth_set_nth' by lia. destruct (Nat.eqb_spec i a) as [->|]; cbn; auto.
    rewrite nth_set_nth' by (rewrite Hn; auto). destruct (j =? b); auto.
Qed.

Lemma sym_table_intro n c :
  length c = n -> (forall row, In row c -> length row = n) ->
  (forall i j, i < n -> j < n -> nth j (nth i c []) 0 = nth i (nth j c []) 0) -> sym_table n c.
Proof.
  intros Hc Hr He. split; auto. split; auto.
  assert (forall i j, i < n -> ~ j < n -> nth j (nth i c []) 0 = 0) as Ho.
  { intros i j Hi Hj. rewrite nth_overflow; auto. rewrite (Hr (nth i c [])); [lia|]. apply nth_In. lia. }
  assert (forall i j, ~ i < n -> nth j (nth i c []) 0 = 0) as Ho'.
  { intros i j Hi. rewrite (nth_overflow c) by lia. destruct j; reflexivity. }
  intros i j. destruct (lt_dec i n) as [Hi|Hi], (lt_dec j n) as [Hj|Hj]; auto.
  - rewrite Ho by auto. rewrite Ho' by auto. reflexivity.
  - rewrite Ho' by auto. rewrite Ho by auto. reflexivity.
  - rewrite !Ho' by auto. reflexivity.
Qed.

Lemma set_pair n c i j v :
  sym_table n c -> set_entry c i j v = None \/
  exists a b c1 c2, py_index n i = Some a /\ py_index n j = Some b /\
    set_entry c i j v = Some c1 /\ set_entry c1 j i v = Some c2 /\ sym_table n c2 /\
    (forall x y, x < n -> y < n -> nth y (nth x c2 []) 0 =
       if ((x =? a) && (y =? b)) || ((x =? b) && (y =? a)) then v else nth y (nth x c []) 0).
Proof.
  intros [Hc [Hr Hs]]. unfold set_entry. rewrite Hc.
  destruct (py_index n i) as [a|] eqn:Ei; [|auto]. destruct (py_index n j) as [b|] eqn:Ej; [|auto]. right.
  pose proof (py_index_lt _ _ _ Ei) as Ha. pose proof (py_index_lt _ _ _ Ej) as Hb.
  destruct (set2_square n c a b v Hc Hr) as [L1 [R1 E1]]. set (c1 := set_nth a (set_nth b v (nth a c [])) c) in *.
  destruct (set2_square n c1 b a v L1 (R1 Ha)) as [L2 [R2 E2]]. set (c2 := set_nth b (set_nth a v (nth b c1 [])) c1) in *.
  exists a, b, c1, c2. rewrite L1, Ei, Ej. split; auto. split; auto. split; auto. split; auto.
  assert (forall x y, x < n -> y < n -> nth y (nth x c2 []) 0 =
       if ((x =? a) && (y =? b)) || ((x =? b) && (y =? a)) then v else nth y (nth x c []) 0) as E.
  { intros x y Hx Hy. rewrite E2 by auto. rewrite E1 by auto.
    destruct ((x =? a) && (y =? b)), ((x =? b) && (y =? a)); reflexivity. }
  split; auto. apply sym_table_intro; auto. intros x y Hx Hy. rewrite !E by auto.
  replace (((y =? a) && (x =? b)) || ((y =? b) && (x =? a)))
    with (((x =? a) && (y =? b)) || ((x =? b) && (y =? a))).
  - rewrite Hs. reflexivity.
  - rewrite (andb_comm (x =? a)), (andb_comm (x =? b)). apply orb_comm.
Qed.

Lemma set_entries_sym n pairs v : forall c, sym_table n c -> sym_table n (fst (set_entries c pairs v)).
Proof.
  induction pairs as [|[i j] pairs IH]; intros c Hc; cbn [set_entries]; auto.
  destruct (set_pair n c i j v Hc) as [->|[a [b [c1 [c2 [_ [_ [E1 [E2 [H _]]]]]]]]]]; auto.
  rewrite E1, E2. apply IH. exact H.
Qed.

Lemma set_entries_spec n pairs v : forall c, sym_table n c ->
  (snd (set_entries c pairs v) = true <->
     forall i j, In (i, j) pairs -> py_index n i <> None /\ py_index n j <> None) /\
  (snd (set_entries c pairs v) = true -> forall x y, x < n -> y < n ->
     let new := exists i j, In (i, j) pairs /\
        ((py_index n i = Some x /\ py_index n j = Some y) \/ (py_index n i = Some y /\ py_index n j = Some x)) in
     (new -> nth y (nth x (fst (set_entries c pairs v)) []) 0 = v) /\
     (~ new -> nth y (nth x (fst (set_entries c pairs v)) []) 0 = nth y (nth x c []) 0)).
Proof.
  induction pairs as [|[i j] pairs IH]; intros c Hc.
  - cbn. split; [split; [intros _ ? ? []|auto]|]. intros _ x y Hx Hy. split; [intros [i [j [[] _]]]|auto].
  - cbn [set_entries]. pose proof Hc as [Lc _].
    destruct (set_pair n c i j v Hc) as [E|[a [b [c1 [c2 [Ei [Ej [E1 [E2 [H Hn]]]]]]]]]].
    + rewrite E. cbn. split; [|discriminate]. split; [discriminate|]. intro Hall.
      destruct (Hall i j (or_introl eq_refl)) as [Hi Hj]. unfold set_entry in E. rewrite Lc in E.
      destruct (py_index n i); [|congruence]. destruct (py_index n j); [discriminate|congruence].
    + rewrite E1, E2. destruct (IH c2 H) as [IH1 IH2]. split.
      * rewrite IH1. split.
        -- intros Hall i' j' [E|Hin]; [injection E as <- <-; rewrite Ei, Ej; split; discriminate|auto].
        -- intros Hall i' j' Hin. apply Hall. right. auto.
      * intros Hok x y Hx Hy. destruct (IH2 Hok x y Hx Hy) as [G1 G2]. cbv zeta in *. split.
        -- intros [i' [j' [[E|Hin] Hcase]]].
           ++ injection E as <- <-.
              destruct (existsb (fun p => match py_index n (fst p), py_index n (snd p) with
                 | Some p1, Some p2 => ((p1 =? x) && (p2 =? y)) || ((p1 =? y) && (p2 =? x)) | _, _ => false end) pairs) eqn:Ex.
              ** apply G1. apply existsb_exists in Ex. destruct Ex as [[i' j'] [Hin Hx']]. exists i', j'. split; auto.
                 cbn [fst snd] in Hx'. destruct (py_index n i'), (py_index n j'); try discriminate.
                 apply orb_true_iff in Hx'. rewrite !andb_true_iff, !Nat.eqb_eq in Hx'. intuition congruence.
              ** rewrite G2.
                 --- rewrite Hn by auto. destruct (((x =? a) && (y =? b)) || ((x =? b) && (y =? a))) eqn:Eb; auto.
                     exfalso. apply orb_false_iff in Eb. rewrite !andb_false_iff, !Nat.eqb_neq in Eb.
                     rewrite Ei, Ej in Hcase. intuition congruence.
                 --- intros [i' [j' [Hin Hc']]]. apply not_true_iff_false in Ex. apply Ex. apply existsb_exists.
                     exists (i', j'). split; [auto|]. cbn [fst snd].
                     destruct Hc' as [[-> ->]|[-> ->]]; rewrite !Nat.eqb_refl; cbn; rewrite ?orb_true_r; auto.
           ++ apply G1. exists i', j'. auto.
        -- intro Hno. rewrite G2.
           ++ rewrite Hn by auto. destruct (((x =? a) && (y =? b)) || ((x =? b) && (y =? a))) eqn:Eb; auto.
              exfalso. apply Hno. exists i, j. split; [left; auto|]. apply orb_true_iff in Eb.
              rewrite !andb_true_iff, !Nat.eqb_eq in Eb. rewrite Ei, Ej. intuition congruence.
           ++ intros [i' [j' [Hin Hc']]]. apply Hno. exists i', j'. split; [right; auto|auto].
Qed.

Lemma in_step_add_connection query s a1 a2 num an : in_step s -> in_step (fst (add_connection query s a1 a2 num an)).
Proof.
  intro H. unfold add_connection. destruct (get_alpha s a1) as [l1|e]; [|exact H].
  destruct (get_alpha s a2) as [l2|e]; [|exact H].
  pose proof H as [H1 [H2 [H3 H4]]]. destruct (st_connections s) as [c|] eqn:Ec.
  - pose proof (set_entries_sym (length (st_atoms s)) (list_prod (alpha_list l1) (alpha_list l2)) num c H4) as Hs.
    destruct (set_entries c (list_prod (alpha_list l1) (alpha_list l2)) num) as [c' ok]. cbn [fst] in Hs.
    assert (in_step (mkStructure (st_basis s) (st_atoms s) (st_positions s) (st_frozen s) (Some c') (st_analysis s))) as Hi.
    { exact (conj H1 (conj H2 (conj H3 Hs))). }
    destruct (negb ok); [exact Hi|]. destruct an; [apply in_step_analyze|]; exact Hi.
  - destruct (list_prod (alpha_list l1) (alpha_list l2)); [|exact H]. destruct an; [apply in_step_analyze|]; exact H.
Qed.

Lemma keeps_basis query s c : st_basis (fst (run_call query s c)) = st_basis s.
Proof.
  assert (forall s, st_basis (fst (analyze query s)) = st_basis s) as Ha by (intro; apply analyze_keeps).
  assert (forall s num an, st_basis (fst (add_connections query s num an)) = st_basis s) as Hc.
  { intros s0 num an. unfold add_connections. destruct (st_connections s0); auto. destruct an; cbn; rewrite ?Ha; auto. }
  destruct c; cbn [run_call]; auto.
  - unfold add_atom. destruct (negb _); auto. destruct (existsb _ _); auto. destruct (st_frozen s); auto.
    destruct (neighbors =? 0); auto. rewrite Hc. reflexivity.
  - unfold add_connection. destruct (get_alpha s a1); auto. destruct (get_alpha s a2); auto.
    destruct (st_connections s) as [cc|].
    + destruct (set_entries _ _ _) as [c' ok]. destruct (negb ok); auto. destruct run_analyze; auto. rewrite Ha. reflexivity.
    + destruct (list_prod _ _); auto. destruct run_analyze; auto.
Qed.

Lemma reachable_in_step query b s : reachable query b s -> in_step s /\ st_basis s = b.
Proof.
  induction 1 as [|s c H [IH Eb] Hf].
  - split; auto. split; auto. cbn. split; [intros r []|]. split; auto. intros [|i] j r r' _ E; discriminate.
  - split; [|rewrite keeps_basis; exact Eb]. destruct c; cbn [run_call].
    + apply in_step_add_atom; auto.
    + apply in_step_add_connection; auto.
    + apply in_step_add_connections; auto.
    + apply in_step_analyze; auto.
Qed.

(** ** References *)

Lemma has_name_iff name a : has_name name a = true <-> atom_getattr a "name" = Some (VStr name).
Proof.
  unfold has_name. destruct (atom_getattr a "name") as [[ |t|q]|]; cbn; try (split; discriminate).
  rewrite String.eqb_eq. split; congruence.
Qed.

Lemma list_index_spec a : forall l i,
  match list_index i l a with
  | Some k => (i <= k)%Z /\ (exists x, nth_error l (Z.to_nat (k - i)) = Some x /\ atom_eq x a = true) /\
              (forall j x, j < Z.to_nat (k - i) -> nth_error l j = Some x -> atom_eq x a = false)
  | None => forall x, In x l -> atom_eq x a = false
  end.
Proof.
  induction l as [|x l IH]; intro i; cbn [list_index].
  - intros x [].
  - destruct (atom_eq x a) eqn:E.
    + rewrite Z.sub_diag. split; [lia|]. split; [exists x; auto|]. intros j y Hj. cbn in Hj. lia.
    + specialize (IH (i + 1)%Z). destruct (list_index (i + 1) l a) as [k|].
      * destruct IH as [Hle [[y [Hy Ey]] Hlt]]. replace (Z.to_nat (k - i)) with (S (Z.to_nat (k - (i + 1)))) by lia.
        split; [lia|]. split; [exists y; auto|]. intros [|j] z Hj Hz; cbn in Hz; [congruence|]. apply (Hlt j); auto. lia.
      * intros y [<-|Hy]; auto.
Qed.

Lemma SS_filter {A} (R : A -> A -> Prop) p l : StronglySorted R l -> StronglySorted R (filter p l).
Proof.
  induction 1 as [|x l H IH Hf]; cbn; [constructor|]. destruct (p x); auto. constructor; auto.
  rewrite Forall_forall in *. intros y Hy. apply filter_In in Hy. apply Hf. apply Hy.
Qed.

Lemma SS_map {A B} (R : A -> A -> Prop) (S : B -> B -> Prop) (f : A -> B) l :
  (forall x y, R x y -> S (f x) (f y)) -> StronglySorted R l -> StronglySorted S (map f l).
Proof.
  intro H. induction 1 as [|x l Hs IH Hf]; cbn; constructor; auto. rewrite Forall_forall in *.
  intros y Hy. apply in_map_iff in Hy. destruct Hy as [z [<- Hz]]. auto.
Qed.

Lemma enumerate_sorted {A} (l : list A) : StronglySorted (fun p q => fst p < fst q) (enumerate l).
Proof.
  unfold enumerate. generalize 0. induction l as [|x l IH]; intro k; cbn; constructor; auto.
  rewrite Forall_forall. intros [i y] Hin. apply in_combine_l, in_seq in Hin. cbn. lia.
Qed.

Lemma filter_enumerate {A} (p : A -> bool) (l : list A) :
  map snd (filter (fun e => p (snd e)) (enumerate l)) = filter p l.
Proof.
  unfold enumerate. generalize 0. induction l as [|x l IH]; intro k; cbn; auto.
  destruct (p x); cbn; rewrite IH; auto.
Qed.
