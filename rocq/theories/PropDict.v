(** * Properties of lattpy/structure.py: dictionaries (C37) *)
From Coq Require Import String List ZArith QArith Bool Arith Lia.
From Verif Require Import Np NpFacts LinAlg LinFacts SpecUtils SpecBasis AtomModel BasisModel BasisProofs PropBasis
  SpecSpatial SpecStructure StructureModel KDBrute StructureFacts StructureProofs PropStructure PropAnalyze.
Import ListNotations.
Open Scope nat_scope.
Open Scope list_scope.

Lemma transpose_twice d M : square d M -> transpose d (transpose d M) = M.
Proof.
  intros [H1 H2]. unfold transpose. apply (list_eq_nth _ _ []); [rewrite map_length, seq_length; auto|].
  rewrite map_length, seq_length. intros i Hi. rewrite (nth_map_in _ _ _ 0) by (rewrite seq_length; auto). rewrite seq_nth by auto. cbn [Nat.add].
  assert (length (nth i M []) = d) as Hl by (apply H2, nth_In; lia).
  apply (list_eq_nth _ _ 0%Q); [rewrite !map_length, seq_length; auto|]. rewrite !map_length, seq_length. intros j Hj.
  rewrite map_map. rewrite (nth_map_in _ _ _ 0) by (rewrite seq_length; auto). rewrite seq_nth by auto. cbn [Nat.add].
  rewrite (nth_map_in _ _ _ []) by lia. reflexivity.
Qed.

Lemma make_basis_vectors inv b : square (b_dim b) (b_mat b) -> inv (b_mat b) = b_inv b -> make_basis inv (b_vectors b) = b.
Proof.
  intros Hsq Hinv. unfold make_basis, b_vectors. set (d := b_dim b) in *.
  assert (length (transpose d (b_mat b)) = d) as -> by (unfold transpose; rewrite map_length, seq_length; auto).
  rewrite transpose_twice by auto. rewrite Hinv. destruct b; reflexivity.
Qed.

(** Adding all atoms again. *)
Lemma add_atoms_all query b : forall l done,
  (forall p, In p l -> length (fst p) = b_dim b) ->
  (forall i j r r', i < j -> nth_error (map fst (done ++ l)) i = Some r -> nth_error (map fst (done ++ l)) j = Some r' -> ~ same r r') ->
  exists c, add_atoms query (mkStructure b (map snd done) (map fst done) false (match done with [] => None | _ => Some (repeat (repeat 0 (length done)) (length done)) end) None) l =
    (mkStructure b (map snd (done ++ l)) (map fst (done ++ l)) false c None, Ok tt).
Proof.
  induction l as [|[pos at_] l IH]; intros done Hl Hd; cbn [add_atoms].
  - rewrite app_nil_r. eexists. reflexivity.
  - unfold add_atom. cbn [st_basis st_positions st_atoms st_frozen st_analysis].
    assert (length pos = b_dim b) as E by (apply (Hl (pos, at_)); left; reflexivity). rewrite E, Nat.eqb_refl. cbn [negb].
    assert (existsb (veqb pos) (map fst done) = false) as ->.
    { apply not_true_iff_false. intro H. apply existsb_exists in H. destruct H as [r [Hr Hv]]. apply In_nth_error in Hr. destruct Hr as [i Hi].
      pose proof (nth_error_length_lt _ _ _ Hi) as Hil. rewrite map_length in Hil.
      apply (Hd i (length done) r pos Hil).
      - rewrite map_app, nth_error_app1 by (rewrite map_length; auto). auto.
      - rewrite map_app, nth_error_app2 by (rewrite map_length; auto). rewrite map_length, Nat.sub_diag. reflexivity.
      - apply same_veq, veq_sym, veqb_veq. auto. }
    cbn [Nat.eqb].
    specialize (IH (done ++ [(pos, at_)])). rewrite <- app_assoc in IH. cbn [app] in IH.
    destruct IH as [c IH]; auto; [intros p Hp; apply Hl; right; auto|]. exists c. rewrite <- IH.
    rewrite !map_app. cbn [map fst snd]. rewrite !app_length, map_length. cbn [length].
    destruct (done ++ [(pos, at_)]) as [|x l0] eqn:Ed; [destruct done; discriminate|]. reflexivity.
Qed.

Lemma analyze_same query b atoms pos conns f f' a a' :
  match analyze query (mkStructure b atoms pos f conns a), analyze query (mkStructure b atoms pos f' conns a') with
  | (s, Ok tt), (s', Ok tt) => s = s'
  | (_, Raise e), (_, Raise e') => e = e'
  | _, _ => False
  end.
Proof.
  unfold analyze. cbn [st_basis st_atoms st_positions st_frozen st_connections st_analysis].
  destruct atoms; auto. destruct conns; auto. destruct (forallb _ _); auto. destruct (compute_base_neighbors _ _ _ _); auto.
Qed.

Lemma fromdict_eq query inv s : in_step s -> square (b_dim (st_basis s)) (b_mat (st_basis s)) -> inv (b_mat (st_basis s)) = b_inv (st_basis s) ->
  fromdict query inv (todict s) = match analyze query s with (s', Ok tt) => Ok s' | (_, Raise e) => Raise e end.
Proof.
  intros [H1 [H2 [H3 _]]] Hsq Hinv. unfold fromdict, todict. cbn [sd_vectors sd_atoms sd_positions sd_connections].
  rewrite make_basis_vectors by auto.
  assert (map fst (combine (st_positions s) (st_atoms s)) = st_positions s /\ map snd (combine (st_positions s) (st_atoms s)) = st_atoms s) as [E1 E2].
  { revert H1. generalize (st_atoms s). generalize (st_positions s). clear. intro l. induction l as [|x l IH]; intros [|y m] H; cbn in *; try discriminate; auto.
    destruct (IH m) as [A B]; [lia|]. split; f_equal; auto. }
  destruct (add_atoms_all query (st_basis s) (combine (st_positions s) (st_atoms s)) []) as [c Ec].
  { intros [p at_] Hp. apply in_combine_l in Hp. apply H2. auto. }
  { cbn [app]. unfold vec in *. rewrite E1. exact H3. }
  cbn [app map] in Ec. unfold new_structure. unfold vec in *. rewrite Ec. cbn [st_basis st_atoms st_positions st_frozen st_analysis]. rewrite E1, E2.
  pose proof (analyze_same query (st_basis s) (st_atoms s) (st_positions s) (st_connections s) false (st_frozen s) None (st_analysis s)) as H.
  replace (mkStructure (st_basis s) (st_atoms s) (st_positions s) (st_frozen s) (st_connections s) (st_analysis s)) with s in H by (destruct s; reflexivity).
  destruct (analyze query (mkStructure _ _ _ false _ _)) as [s1 [[]|e1]], (analyze query s) as [s2 [[]|e2]]; try tauto; congruence.
Qed.

(** The round trip gives back the analysed lattice: the same basis, atoms, positions, connections and analysis. *)
Theorem C37_round_trip :
  forall query inv s0 s,
    valid_basis (st_basis s0) -> in_step s0 -> inv (b_mat (st_basis s0)) = b_inv (st_basis s0) ->
    analyze query s0 = (s, Ok tt) ->
    exists s', fromdict query inv (todict s) = Ok s' /\
      st_basis s' = st_basis s0 /\ b_vectors (st_basis s') = b_vectors (st_basis s) /\
      st_atoms s' = st_atoms s0 /\ st_positions s' = st_positions s0 /\ st_connections s' = st_connections s0 /\
      st_analysis s' = st_analysis s /\ st_analysis s' <> None.
Proof.
  intros query inv s0 s Hb Hs Hinv Ha.
  assert (s = fst (analyze query s0)) as E by (rewrite Ha; reflexivity).
  pose proof (in_step_analyze query s0 Hs) as Hs'. rewrite <- E in Hs'.
  destruct (analyze_keeps query s0) as [K1 [K2 [K3 K4]]]. rewrite <- E in K1, K2, K3, K4.
  rewrite fromdict_eq; auto; [|rewrite K1; apply Hb|rewrite K1; auto].
  pose proof (analyze_same query (st_basis s0) (st_atoms s0) (st_positions s0) (st_connections s0) (st_frozen s) (st_frozen s0) (st_analysis s) (st_analysis s0)) as H.
  replace (mkStructure (st_basis s0) (st_atoms s0) (st_positions s0) (st_frozen s0) (st_connections s0) (st_analysis s0)) with s0 in H by (destruct s0; reflexivity).
  replace (mkStructure (st_basis s0) (st_atoms s0) (st_positions s0) (st_frozen s) (st_connections s0) (st_analysis s)) with s in H
    by (rewrite <- K1, <- K2, <- K3, <- K4; destruct s; reflexivity).
  rewrite Ha in H. destruct (analyze query s) as [s1 [[]|e1]]; [|tauto]. subst s1.
  exists s. split; auto. rewrite K1. split; auto. split; auto. rewrite K2, K3, K4. repeat (split; auto).
  clear -Ha. unfold analyze in Ha. destruct (st_atoms s0); [discriminate|]. destruct (st_connections s0); [|discriminate].
  destruct (forallb _ _); [discriminate|]. cbv zeta in Ha. destruct (compute_base_neighbors _ _ _ _); [|discriminate]. injection Ha as <-. discriminate.
Qed.

(** A lattice that was never analysed comes back analysed; fromdict raises exactly what analyze raises. *)
Theorem C37_any_lattice :
  forall query inv s,
    valid_basis (st_basis s) -> in_step s -> inv (b_mat (st_basis s)) = b_inv (st_basis s) ->
    match fromdict query inv (todict s), analyze query s with
    | Ok s', (s'', r) => r = Ok tt /\ s' = s''
    | Raise e, (_, r) => r = Raise e
    end.
Proof.
  intros query inv s Hb Hs Hinv. rewrite fromdict_eq; auto; [|apply Hb]. destruct (analyze query s) as [s' [[]|e]]; auto.
Qed.

(** One atom without connections: analyze and fromdict raise the same exception. *)
Example C37_any_lattice_example :
  let s := run_calls brute ex_chain [CAddAtom (Some [0]%Q) (ex_atom "A") false 0] in
  let inv := fun _ => [[1%Q]] in
  valid_basis (st_basis s) /\ in_step s /\ inv (b_mat (st_basis s)) = b_inv (st_basis s) /\
  snd (analyze brute s) = Raise NoConnectionsError /\ fromdict brute inv (todict s) = Raise NoConnectionsError.
Proof.
  cbv zeta. split; [apply inverse1_check; reflexivity|]. split.
  { apply (reachable_in_step brute ex_chain). unfold run_calls. cbn [fold_left]. repeat (apply r_call; [|intro; reflexivity || discriminate]). apply r_new. }
  split; [reflexivity|]. split; vm_compute; reflexivity.
Qed.

Example C37_example :
  let inv := fun _ => [[1#2; 0]; [0; 1]]%Q in
  let s0 := run_calls brute ex_rect [CAddAtom (Some [0; 0]%Q) (ex_atom "A") false 0; CAddAtom (Some [1; 0]%Q) (ex_atom "B") false 0;
              CAddConnection (RName "A") (RName "B") 1 false] in
  valid_basis (st_basis s0) /\ in_step s0 /\ inv (b_mat (st_basis s0)) = b_inv (st_basis s0) /\
  exists s s', analyze brute s0 = (s, Ok tt) /\ fromdict brute inv (todict s) = Ok s' /\ st_analysis s' = st_analysis s /\
    map a_name (st_atoms s') = ["A"; "B"]%string /\ b_vectors (st_basis s') = [[2; 0]; [0; 1]]%Q.
Proof.
  cbv zeta. split; [apply inverse2_check; reflexivity|]. split.
  { apply (reachable_in_step brute ex_rect). unfold run_calls. cbn [fold_left].
    repeat (apply r_call; [|intro; reflexivity || discriminate]). apply r_new. }
  split; [reflexivity|]. eexists _, _. split; [vm_compute; reflexivity|]. split; [vm_compute; reflexivity|]. auto.
Qed.

Lemma add_atoms_app query l1 l2 : forall s, add_atoms query s (l1 ++ l2) =
  match add_atoms query s l1 with (s', Ok tt) => add_atoms query s' l2 | (s', Raise e) => (s', Raise e) end.
Proof.
  induction l1 as [|[pos a] l1 IH]; intro s; [reflexivity|]. cbn [app add_atoms]. destruct (add_atom query s (Some pos) a false 0) as [s' [[]|e]]; auto.
Qed.

(** Dictionaries of other origin: the first position that has a wrong number of components or is occupied already decides
    the error. *)
Theorem C37_bad_dictionaries :
  forall query inv dict good pos a rest,
    combine (sd_positions dict) (sd_atoms dict) = good ++ (pos, a) :: rest ->
    (forall p, In p good -> length (fst p) = length (sd_vectors dict)) ->
    (forall i j r r', i < j -> nth_error (map fst good) i = Some r -> nth_error (map fst good) j = Some r' -> ~ same r r') ->
    (length pos <> length (sd_vectors dict) -> fromdict query inv dict = Raise ValueError) /\
    (length pos = length (sd_vectors dict) -> (exists p, In p good /\ same (fst p) pos) -> fromdict query inv dict = Raise SiteOccupiedError).
Proof.
  intros query inv dict good pos a rest E Hl Hd. unfold fromdict. rewrite E, add_atoms_app.
  set (b := make_basis inv (sd_vectors dict)).
  assert (b_dim b = length (sd_vectors dict)) as Eb by (unfold b, make_basis, b_dim; cbn [b_mat]; unfold transpose; rewrite map_length, seq_length; auto).
  destruct (add_atoms_all query b good []) as [c Ec]; [intros p Hp; rewrite Eb; auto|exact Hd|].
  cbn [app map] in Ec. unfold new_structure. unfold vec in *. rewrite Ec. cbn [add_atoms]. unfold add_atom. cbn [st_basis st_positions st_atoms st_frozen st_analysis].
  split.
  - intro H. destruct (Nat.eqb_spec (length pos) (b_dim b)) as [F|F]; [congruence|]. reflexivity.
  - intros H [p [Hp Hs]]. rewrite Eb, H, Nat.eqb_refl. cbn [negb].
    assert (existsb (veqb pos) (map fst good) = true) as ->; [|reflexivity].
    apply existsb_exists. exists (fst p). split; [apply in_map; auto|]. apply veqb_veq. apply same_veq. destruct Hs as [S1 S2]. split; [auto|]. intro i. symmetry. apply S2.
Qed.

Example C37_bad_example :
  let dict x := mkDict [[2; 0]; [0; 1]]%Q [ex_atom "A"; ex_atom "B"] [[0; 0]; x]%Q (Some [[0; 1]; [1; 0]]) in
  let inv := fun _ => [[1#2; 0]; [0; 1]]%Q in
  combine (sd_positions (dict [1]%Q)) (sd_atoms (dict [1]%Q)) = [([0; 0], ex_atom "A")]%Q ++ [([1]%Q, ex_atom "B")] /\
  fromdict brute inv (dict [1]%Q) = Raise ValueError /\ fromdict brute inv (dict [0; 0]%Q) = Raise SiteOccupiedError /\
  exists s, fromdict brute inv (dict [1; 0]%Q) = Ok s.
Proof. cbv zeta. split; [reflexivity|]. split; [reflexivity|]. split; [reflexivity|]. eexists. vm_compute. reflexivity. Qed.

Print Assumptions C37_round_trip.
Print Assumptions C37_any_lattice.
Print Assumptions C37_bad_dictionaries.
