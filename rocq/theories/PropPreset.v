(** * Properties C73, C74 (lattpy/__init__.py, basis.py: the ready-made lattices) *)
From Coq Require Import String List ZArith QArith Qabs Qround Bool Arith Lia Lqa.
From Verif Require Import Np NpFacts LinAlg LinFacts SpecUtils UtilsModel UtilsProofs PropUtils SpecBasis AtomModel BasisModel BasisProofs
  NeighborCellProofs PropBasis SpatialModel SpecSpatial SpatialProofs KDProofs SpecStructure StructureModel KDBrute RoundFacts StructureFacts
  AnalyzeProofs StructureProofs PropStructure PropAnalyze ShapeModel DataModel PropData LatticeModel PresetModel PropPrimitive PropReciprocal.
Import ListNotations.
Open Scope nat_scope.
Open Scope list_scope.

(** ** C73 *)

(** The vectors are pairwise different. *)
Definition all_different (l : list (list Q)) : Prop :=
  forall i j r r', i < j -> nth_error l i = Some r -> nth_error l j = Some r' -> ~ same r r'.

(** The position meant by an optional argument: the origin if there is none. *)
Definition meant_position (d : nat) (p : option (list Q)) : list Q :=
  match p with None => repeat 0%Q d | Some x => x end.

Lemma all_different_snoc l x : all_different l -> existsb (veqb x) l = false -> all_different (l ++ [x]).
Proof.
  intros H E i j r r' Hij Hi Hj. destruct (lt_dec j (length l)) as [L|L].
  - rewrite nth_error_app1 in Hi, Hj by lia. apply (H i j r r'); auto.
  - assert (j = length l) as -> by (assert (nth_error (l ++ [x]) j <> None) as G by congruence; apply nth_error_Some in G; rewrite app_length in G; cbn in G; lia).
    rewrite nth_error_app2, Nat.sub_diag in Hj by lia. injection Hj as <-. rewrite nth_error_app1 in Hi by lia.
    intro Hs. apply not_true_iff_false in E. apply E. apply existsb_exists. exists r. split; [eapply nth_error_In; eauto|].
    apply veqb_veq, veq_sym, same_veq. auto.
Qed.

Lemma add_atom_step query s p at_ : st_frozen s = false ->
  let x := meant_position (b_dim (st_basis s)) p in length x = b_dim (st_basis s) ->
  add_atom query s p at_ false 0 =
    if existsb (veqb x) (st_positions s) then (s, Raise SiteOccupiedError)
    else let n := length (st_atoms s ++ [at_]) in
      (mkStructure (st_basis s) (st_atoms s ++ [at_]) (st_positions s ++ [x]) false (Some (repeat (repeat 0 n) n)) (st_analysis s), Ok tt).
Proof.
  intros Hf x Hx. unfold add_atom. cbv zeta. rewrite Hf. unfold vec in *.
  destruct p as [p|]; cbn [meant_position] in x; fold x; [|change (vzero (b_dim (st_basis s))) with x]; rewrite Hx, Nat.eqb_refl; reflexivity.
Qed.

Lemma add_atoms_run query atoms : forall s,
  st_frozen s = false -> all_different (st_positions s) ->
  let R := map (fun p => meant_position (b_dim (st_basis s)) (fst p)) atoms in
  (forall r, In r R -> length r = b_dim (st_basis s)) ->
  (all_different (st_positions s ++ R) -> exists c,
     add_atoms query s atoms =
       (mkStructure (st_basis s) (st_atoms s ++ map snd atoms) (st_positions s ++ R) false c (st_analysis s), Ok tt) /\
     let n := length (st_atoms s ++ map snd atoms) in (atoms <> [] -> c = Some (repeat (repeat 0 n) n))) /\
  (~ all_different (st_positions s ++ R) -> snd (add_atoms query s atoms) = Raise SiteOccupiedError).
Proof.
  induction atoms as [|[p at_] rest IH]; intros s Hf HD R HR.
  - cbn in R. unfold R. rewrite app_nil_r. split; [|tauto]. intros _. exists (st_connections s). cbn [add_atoms map]. rewrite app_nil_r.
    split; [|congruence]. destruct s; cbn in *. rewrite Hf. reflexivity.
  - cbn [add_atoms]. set (x := meant_position (b_dim (st_basis s)) p). assert (length x = b_dim (st_basis s)) as Hx by (apply HR; left; reflexivity).
    rewrite (add_atom_step query s p at_ Hf Hx). fold x.
    assert (forall l', st_positions s ++ x :: l' = (st_positions s ++ [x]) ++ l') as Happ by (intro; rewrite <- app_assoc; reflexivity).
    destruct (existsb (veqb x) (st_positions s)) eqn:E.
    + split; [|intros _; reflexivity]. intro H. exfalso. apply existsb_exists in E. destruct E as [r [Hr E]].
      apply In_nth_error in Hr. destruct Hr as [i Hi]. assert (i < length (st_positions s)) as Li by (apply nth_error_Some; congruence).
      apply (H i (length (st_positions s)) r x); auto.
      * rewrite nth_error_app1; auto.
      * rewrite nth_error_app2, Nat.sub_diag; auto.
      * apply same_veq, veq_sym, veqb_veq. auto.
    + cbv beta iota zeta. match goal with |- context [add_atoms query ?u rest] => set (s1 := u) in * end.
      specialize (IH s1 eq_refl (all_different_snoc _ _ HD E)). cbn [s1 st_basis st_positions st_atoms st_analysis] in IH. cbv zeta in IH.
      destruct IH as [IH1 IH2]; [intros r Hr; apply HR; right; exact Hr|].
      unfold R. cbn [map fst]. fold x. rewrite Happ. split; auto.
      intro H. destruct (IH1 H) as [c [Ec Hc]]. exists c. rewrite Ec. cbn [map snd]. rewrite <- app_assoc. cbn [app]. split; auto. intros _.
      destruct rest as [|q rest].
      * cbn [add_atoms] in Ec. unfold s1 in Ec. injection Ec as _ _ Ec. rewrite <- Ec. reflexivity.
      * rewrite Hc by discriminate. rewrite <- app_assoc. reflexivity.
Qed.

Lemma map_map_const {A B} (v : B) n : forall m (x : A), map (map (fun _ => v)) (repeat (repeat x n) m) = repeat (repeat v n) m.
Proof.
  assert (forall x : A, map (fun _ => v) (repeat x n) = repeat v n) as H by (intro x; induction n; cbn; congruence).
  induction m; intro x; cbn; [reflexivity|]. rewrite H, IHm. reflexivity.
Qed.

Lemma nth_repeat_row (v n i j : nat) : nth j (nth i (repeat (repeat v n) n) []) 0 = if (i <? n) && (j <? n) then v else 0.
Proof.
  destruct (Nat.ltb_spec i n); cbn [andb].
  - rewrite (nth_error_nth (repeat (repeat v n) n) i [] (x := repeat v n)) by (apply nth_error_repeat; auto).
    destruct (Nat.ltb_spec j n); [apply nth_error_nth; apply nth_error_repeat; auto|apply nth_overflow; rewrite repeat_length; lia].
  - rewrite (nth_overflow (repeat _ _)) by (rewrite repeat_length; lia). destruct j; reflexivity.
Qed.

(** A lattice from a list of atoms: it is ready (analysed) exactly if the positions differ and there are neighbours;
    then it has these atoms at these positions and the same number of neighbour distances between all of them. *)
Theorem C73_preset :
  forall query b atoms neighbors,
    valid_basis b -> 1 <= b_dim b -> atoms <> [] ->
    let R := map (fun p => meant_position (b_dim b) (fst p)) atoms in
    let n := length atoms in
    (forall r, In r R -> length r = b_dim b) ->
    (all_different R -> neighbors <> 0 ->
     exists s s', preset query b atoms neighbors = Ok s' /\ analyze query s = (s', Ok tt) /\ in_step s /\ st_basis s = b /\
       st_basis s' = b /\ st_atoms s' = map snd atoms /\ st_positions s' = R /\
       st_connections s' = Some (repeat (repeat neighbors n) n) /\ st_frozen s' = true /\ st_analysis s' <> None) /\
    (all_different R -> neighbors = 0 -> preset query b atoms neighbors = Raise NoConnectionsError) /\
    (~ all_different R -> preset query b atoms neighbors = Raise SiteOccupiedError).
Proof.
  intros query b atoms neighbors Hb Hd Hne R n HR.
  assert (all_different []) as H0 by (intros [|i] j r r' _ H; discriminate).
  destruct (add_atoms_run query atoms (new_structure b) eq_refl H0 HR) as [Hok Hbad].
  cbn [new_structure st_basis st_atoms st_positions st_analysis app] in Hok, Hbad. fold R in Hok, Hbad.
  assert (all_different R -> exists s, in_step s /\ st_basis s = b /\ st_atoms s = map snd atoms /\ st_positions s = R /\
            st_connections s = Some (repeat (repeat neighbors n) n) /\
            preset query b atoms neighbors = match analyze query s with (_, Raise e) => Raise e | (s', Ok _) => Ok s' end) as Hpre.
  { intro HD. destruct (Hok HD) as [c [Ec Hc]]. cbv zeta in Hc. specialize (Hc Hne). rewrite map_length in Hc. fold n in Hc. subst c.
    exists (mkStructure b (map snd atoms) R false (Some (repeat (repeat neighbors n) n)) None).
    cbn [st_basis st_atoms st_positions st_connections]. split.
    - split; [cbn; unfold R; rewrite !map_length; reflexivity|]. split; [exact HR|]. split; [exact HD|].
      cbn [st_connections st_atoms]. rewrite map_length. fold n. split; [apply repeat_length|]. split.
      + intros row Hrow. apply repeat_spec in Hrow. subst. apply repeat_length.
      + intros i j. rewrite !nth_repeat_row, andb_comm. reflexivity.
    - split; auto. split; auto. split; auto. split; auto. unfold preset. rewrite Ec. unfold add_connections.
      cbn [st_connections st_basis st_atoms st_positions st_frozen st_analysis]. rewrite map_map_const. reflexivity. }
  assert (1 <= n) as Hn by (unfold n; destruct atoms; [congruence|cbn; lia]).
  split; [|split].
  - intros HD Hnb. destruct (Hpre HD) as [s [Hs [Esb [Esa [Esp [Esc E]]]]]].
    destruct (C28_analyze_outcome query s ltac:(rewrite Esb; exact Hb) ltac:(rewrite Esb; exact Hd) Hs) as [_ [_ H]]. cbv zeta in H.
    destruct (analyze query s) as [s' r] eqn:Ea. cbn [snd] in H.
    assert (r = Ok tt) as ->.
    { apply H. split; [rewrite Esa; destruct atoms; [congruence|discriminate]|]. intro Z. specialize (Z _ 0 0 Esc). rewrite nth_repeat_row in Z.
      destruct (Nat.ltb_spec 0 n); [|lia]. cbn in Z. congruence. }
    exists s, s'. split; auto. split; auto. split; auto. split; auto.
    unfold analyze in Ea. destruct (st_atoms s) as [|a0 l0] eqn:Eat; [injection Ea as _ Ea; discriminate|]. rewrite Esc in Ea.
    destruct (forallb _ _); [discriminate|]. destruct (compute_base_neighbors _ _ _ _); [|discriminate]. injection Ea as <-.
    cbn [st_basis st_atoms st_positions st_connections st_frozen st_analysis]. repeat split; auto. discriminate.
  - intros HD Hnb. destruct (Hpre HD) as [s [Hs [Esb [Esa [Esp [Esc E]]]]]].
    destruct (C28_analyze_outcome query s ltac:(rewrite Esb; exact Hb) ltac:(rewrite Esb; exact Hd) Hs) as [_ [H _]]. cbv zeta in H.
    destruct (analyze query s) as [s' r] eqn:Ea. cbn [snd] in H. rewrite E.
    assert (r = Raise NoConnectionsError) as ->; [|reflexivity].
    apply H. split; [rewrite Esa; destruct atoms; [congruence|discriminate]|]. intros c i j Ec. rewrite Esc in Ec. injection Ec as <-.
    rewrite nth_repeat_row, Hnb. destruct (_ && _); reflexivity.
  - intro HD. unfold preset. specialize (Hbad HD). destruct (add_atoms query (new_structure b) atoms) as [s r]. cbn in Hbad. subst r. reflexivity.
Qed.

(** A ready lattice with the given lattice vectors (rows), volume of the unit cell, atoms and positions. *)
Definition ready (r : result structure) (vectors : list (list Q)) (volume : Q) (atoms : list atom) (positions : list (list Q))
  (neighbors : nat) : Prop :=
  exists s v, r = Ok s /\ valid_basis (st_basis s) /\ Forall2 same (b_vectors (st_basis s)) vectors /\
    cell_volume (b_vectors (st_basis s)) = Some v /\ v == volume /\
    st_atoms s = atoms /\ Forall2 same (st_positions s) positions /\
    (let n := length atoms in st_connections s = Some (repeat (repeat neighbors n) n)) /\ st_analysis s <> None.

Lemma preset_ready query b atoms neighbors vectors volume positions v :
  valid_basis b -> 1 <= b_dim b -> atoms <> [] -> neighbors <> 0 ->
  (forall r, In r (map (fun p => meant_position (b_dim b) (fst p)) atoms) -> length r = b_dim b) ->
  all_different (map (fun p => meant_position (b_dim b) (fst p)) atoms) ->
  Forall2 same (b_vectors b) vectors -> cell_volume (b_vectors b) = Some v -> v == volume ->
  Forall2 same (map (fun p => meant_position (b_dim b) (fst p)) atoms) positions ->
  ready (preset query b atoms neighbors) vectors volume (map snd atoms) positions neighbors.
Proof.
  intros Hb Hd Hne Hnb HR HD Hv Ev Evv Hp.
  destruct (C73_preset query b atoms neighbors Hb Hd Hne HR) as [H _]. destruct (H HD Hnb) as [s [s' [E [_ [_ [_ [Eb [Ea [Ep [Ec [_ Han]]]]]]]]]]].
  exists s', v. rewrite Eb, Ea, Ep, Ec, map_length. auto 12.
Qed.

Lemma all_different_one x : all_different [x].
Proof. intros [|i] [|j] r r' H H1 H2; try lia; cbn in *; try destruct j; try destruct i; discriminate. Qed.

Lemma all_different_two x y : ~ same x y -> all_different [x; y].
Proof.
  intros N [|[|i]] [|[|j]] r r' H H1 H2; try lia; cbn in *; try (destruct j; discriminate); try (destruct i; discriminate).
  injection H1 as <-. injection H2 as <-. auto.
Qed.

Ltac matrix_check := 
  split; [split; [reflexivity|intros row Hrow; cbn in Hrow; intuition (subst; reflexivity)]|];
  split; [split; [reflexivity|intros row Hrow; cbn in Hrow; intuition (subst; reflexivity)]|];
  let i := fresh in let j := fresh in split; intros [|[|[|i]]] [|[|[|j]]] Hi Hj; try (exfalso; lia); unfold entry, delta; cbn.

Lemma same1 (a b : Q) : same [a] [b] <-> a == b.
Proof. rewrite same_veq. split; [intro H; inversion H; auto|intro; repeat constructor; auto]. Qed.
Lemma same_cons (a b : Q) u v : same (a :: u) (b :: v) <-> a == b /\ same u v.
Proof. rewrite !same_veq. split; [intro H; inversion H; auto|intros [? ?]; constructor; auto]. Qed.
Lemma same_nil : same [] [].
Proof. split; reflexivity. Qed.
Ltac rows_same := match goal with |- Forall2 same ?l _ => let l' := eval cbv -[Qplus Qmult Qdiv Qinv Qopp Qminus] in l in change l with l' end;
  repeat (apply Forall2_cons; [rewrite ?same_cons; repeat split; try apply same_nil|]); try apply Forall2_nil.

(** [finite_hypercubic] without neighbours fails as the creation of the lattice does; errors of [build] are passed on. *)
Theorem C73_finite_hypercubic_errors :
  forall query argsort inv sh a at_ primitive periodic,
    let d := match sh with
             | ASize s => length s
             | AShape (SBox size _) | AShape (SBoxBasis size _ _ _) => length size
             | AShape (SCircle pos _) | AShape (SDonut pos _ _) => length pos
             | AShape (SHull points _) => length (nth 0 points [])
             end in
    1 <= d -> valid_basis (hypercubic inv d a) ->
    finite_hypercubic query argsort inv sh a at_ 0 primitive periodic = Raise NoConnectionsError /\
    forall neighbors, neighbors <> 0 ->
      exists st, st_basis st = hypercubic inv d a /\ st_atoms st = [at_] /\ st_positions st = [repeat 0%Q d] /\
        st_connections st = Some [[neighbors]] /\
        let (l, r) := build query argsort (repeat (Qabs.Qabs a) d) (new_lattice st) sh primitive None true None periodic None in
        finite_hypercubic query argsort inv sh a at_ neighbors primitive periodic = match r with Raise e => Raise e | Ok _ => Ok l end.
Proof.
  intros query argsort inv sh a at_ primitive periodic d Hd Hb.
  assert (match sh with ASize s => length s | AShape s => shape_dim s end = d) as Ed by (destruct sh as [|[]]; reflexivity).
  assert (b_dim (hypercubic inv d a) = d) as Hbd by apply hypercubic_dim.
  assert (forall r, In r (map (fun p => meant_position (b_dim (hypercubic inv d a)) (fst p)) [(@None (list Q), at_)]) -> length r = b_dim (hypercubic inv d a)) as HR
    by (intros r [<-|[]]; apply repeat_length).
  assert (all_different (map (fun p => meant_position (b_dim (hypercubic inv d a)) (fst p)) [(@None (list Q), at_)])) as HD.
  { intros i j r r' Hij Hr Hr'. destruct i as [|[|i]], j as [|[|j]]; try discriminate; lia. }
  split.
  - unfold finite_hypercubic. cbv zeta. rewrite Ed. unfold vec in *. destruct (C73_preset query (hypercubic inv d a) [(None, at_)] 0 Hb ltac:(rewrite Hbd; exact Hd) ltac:(discriminate) HR) as [_ [H _]].
    rewrite (H HD eq_refl). reflexivity.
  - intros nb Hnb. destruct (C73_preset query (hypercubic inv d a) [(None, at_)] nb Hb ltac:(rewrite Hbd; exact Hd) ltac:(discriminate) HR) as [H _].
    destruct (H HD Hnb) as [s [st [E [_ [_ [_ [E1 [E2 [E3 [E4 _]]]]]]]]]]. exists st. split; [exact E1|]. split; [exact E2|]. split; [rewrite E3; cbn [map meant_position fst]; rewrite Hbd; reflexivity|].
    split; [exact E4|]. unfold finite_hypercubic. cbv zeta. rewrite Ed. unfold vec in *. rewrite E.
    match goal with |- context [build ?x1 ?x2 ?x3 ?x4 ?x5 ?x6 ?x7 ?x8 ?x9 ?y1 ?y2] => destruct (build x1 x2 x3 x4 x5 x6 x7 x8 x9 y1 y2) as [l [u|e]] end; reflexivity.
Qed.

(** A lattice of the size zero. *)
Example C73_finite_hypercubic_errors_example :
  valid_basis (hypercubic diagonal_inverse 1 1) /\
  finite_hypercubic brute PropData.dist_argsort diagonal_inverse (ASize [0]%Q) 1 (ex_atom "A") 1 true None = Raise ValueError.
Proof.
  split; [|vm_compute; reflexivity].
  split; [split; [reflexivity|intros r [<-|[]]; reflexivity]|]. split; [split; [reflexivity|intros r [<-|[]]; reflexivity]|].
  split; intros [|i] [|j] Hi Hj; cbn in Hi, Hj; try lia; reflexivity.
Qed.

(** A circle around a point in one dimension is an interval: the sites -1, 0 and 1. *)
Example C73_finite_hypercubic_shape_example :
  match finite_hypercubic brute PropData.dist_argsort diagonal_inverse (AShape (SCircle [0]%Q 1)) 1 (ex_atom "A") 1 false None with
  | Ok l => b_dim (st_basis (lt_structure l)) = 1 /\ option_map d_indices (lt_data l) = Some [[-1; 0]; [0; 0]; [1; 0]]%Z
  | Raise _ => False
  end.
Proof. vm_compute. split; reflexivity. Qed.

(** The ready-made lattices for non-zero lattice constants: lattice vectors, volume of the unit cell, atoms. *)
Theorem C73_ready_made :
  forall query inv neighbors at1 at2, neighbors <> 0 -> inverts inv 1 -> inverts inv 2 -> inverts inv 3 ->
    (forall a, ~ (a == 0)%Q -> ready (simple_chain query inv a at1 neighbors) [[a]] (Qabs a) [at1] [[0%Q]] neighbors) /\
    (forall a x, ~ (a == 0)%Q ->
       ready (alternating_chain query inv a at1 at2 x neighbors) [[a]] (Qabs a) [at1; at2] [[x * a]; [(x + (1#2)) * a]]%Q neighbors) /\
    (forall a, ~ (a == 0)%Q ->
       ready (simple_square query inv a at1 neighbors) [[a; 0]; [0; a]]%Q (a * a)%Q [at1] [[0; 0]]%Q neighbors) /\
    (forall a1 a2, ~ (a1 == 0)%Q -> ~ (a2 == 0)%Q ->
       ready (simple_rectangular query inv a1 a2 at1 neighbors) [[a1; 0]; [0; a2]]%Q (Qabs a1 * Qabs a2)%Q [at1] [[0; 0]]%Q neighbors) /\
    (forall a, ~ (a == 0)%Q ->
       ready (simple_cubic query inv a at1 neighbors) [[a; 0; 0]; [0; a; 0]; [0; 0; a]]%Q (Qabs a * Qabs a * Qabs a)%Q [at1]
         [[0; 0; 0]]%Q neighbors) /\
    (forall a, ~ (a == 0)%Q ->
       ready (nacl_structure query inv a at1 at2 neighbors)
         [[a / 2; a / 2; 0]; [a / 2; 0; a / 2]; [0; a / 2; a / 2]]%Q (Qabs a * Qabs a * Qabs a / 4)%Q [at1; at2]
         [[0; 0; 0]; [a / 2; a / 2; a / 2]]%Q neighbors).
Proof.
  intros query inv nb at1 at2 Hnb I1 I2 I3.
  assert (forall x y : Q, (x == y -> Qabs x == Qabs y)%Q) as Habs by (intros x y E; rewrite E; reflexivity).
  split; [|split; [|split; [|split; [|split]]]].
  - intros a Ha. apply (preset_ready query (chain_basis inv a) [(None, at1)]) with (v := Qabs a); auto; try discriminate; try reflexivity.
    + apply I1. exists [[/ a]]%Q. matrix_check; field; auto.
    + intros r [<-|[]]. reflexivity.
    + apply all_different_one.
    + repeat constructor; intros [|[|i]]; reflexivity.
    + repeat constructor; intros [|[|i]]; reflexivity.
  - intros a x Ha.
    apply (preset_ready query (chain_basis inv a) [(Some [((0 + x) * a)%Q], at1); (Some [(((1#2) + x) * a)%Q], at2)]) with (v := Qabs a); auto; try discriminate; try reflexivity.
    + apply I1. exists [[/ a]]%Q. matrix_check; field; auto.
    + intros r [<-|[<-|[]]]; reflexivity.
    + apply all_different_two. cbn. rewrite same1. intro E. apply Ha. lra.
    + repeat constructor; intros [|[|i]]; reflexivity.
    + constructor; [|constructor; [|constructor]]; cbn [meant_position fst]; apply same1; ring.
  - intros a Ha.
    apply (preset_ready query (hypercubic inv 2 a) [(None, at1)]) with (v := Qabs ((a * 1) * (a * 1) - (a * 0) * (a * 0))); auto; try discriminate.
    + apply I2. exists [[/ a; 0]; [0; / a]]%Q. matrix_check; field; auto.
    + cbn. lia.
    + intros r [<-|[]]. reflexivity.
    + apply all_different_one.
    + rows_same; ring.
    + rewrite (Habs _ (a * a)%Q) by ring. apply Qabs_pos. nra.
    + repeat constructor; intros [|[|[|i]]]; reflexivity.
  - intros a1 a2 H1 H2.
    apply (preset_ready query (rectangular inv a1 a2) [(None, at1)]) with (v := Qabs (a1 * a2 - 0 * 0)); auto; try discriminate.
    + apply I2. exists [[/ a1; 0]; [0; / a2]]%Q. matrix_check; field; auto.
    + cbn. lia.
    + intros r [<-|[]]. reflexivity.
    + apply all_different_one.
    + rows_same; ring.
    + rewrite (Habs _ (a1 * a2)%Q) by ring. apply Qabs_Qmult.
    + repeat constructor; intros [|[|[|i]]]; reflexivity.
  - intros a Ha. eassert (cell_volume (b_vectors (hypercubic inv 3 a)) = Some _) as Ev by reflexivity.
    eapply (preset_ready query (hypercubic inv 3 a) [(None, at1)]); try exact Ev; auto; try discriminate.
    + apply I3. exists [[/ a; 0; 0]; [0; / a; 0]; [0; 0; / a]]%Q. matrix_check; field; auto.
    + cbn. lia.
    + intros r [<-|[]]. reflexivity.
    + apply all_different_one.
    + rows_same; ring.
    + rewrite <- !Qabs_Qmult. apply Habs. cbn. ring.
    + repeat constructor; intros [|[|[|[|i]]]]; reflexivity.
  - intros a Ha. eassert (cell_volume (b_vectors (fcc inv a)) = Some _) as Ev by reflexivity.
    eapply (preset_ready query (fcc inv a) [(Some [0; 0; 0]%Q, at1); (Some [a / 2; a / 2; a / 2]%Q, at2)]); try exact Ev; auto; try discriminate.
    + apply I3. exists [[/ a; / a; - / a]; [/ a; - / a; / a]; [- / a; / a; / a]]%Q. matrix_check; field; auto.
    + cbn. lia.
    + intros r [<-|[<-|[]]]; reflexivity.
    + apply all_different_two. cbn [meant_position fst]. rewrite same_cons. intros [E _]. apply Ha. setoid_replace a with (2 * (a / 2))%Q by field. rewrite <- E. ring.
    + rows_same; field.
    + rewrite <- !Qabs_Qmult. change 4%Q with (Qabs 4). unfold Qdiv. change (/ Qabs 4)%Q with (Qabs (1#4)). rewrite <- Qabs_Qmult.
      setoid_replace (Qabs (a * a * a * (1#4))) with (Qabs (-(a * a * a * (1#4)))) by (symmetry; apply Qabs_opp). apply Habs. cbn. field.
    + repeat constructor; intros [|[|[|[|i]]]]; reflexivity.
Qed.

(** Inverse of an invertible 1x1, 2x2 or 3x3 matrix (other matrices: unchanged), by cofactors. *)
Definition inverse_small (m : mat) : mat :=
  match m with
  | [[a]] => [[/ a]]%Q
  | [[_; _]; [_; _]] => inverse22 m
  | [[a; b; c]; [d; e; f]; [g; h; i]] =>
    let D := (a * (e * i - f * h) - b * (d * i - f * g) + c * (d * h - e * g))%Q in
    [[(e * i - f * h) / D; (c * h - b * i) / D; (b * f - c * e) / D];
     [(f * g - d * i) / D; (a * i - c * g) / D; (c * d - a * f) / D];
     [(d * h - e * g) / D; (b * g - a * h) / D; (a * e - b * d) / D]]%Q
  | _ => m
  end.

Lemma inverse_small_1 : inverts inverse_small 1.
Proof.
  intros M [W H]. pose proof H as [[L1 R1] [[L2 R2] [H1 _]]].
  destruct M as [|r [|]]; try discriminate L1. pose proof (R1 r (or_introl eq_refl)) as Lr. destruct r as [|a [|]]; try discriminate Lr.
  destruct W as [|w [|]]; try discriminate L2. pose proof (R2 w (or_introl eq_refl)) as Lw. destruct w as [|x [|]]; try discriminate Lw.
  specialize (H1 0 0 ltac:(lia) ltac:(lia)). cbn in H1. assert (~ (a == 0)%Q) as Ha by (intro E; rewrite E in H1; lra).
  matrix_check; field; auto.
Qed.

Lemma inverse_small_2 : inverts inverse_small 2.
Proof.
  intros M [W H]. pose proof H as [HM _]. apply square2 in HM. destruct HM as [a [b [c [e ->]]]].
  cbn [inverse_small]. apply inverse22_inverts. exists W. exact H.
Qed.

Lemma square3 M : square 3 M -> exists a b c d e f g h i, M = [[a; b; c]; [d; e; f]; [g; h; i]].
Proof.
  intros [L R]. destruct M as [|r [|r' [|r'' [|]]]]; try discriminate L.
  pose proof (R r (or_introl eq_refl)) as L1. pose proof (R r' (or_intror (or_introl eq_refl))) as L2.
  pose proof (R r'' (or_intror (or_intror (or_introl eq_refl)))) as L3.
  destruct r as [|? [|? [|? [|]]]]; try discriminate L1. destruct r' as [|? [|? [|? [|]]]]; try discriminate L2.
  destruct r'' as [|? [|? [|? [|]]]]; try discriminate L3. repeat eexists.
Qed.

Lemma inverse_small_3 : inverts inverse_small 3.
Proof.
  intros M [W H]. pose proof H as [HM [HW [H1 _]]]. apply square3 in HM. destruct HM as [a [b [c [d [e [f [g [h [i ->]]]]]]]]].
  apply square3 in HW. destruct HW as [a' [b' [c' [d' [e' [f' [g' [h' [i' ->]]]]]]]]].
  set (D := (a * (e * i - f * h) - b * (d * i - f * g) + c * (d * h - e * g))%Q).
  assert (~ (D == 0)%Q) as HD.
  { pose proof (H1 0 0 ltac:(lia) ltac:(lia)) as E00. pose proof (H1 0 1 ltac:(lia) ltac:(lia)) as E01. pose proof (H1 0 2 ltac:(lia) ltac:(lia)) as E02.
    pose proof (H1 1 0 ltac:(lia) ltac:(lia)) as E10. pose proof (H1 1 1 ltac:(lia) ltac:(lia)) as E11. pose proof (H1 1 2 ltac:(lia) ltac:(lia)) as E12.
    pose proof (H1 2 0 ltac:(lia) ltac:(lia)) as E20. pose proof (H1 2 1 ltac:(lia) ltac:(lia)) as E21. pose proof (H1 2 2 ltac:(lia) ltac:(lia)) as E22.
    cbn in E00, E01, E02, E10, E11, E12, E20, E21, E22.
    intro Z. assert (D * (a' * (e' * i' - f' * h') - b' * (d' * i' - f' * g') + c' * (d' * h' - e' * g')) == 1)%Q as E.
    2:{ rewrite Z in E. lra. }
    set (x00 := (0 + a * a' + b * d' + c * g')%Q) in *. set (x01 := (0 + a * b' + b * e' + c * h')%Q) in *. set (x02 := (0 + a * c' + b * f' + c * i')%Q) in *.
    set (x10 := (0 + d * a' + e * d' + f * g')%Q) in *. set (x11 := (0 + d * b' + e * e' + f * h')%Q) in *. set (x12 := (0 + d * c' + e * f' + f * i')%Q) in *.
    set (x20 := (0 + g * a' + h * d' + i * g')%Q) in *. set (x21 := (0 + g * b' + h * e' + i * h')%Q) in *. set (x22 := (0 + g * c' + h * f' + i * i')%Q) in *.
    setoid_replace (D * (a' * (e' * i' - f' * h') - b' * (d' * i' - f' * g') + c' * (d' * h' - e' * g')))%Q with
      (x00 * (x11 * x22 - x12 * x21) - x01 * (x10 * x22 - x12 * x20) + x02 * (x10 * x21 - x11 * x20))%Q.
    2:{ unfold x00, x01, x02, x10, x11, x12, x20, x21, x22, D. ring. }
    rewrite E00, E01, E02, E10, E11, E12, E20, E21, E22. reflexivity. }
  cbn [inverse_small]. fold D. matrix_check; unfold D in *; field; auto.
Qed.

(** Rock salt with cubic lattice constant 2: six neighbours of the other kind, then twelve of the own kind. *)
Example C73_example :
  inverts inverse_small 1 /\ inverts inverse_small 2 /\ inverts inverse_small 3 /\
  exists s, nacl_structure brute inverse_small 2 (ex_atom "Na") (ex_atom "Cl") 1 = Ok s /\
    st_connections s = Some [[1; 1]; [1; 1]] /\
    StructureModel.get_neighbors s [0; 0; 0]%Z 0 0 =
      Ok [[-1; -1; 0; 1]; [-1; 0; -1; 1]; [-1; 0; 0; 1]; [0; -1; -1; 1]; [0; -1; 0; 1]; [0; 0; -1; 1]]%Z /\
    (exists l, StructureModel.get_neighbors s [0; 0; 0]%Z 0 1 = Ok l /\ length l = 12 /\ forall t, In t l -> nth 3 t 0%Z = 0%Z) /\
    StructureModel.get_neighbors s [0; 0; 0]%Z 0 2 = Raise IndexError /\
    preset brute (fcc inverse_small 2) [(None, ex_atom "Na"); (Some [0; 0; 0]%Q, ex_atom "Cl")] 1 = Raise SiteOccupiedError /\
    preset brute (fcc inverse_small 2) [(None, ex_atom "Na")] 0 = Raise NoConnectionsError.
Proof.
  split; [exact inverse_small_1|]. split; [exact inverse_small_2|]. split; [exact inverse_small_3|].
  eexists. split; [vm_compute; reflexivity|]. split; [reflexivity|]. split; [vm_compute; reflexivity|]. split.
  - eexists. split; [vm_compute; reflexivity|]. split; [reflexivity|]. intros t Ht. cbn in Ht. intuition (subst; reflexivity).
  - split; [vm_compute; reflexivity|]. split; vm_compute; reflexivity.
Qed.

(** ** C74 *)

(** The point (a/2)(i, j, k). *)
Definition half_point (a : Q) (i j k : Z) : list Q := [a / 2 * inject_Z i; a / 2 * inject_Z j; a / 2 * inject_Z k]%Q.

Lemma same_trans' u v w : same u v -> same v w -> same u w.
Proof. rewrite !same_veq. apply veq_trans. Qed.
Lemma same_sym' u v : same u v -> same v u.
Proof. rewrite !same_veq. apply veq_sym. Qed.

Lemma fcc_point inv a n1 n2 n3 :
  same (transform (fcc inv a) (map inject_Z [n1; n2; n3])) (half_point a (n1 + n2) (n1 + n3) (n2 + n3)).
Proof.
  unfold half_point. cbn. rewrite !same_cons, !inject_Z_plus. repeat split; try apply same_nil; field.
Qed.

Lemma bcc_point inv a n1 n2 n3 :
  same (transform (bcc inv a) (map inject_Z [n1; n2; n3])) (half_point a (n1 + n2 - n3) (n1 - n2 + n3) (n1 + n2 + n3)).
Proof.
  unfold half_point, Z.sub. cbn. rewrite !same_cons, !inject_Z_plus, !inject_Z_opp. repeat split; try apply same_nil; field.
Qed.

Lemma half_point_len a i j k : (sq_len (half_point a i j k) == a * a / 4 * inject_Z (i * i + j * j + k * k))%Q.
Proof. unfold half_point, sq_len. cbn -[Qmult Qplus inject_Z Qdiv]. rewrite !inject_Z_plus, !inject_Z_mult. field. Qed.

Lemma sq_len_same u v : same u v -> (sq_len u == sq_len v)%Q.
Proof. intros [L H]. unfold sq_len. rewrite L. apply sum_ext. intros k _. rewrite (H k). reflexivity. Qed.

Lemma squares_small i j k : (i * i + j * j + k * k <= 3 -> -1 <= i <= 1 /\ -1 <= j <= 1 /\ -1 <= k <= 1)%Z.
Proof. intro H. repeat split; nia. Qed.

(** The lattice points of the face-centred cubic lattice are the points (a/2)(i, j, k) with i + j + k even; every point
    has twelve nearest neighbours, at the distance a/sqrt(2). *)
Theorem C74_fcc :
  forall inv a, ~ (a == 0)%Q ->
    let point n := transform (fcc inv a) (map inject_Z n) in
    (forall p, (exists n, length n = 3 /\ same p (point n)) <->
       exists i j k, Z.even (i + j + k) = true /\ same p (half_point a i j k)) /\
    (forall n, length n = 3 -> n <> [0; 0; 0]%Z -> (a * a / 2 <= sq_len (point n))%Q) /\
    (exists L, NoDup L /\ length L = 12 /\ forall n, In n L <-> length n = 3 /\ (sq_len (point n) == a * a / 2)%Q).
Proof.
  intros inv a Ha point.
  assert (0 < a * a)%Q as Haa by nra.
  assert (forall n1 n2 n3, (sq_len (point [n1; n2; n3]) == a * a / 4 * inject_Z ((n1 + n2) * (n1 + n2) + (n1 + n3) * (n1 + n3) + (n2 + n3) * (n2 + n3)))%Q) as Hl.
  { intros. unfold point. rewrite (sq_len_same _ _ (fcc_point inv a n1 n2 n3)). apply half_point_len. }
  assert (forall n : list Z, length n = 3 -> exists n1 n2 n3, n = [n1; n2; n3]) as H3.
  { intros [|n1 [|n2 [|n3 [|]]]] L; try discriminate L. eauto. }
  split; [|split].
  - intro p. split.
    + intros [n [L H]]. destruct (H3 n L) as [n1 [n2 [n3 ->]]]. exists (n1 + n2)%Z, (n1 + n3)%Z, (n2 + n3)%Z. split.
      * apply Z.even_spec. exists (n1 + n2 + n3)%Z. lia.
      * eapply same_trans'; [exact H|]. apply fcc_point.
    + intros [i [j [k [E H]]]]. apply Z.even_spec in E. destruct E as [m E]. exists [m - k; m - j; m - i]%Z. split; auto.
      eapply same_trans'; [exact H|]. apply same_sym'. eapply same_trans'; [apply fcc_point|].
      replace (m - k + (m - j))%Z with i by lia. replace (m - k + (m - i))%Z with j by lia. replace (m - j + (m - i))%Z with k by lia.
      rewrite same_veq. apply veq_refl.
  - intros n L N. destruct (H3 n L) as [n1 [n2 [n3 ->]]]. rewrite Hl.
    assert (2 <= (n1 + n2) * (n1 + n2) + (n1 + n3) * (n1 + n3) + (n2 + n3) * (n2 + n3))%Z as B.
    { destruct (Z.eq_dec (n1 + n2) 0), (Z.eq_dec (n1 + n3) 0), (Z.eq_dec (n2 + n3) 0); try nia.
      exfalso. apply N. repeat f_equal; lia. }
    rewrite Zle_Qle in B. change (inject_Z 2) with 2%Q in B. setoid_replace (a * a / 2)%Q with (a * a / 4 * 2)%Q by field. assert (a * a / 4 == a * a * (1#4))%Q as F by field. rewrite F. nra.
  - exists [[1; 0; 0]; [0; 1; 0]; [0; 0; 1]; [-1; 0; 0]; [0; -1; 0]; [0; 0; -1];
            [1; -1; 0]; [1; 0; -1]; [0; 1; -1]; [-1; 1; 0]; [-1; 0; 1]; [0; -1; 1]]%Z.
    split; [|split; [reflexivity|]].
    + repeat (constructor; [cbn; intuition discriminate|]). constructor.
    + intro n. split.
      * intro Hin. cbn [In] in Hin. repeat destruct Hin as [<-|Hin]; try (split; [reflexivity|rewrite Hl; cbn; field]). destruct Hin.
      * intros [L E]. destruct (H3 n L) as [n1 [n2 [n3 ->]]]. rewrite Hl in E.
        assert ((n1 + n2) * (n1 + n2) + (n1 + n3) * (n1 + n3) + (n2 + n3) * (n2 + n3) = 2)%Z as B.
        { apply inject_Z_injective. change (inject_Z 2) with 2%Q. setoid_replace (a * a / 2)%Q with (a * a / 4 * 2)%Q in E by field.
          apply (Qmult_inj_l _ _ (a * a / 4)%Q); [|exact E]. intro Z. assert (a * a / 4 == a * a * (1#4))%Q as F by field. rewrite F in Z. lra. }
        destruct (squares_small _ _ _ ltac:(rewrite B; lia)) as [? [? ?]].
        assert (-1 <= n1 <= 1)%Z by lia. assert (-1 <= n2 <= 1)%Z by lia. assert (-1 <= n3 <= 1)%Z by lia.
        assert (n1 = -1 \/ n1 = 0 \/ n1 = 1)%Z as C1 by lia. assert (n2 = -1 \/ n2 = 0 \/ n2 = 1)%Z as C2 by lia. assert (n3 = -1 \/ n3 = 0 \/ n3 = 1)%Z as C3 by lia.
        destruct C1 as [->|[->| ->]], C2 as [->|[->| ->]], C3 as [->|[->| ->]]; try discriminate B; cbn; auto 14.
Qed.

(** The lattice points of the body-centred cubic lattice are the points (a/2)(i, j, k) with i, j, k all even or all
    odd; every point has eight nearest neighbours, at the distance sqrt(3)a/2. *)
Theorem C74_bcc :
  forall inv a, ~ (a == 0)%Q ->
    let point n := transform (bcc inv a) (map inject_Z n) in
    (forall p, (exists n, length n = 3 /\ same p (point n)) <->
       exists i j k, Z.even i = Z.even j /\ Z.even j = Z.even k /\ same p (half_point a i j k)) /\
    (forall n, length n = 3 -> n <> [0; 0; 0]%Z -> (3 * (a * a) / 4 <= sq_len (point n))%Q) /\
    (exists L, NoDup L /\ length L = 8 /\ forall n, In n L <-> length n = 3 /\ (sq_len (point n) == 3 * (a * a) / 4)%Q).
Proof.
  intros inv a Ha point.
  assert (0 < a * a)%Q as Haa by nra.
  assert (forall n1 n2 n3, (sq_len (point [n1; n2; n3]) == a * a / 4 *
     inject_Z ((n1 + n2 - n3) * (n1 + n2 - n3) + (n1 - n2 + n3) * (n1 - n2 + n3) + (n1 + n2 + n3) * (n1 + n2 + n3)))%Q) as Hl.
  { intros. unfold point. rewrite (sq_len_same _ _ (bcc_point inv a n1 n2 n3)). apply half_point_len. }
  assert (forall n : list Z, length n = 3 -> exists n1 n2 n3, n = [n1; n2; n3]) as H3.
  { intros [|n1 [|n2 [|n3 [|]]]] L; try discriminate L. eauto. }
  assert (forall x y, Z.even x = Z.even y <-> exists m, (x = y + 2 * m)%Z) as Hev.
  { intros x y. split.
    - intro E. assert (Z.even (x - y) = true) as E' by (rewrite Z.even_sub, E; apply Bool.eqb_reflx).
      apply Z.even_spec in E'. destruct E' as [m E']. exists m. lia.
    - intros [m ->]. rewrite Z.even_add_mul_2. reflexivity. }
  split; [|split].
  - intro p. split.
    + intros [n [L H]]. destruct (H3 n L) as [n1 [n2 [n3 ->]]]. exists (n1 + n2 - n3)%Z, (n1 - n2 + n3)%Z, (n1 + n2 + n3)%Z. split; [|split].
      * apply Hev. exists (n2 - n3)%Z. lia.
      * apply Hev. exists (- n2)%Z. lia.
      * eapply same_trans'; [exact H|]. apply bcc_point.
    + intros [i [j [k [E1 [E2 H]]]]]. apply Hev in E1, E2. destruct E1 as [m1 E1], E2 as [m2 E2].
      exists [j + m1; - m2; - m1 - m2]%Z. split; auto.
      eapply same_trans'; [exact H|]. apply same_sym'. eapply same_trans'; [apply bcc_point|].
      replace (j + m1 + - m2 - (- m1 - m2))%Z with i by lia. replace (j + m1 - - m2 + (- m1 - m2))%Z with j by lia.
      replace (j + m1 + - m2 + (- m1 - m2))%Z with k by lia. rewrite same_veq. apply veq_refl.
  - intros n L N. destruct (H3 n L) as [n1 [n2 [n3 ->]]]. rewrite Hl.
    assert (3 <= (n1 + n2 - n3) * (n1 + n2 - n3) + (n1 - n2 + n3) * (n1 - n2 + n3) + (n1 + n2 + n3) * (n1 + n2 + n3))%Z as B.
    { set (i := (n1 + n2 - n3)%Z). set (j := (n1 - n2 + n3)%Z). set (k := (n1 + n2 + n3)%Z).
      destruct (Z.eq_dec i 0) as [Ei|Ei], (Z.eq_dec j 0) as [Ej|Ej], (Z.eq_dec k 0) as [Ek|Ek]; unfold i, j, k in *; try nia.
      all: first [exfalso; apply N; repeat f_equal; lia | assert (2 <= Z.abs (n1 + n2 + n3))%Z by lia; nia
        | assert (2 <= Z.abs (n1 - n2 + n3))%Z by lia; nia | assert (2 <= Z.abs (n1 + n2 - n3))%Z by lia; nia]. }
    rewrite Zle_Qle in B. change (inject_Z 3) with 3%Q in B. setoid_replace (3 * (a * a) / 4)%Q with (a * a / 4 * 3)%Q by field.
    assert (a * a / 4 == a * a * (1#4))%Q as F by field. rewrite F. nra.
  - exists [[1; 0; 0]; [0; 1; 0]; [0; 0; 1]; [-1; 0; 0]; [0; -1; 0]; [0; 0; -1]; [1; -1; -1]; [-1; 1; 1]]%Z.
    split; [|split; [reflexivity|]].
    + repeat (constructor; [cbn; intuition discriminate|]). constructor.
    + intro n. split.
      * intro Hin. cbn [In] in Hin. repeat destruct Hin as [<-|Hin]; try (split; [reflexivity|rewrite Hl; cbn; field]). destruct Hin.
      * intros [L E]. destruct (H3 n L) as [n1 [n2 [n3 ->]]]. rewrite Hl in E.
        assert ((n1 + n2 - n3) * (n1 + n2 - n3) + (n1 - n2 + n3) * (n1 - n2 + n3) + (n1 + n2 + n3) * (n1 + n2 + n3) = 3)%Z as B.
        { apply inject_Z_injective. change (inject_Z 3) with 3%Q. setoid_replace (3 * (a * a) / 4)%Q with (a * a / 4 * 3)%Q in E by field.
          apply (Qmult_inj_l _ _ (a * a / 4)%Q); [|exact E]. intro Z. assert (a * a / 4 == a * a * (1#4))%Q as F by field. rewrite F in Z. lra. }
        destruct (squares_small _ _ _ ltac:(rewrite B; lia)) as [? [? ?]].
        assert (-1 <= n1 <= 1)%Z by lia. assert (-1 <= n2 <= 1)%Z by lia. assert (-1 <= n3 <= 1)%Z by lia.
        assert (n1 = -1 \/ n1 = 0 \/ n1 = 1)%Z as C1 by lia. assert (n2 = -1 \/ n2 = 0 \/ n2 = 1)%Z as C2 by lia. assert (n3 = -1 \/ n3 = 0 \/ n3 = 1)%Z as C3 by lia.
        destruct C1 as [->|[->| ->]], C2 as [->|[->| ->]], C3 as [->|[->| ->]]; try discriminate B; cbn; auto 14.
Qed.

Example C74_example :
  same (transform (fcc inverse_small 3) [1; 1; 0]%Q) (half_point 3 2 1 1) /\ Z.even (2 + 1 + 1) = true /\
  same (transform (bcc inverse_small 3) [1; 1; 0]%Q) (half_point 3 2 0 2) /\
  ~ exists n, length n = 3 /\ same [3; 0; 3 / 2]%Q (transform (fcc inverse_small 3) (map inject_Z n)).
Proof.
  split; [apply (fcc_point inverse_small 3 1 1 0)|]. split; [reflexivity|]. split; [apply (bcc_point inverse_small 3 1 1 0)|].
  intro H. apply (C74_fcc inverse_small 3 ltac:(discriminate)) in H. destruct H as [i [j [k [E H]]]].
  unfold half_point in H. change (3 / 2)%Q with (3#2) in H. rewrite !same_cons in H. destruct H as [Hi [Hj [Hk _]]].
  assert (i = 2)%Z as -> by (apply inject_Z_injective; change (inject_Z 2) with 2%Q; lra).
  assert (j = 0)%Z as -> by (apply inject_Z_injective; change (inject_Z 0) with 0%Q; lra).
  assert (k = 1)%Z as -> by (apply inject_Z_injective; change (inject_Z 1) with 1%Q; lra).
  discriminate E.
Qed.

Print Assumptions C73_preset.
Print Assumptions C73_ready_made.
Print Assumptions C73_finite_hypercubic_errors.
Print Assumptions C74_fcc.
Print Assumptions C74_bcc.
