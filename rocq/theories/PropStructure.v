(** * Properties of lattpy/structure.py: atoms, references, connections, equality (C25-C27, C38) *)
From Coq Require Import String List ZArith QArith Bool Arith Lia Sorting.Sorted.
From Verif Require Import Np NpFacts LinAlg LinFacts SpecUtils SpecBasis AtomModel BasisModel BasisProofs NeighborCellProofs PropBasis SpecSpatial SpecStructure
  StructureModel KDBrute StructureFacts AnalyzeProofs StructureProofs.
Import ListNotations.
Open Scope nat_scope.
Open Scope list_scope.

(** Objects for the examples. *)
Definition ex_atom (name : string) : atom := atom_new 0 (Some name) (VNum (1#5)) VNone (VNum 1) [].
Definition ex_chain : basis := mkBasis [[1%Q]] [[1%Q]].
Definition ex_rect : basis := mkBasis [[2; 0]; [0; 1]]%Q [[1#2; 0]; [0; 1]]%Q.

Definition ex_calls : list call :=
  [CAddAtom (Some [0; 0]%Q) (ex_atom "A") false 0; CAddAtom (Some [1; 0]%Q) (ex_atom "B") false 0;
   CAddAtom (Some [1; 0]%Q) (ex_atom "C") false 0; CAddConnection (RName "A") (RName "B") 1 false;
   CAddConnection (RIndex 7) (RIndex 0) 1 false; CAddConnection (RIndex (-1)) (RIndex (-1)) 2 true].

(** ** C25 *)

Theorem C25_calls_keep_lattice_in_step :
  forall query b s, reachable query b s ->
    (* the numbers of atoms and positions agree *)
    length (st_positions s) = length (st_atoms s) /\
    (* positions have the dimension of the lattice and are pairwise different *)
    (forall r, In r (st_positions s) -> length r = b_dim b) /\
    (forall i j r r', i < j -> nth_error (st_positions s) i = Some r -> nth_error (st_positions s) j = Some r' ->
       ~ same r r') /\
    (* the connections are a symmetric matrix with one row and column per atom *)
    match st_connections s with
    | None => st_atoms s = []
    | Some c => length c = length (st_atoms s) /\
        (forall row, In row c -> length row = length (st_atoms s)) /\
        (forall i j, nth j (nth i c []) 0 = nth i (nth j c []) 0)
    end.
Proof.
  intros query b s H. destruct (reachable_in_step query b s H) as [Hs <-]. exact Hs.
Qed.

(** Adding an atom to an analysed lattice appends the atom before it fails. *)
Theorem C25_add_after_analysis :
  forall query s pos a primitive neighbors,
    (snd (analyze query s) = Ok tt -> st_frozen (fst (analyze query s)) = true) /\
    (st_frozen s = true -> in_step s ->
     let (s', r) := add_atom query s pos a primitive neighbors in
     r <> Raise ValueError -> r <> Raise SiteOccupiedError ->
     r = Raise AttributeError /\
     st_atoms s' = st_atoms s ++ [a] /\ st_positions s' = st_positions s /\ st_connections s' = st_connections s /\
     length (st_positions s') < length (st_atoms s')).
Proof.
  intros query s pos a primitive neighbors. split.
  - unfold analyze. destruct (st_atoms s); [discriminate|]. destruct (st_connections s); [|discriminate].
    destruct (forallb _ _); [discriminate|]. destruct (compute_base_neighbors _ _ _ _); [reflexivity|discriminate].
  - intros Hf [Hl _]. rewrite add_atom_eq, Hf. destruct (negb _); [congruence|]. destruct (existsb _ _); [congruence|].
    intros _ _. cbn. rewrite Hl, app_length. cbn. repeat split; auto. lia.
Qed.

Definition run_calls (query : kd_tree) (b : basis) (l : list call) : structure :=
  fold_left (fun s c => fst (run_call query s c)) l (new_structure b).

Definition ex_state : structure := Eval vm_compute in run_calls brute ex_rect ex_calls.

(** The third call fails (occupied), the fifth fails (IndexError); the last one analyses. *)
Example C25_example :
  reachable brute ex_rect ex_state /\
  map a_name (st_atoms ex_state) = ["A"; "B"]%string /\ st_connections ex_state = Some [[0; 1]; [1; 2]] /\
  (let (s', r) := add_atom brute ex_state (Some [0; 1#2]%Q) (ex_atom "C") false 0 in
   r = Raise AttributeError /\ length (st_atoms s') = 3 /\ length (st_positions s') = 2).
Proof.
  split; [|split; [vm_compute; reflexivity|split; [reflexivity|vm_compute; auto]]].
  replace ex_state with (run_calls brute ex_rect ex_calls) by (vm_compute; reflexivity).
  unfold run_calls, ex_calls. cbn [fold_left].
  repeat (apply r_call; [|intro; vm_compute; reflexivity || discriminate]). apply r_new.
Qed.

(** ** C26 *)

(** The position meant by the arguments. *)
Definition means_position (d : nat) (V : list (list Q)) (pos : option (list Q)) (primitive : bool) (r : list Q) : Prop :=
  if primitive
  then length r = d /\ forall i, i < d -> (nth i r 0 == sum_upto d (fun k => entry V i k * nth k (given_position d pos) 0))%Q
  else r = given_position d pos.

Lemma cartesian_means s pos primitive :
  valid_basis (st_basis s) -> length (given_position (b_dim (st_basis s)) pos) = b_dim (st_basis s) ->
  means_position (b_dim (st_basis s)) (b_mat (st_basis s)) pos primitive (cartesian s pos primitive).
Proof.
  intros Hb Hl. unfold means_position. destruct primitive; [|reflexivity].
  split; [apply cartesian_length; exact Hl|]. intros i Hi. unfold cartesian. cbv zeta.
  rewrite nth_vadd; [|rewrite matvec_length; apply vzero_len].
  rewrite (nth_matvec_sum (b_dim (st_basis s))); auto; [|apply Hb].
  assert (nth i (vzero (b_dim (st_basis s))) 0 == 0)%Q as E.
  { unfold vzero. clear. revert i. induction (b_dim (st_basis s)); intros [|i]; cbn; auto; reflexivity. }
  change (vzero (b_dim (st_basis s))) with (repeat 0%Q (b_dim (st_basis s))) in *. rewrite E. apply Qplus_0_l.
Qed.

Lemma means_unique d V pos primitive r r' :
  length (given_position d pos) = d ->
  means_position d V pos primitive r -> means_position d V pos primitive r' -> same r r'.
Proof.
  intro Hl. unfold means_position. destruct primitive.
  - intros [H1 H2] [H3 H4]. apply same_veq. apply (veq_nth_lt _ _ d); auto. intros i Hi. rewrite H2, H4 by auto. reflexivity.
  - intros -> ->. apply same_veq, veq_refl.
Qed.

Theorem C26_add_atom :
  forall query s pos a primitive neighbors,
    valid_basis (st_basis s) -> 1 <= b_dim (st_basis s) -> in_step s -> st_frozen s = false ->
    let d := b_dim (st_basis s) in
    let V := b_mat (st_basis s) in
    let (s', r) := add_atom query s pos a primitive neighbors in
    let occupied := length (given_position d pos) = d /\
      exists x p, means_position d V pos primitive x /\ In p (st_positions s) /\ same x p in
    (* the two errors *)
    (r = Raise ValueError <-> length (given_position d pos) <> d) /\
    (r = Raise SiteOccupiedError <-> occupied) /\
    (r = Raise ValueError \/ r = Raise SiteOccupiedError -> s' = s) /\
    (* success *)
    (r <> Raise ValueError -> r <> Raise SiteOccupiedError ->
     r = Ok tt /\
     st_atoms s' = st_atoms s ++ [a] /\
     (exists x, means_position d V pos primitive x /\ st_positions s' = st_positions s ++ [x]) /\
     (let n := length (st_atoms s) + 1 in
      exists c, st_connections s' = Some c /\ length c = n /\ (forall row, In row c -> length row = n) /\
        forall i j, i < n -> j < n -> nth j (nth i c []) 0 = neighbors) /\
     (st_frozen s' = true <-> neighbors <> 0)).
Proof.
  intros query s pos a primitive neighbors Hb Hd Hs Hf d V. rewrite add_atom_eq.
  fold d. destruct (Nat.eqb_spec (length (given_position d pos)) d) as [El|El]; cbn [negb].
  2:{ cbv iota zeta. split; [tauto|]. split; [split; [discriminate|tauto]|]. split; [auto|congruence]. }
  pose proof (cartesian_means s pos primitive Hb El) as Hc.
  destruct (existsb (veqb (cartesian s pos primitive)) (st_positions s)) eqn:Eo.
  { cbv iota zeta. split; [split; [discriminate|tauto]|]. split.
    - split; auto. intros _. split; auto. apply existsb_exists in Eo. destruct Eo as [p [Hp E]].
      exists (cartesian s pos primitive), p. split; auto. split; auto. apply same_veq, veqb_veq, E.
    - split; [auto|congruence]. }
  assert (~ (length (given_position d pos) = d /\
      exists x p, means_position d V pos primitive x /\ In p (st_positions s) /\ same x p)) as Hno.
  { intros [_ [x [p [Hx [Hp E]]]]]. apply not_true_iff_false in Eo. apply Eo. apply existsb_exists. exists p. split; auto.
    apply veqb_veq. apply same_veq in E. apply veq_trans with x; [|exact E].
    apply same_veq. eapply means_unique; eauto. }
  rewrite Hf. cbv zeta.
  set (n := length (st_atoms s ++ [a])).
  assert (n = length (st_atoms s) + 1) as En by (unfold n; rewrite app_length; reflexivity).
  set (s' := mkStructure _ _ _ false _ _).
  destruct (Nat.eqb_spec neighbors 0) as [->|Hn].
  - cbv iota zeta. split; [split; [discriminate|tauto]|]. split; [split; [discriminate|tauto]|]. split; [intros [?|?]; discriminate|].
    intros _ _. split; auto. split; auto. split; [eauto|]. split; [|cbn; split; congruence].
    exists (repeat (repeat 0 n) n). rewrite <- En. split; auto. split; [apply repeat_length|].
    split; [intros row Hr; apply repeat_spec in Hr; subst row; apply repeat_length|].
    intros. apply nth_repeat2; auto.
  - unfold add_connections. cbn [s' st_connections].
    set (conns := map (map (fun _ => neighbors)) (repeat (repeat 0 n) n)).
    set (s2 := mkStructure _ _ _ _ (Some conns) _).
    assert (forall i j, i < n -> j < n -> nth j (nth i conns []) 0 = neighbors) as He.
    { intros i j Hi Hj. apply (nth_map2d neighbors _ n); auto; [apply repeat_length|].
      intros row Hr. apply repeat_spec in Hr. subst row. apply repeat_length. }
    assert (length conns = n) as Hcl by (unfold conns; rewrite map_length; apply repeat_length).
    assert (forall row, In row conns -> length row = n) as Hcr.
    { intros row Hr. unfold conns in Hr. apply in_map_iff in Hr. destruct Hr as [row' [<- Hr]]. apply repeat_spec in Hr.
      subst row'. rewrite map_length. apply repeat_length. }
    assert (exists s3, analyze query s2 = (s3, Ok tt) /\ st_frozen s3 = true) as [s3 [E3 Hfz]].
    { destruct (analyze_succeeds query s2 conns) as [cells [raw [_ [_ E]]]]; auto.
      - cbn. destruct (st_atoms s); discriminate.
      - apply not_true_iff_false. intro Ez. rewrite forallb_forall in Ez. assert (0 < n) as Hpos by lia.
        assert (In (nth 0 conns []) conns) as Hin by (apply nth_In; lia).
        pose proof (Ez _ Hin) as Ez'. rewrite forallb_forall in Ez'.
        specialize (Ez' (nth 0 (nth 0 conns []) 0)). rewrite He in Ez' by auto.
        apply Hn. symmetry. apply Nat.eqb_eq. apply Ez'. rewrite <- (He 0 0) by auto. apply nth_In.
        rewrite (Hcr _ Hin). auto.
      - eexists. split; [exact E|reflexivity]. }
    pose proof (analyze_keeps query s2) as Hk. rewrite E3 in Hk. cbn [fst] in Hk. destruct Hk as [K1 [K2 [K3 K4]]].
    rewrite E3. cbv iota zeta. split; [split; [discriminate|tauto]|]. split; [split; [discriminate|tauto]|]. split; [intros [?|?]; discriminate|].
    intros _ _. split; auto. split; [rewrite K2; reflexivity|]. split; [exists (cartesian s pos primitive); split; [auto|rewrite K3; reflexivity]|].
    split; [|tauto]. exists conns. rewrite <- En, K4. auto.
Qed.

Example C26_example :
  let s := run_calls brute ex_rect [CAddAtom None (ex_atom "A") false 1; CAddConnections 0 false] in
  let t := run_calls brute ex_rect [CAddAtom None (ex_atom "A") false 0; CAddConnections 3 false] in
  (valid_basis (st_basis t) /\ in_step t /\ st_frozen t = false) /\
  snd (add_atom brute t (Some [1]%Q) (ex_atom "B") false 0) = Raise ValueError /\
  snd (add_atom brute t (Some [0; 0]%Q) (ex_atom "B") false 0) = Raise SiteOccupiedError /\
  snd (add_atom brute t (Some [1#2; 0]%Q) (ex_atom "B") true 0) = Ok tt /\
  st_connections t = Some [[3]] /\
  st_connections (fst (add_atom brute t (Some [1#2; 0]%Q) (ex_atom "B") true 0)) = Some [[0; 0]; [0; 0]] /\
  st_frozen s = true.
Proof.
  cbv zeta. split; [|vm_compute; auto 10]. split; [|split; [|reflexivity]].
  - apply inverse2_check; reflexivity.
  - apply (reachable_in_step brute ex_rect). unfold run_calls. cbn [fold_left].
    repeat (apply r_call; [|intro; reflexivity || discriminate]). apply r_new.
Qed.

(** ** C27 *)

(** The atom with index [k] has this name. *)
Definition named (l : list atom) (name : string) (k : nat) : Prop :=
  exists a, nth_error l k = Some a /\ atom_getattr a "name" = Some (VStr name).

Theorem C27_references :
  forall s name a i,
    let l := st_atoms s in
    (* names *)
    (exists ks, get_alpha s (RName name) = Ok (Many ks) /\ StronglySorted Z.lt ks /\
       forall z, In z ks <-> exists k, z = Z.of_nat k /\ named l name k) /\
    (* atoms *)
    (forall k, get_alpha s (RAtom a) = Ok (One (Z.of_nat k)) <->
       (exists x, nth_error l k = Some x /\ atom_eq x a = true) /\
       forall j x, j < k -> nth_error l j = Some x -> atom_eq x a = false) /\
    (get_alpha s (RAtom a) = Raise ValueError <-> forall x, In x l -> atom_eq x a = false) /\
    (* indices *)
    get_alpha s (RIndex i) = Ok (One i) /\
    (* get_atom *)
    get_atom s (RAtom a) = Ok a /\
    (forall k, k < length l -> exists x, nth_error l k = Some x /\
       get_atom s (RIndex (Z.of_nat k)) = Ok x /\ get_atom s (RIndex (Z.of_nat k - Z.of_nat (length l))) = Ok x) /\
    (get_atom s (RIndex i) = Raise IndexError <-> (i < - Z.of_nat (length l) \/ Z.of_nat (length l) <= i)%Z) /\
    (forall x, get_atom s (RName name) = Ok x <->
       exists k, named l name k /\ nth_error l k = Some x /\ forall j, j < k -> ~ named l name j) /\
    (get_atom s (RName name) = Raise ValueError <-> get_alpha s (RName name) = Ok (Many [])).
Proof.
  intros s name a i l. split; [|split; [|split; [|split; [|split; [|split; [|split; [|split]]]]]]].
  - cbn. eexists. split; [reflexivity|]. split.
    + apply (SS_map (fun p q => fst p < fst q)); [intros [x1 x2] [y1 y2] H; cbn in *; lia|]. apply SS_filter, enumerate_sorted.
    + intro z. rewrite in_map_iff. split.
      * intros [[k x] [<- Hin]]. apply filter_In in Hin. destruct Hin as [Hin Hn]. apply In_enumerate in Hin.
        exists k. split; auto. exists x. split; auto. apply has_name_iff. exact Hn.
      * intros [k [-> [x [Hx Hn]]]]. exists (k, x). split; auto. apply filter_In. split; [apply In_enumerate; exact Hx|].
        apply has_name_iff. exact Hn.
  - intro k. cbn. fold l. pose proof (list_index_spec a l 0) as H. destruct (list_index 0 l a) as [z|].
    + destruct H as [Hz [[x [Hx Ex]] Hlt]]. rewrite Z.sub_0_r in *. split.
      * intro E. injection E as ->. rewrite Nat2Z.id in *. split; [eauto|exact Hlt].
      * intros [[y [Hy Ey]] Hlt']. f_equal. f_equal.
        destruct (lt_eq_lt_dec (Z.to_nat z) k) as [[C|C]|C]; [|lia|].
        -- rewrite (Hlt' _ _ C Hx) in Ex. discriminate.
        -- rewrite (Hlt _ _ C Hy) in Ey. discriminate.
    + split; [discriminate|]. intros [[y [Hy Ey]] _]. rewrite (H y) in Ey; [discriminate|]. eapply nth_error_In; eauto.
  - cbn. fold l. pose proof (list_index_spec a l 0) as H. destruct (list_index 0 l a) as [z|].
    + destruct H as [_ [[x [Hx Ex]] _]]. split; [discriminate|]. intro H. rewrite (H x) in Ex; [discriminate|].
      eapply nth_error_In; eauto.
    + tauto.
  - reflexivity.
  - reflexivity.
  - intros k Hk. destruct (nth_error_lt l k Hk) as [x Hx]. exists x. split; auto. cbn. fold l. unfold py_index.
    replace ((0 <=? Z.of_nat k)%Z && (Z.of_nat k <? Z.of_nat (length l))%Z) with true.
    2:{ symmetry. apply andb_true_iff. rewrite Z.leb_le, Z.ltb_lt. lia. }
    replace ((0 <=? Z.of_nat k - Z.of_nat (length l))%Z) with false by (symmetry; apply Z.leb_gt; lia). cbn [andb].
    replace ((- Z.of_nat (length l) <=? Z.of_nat k - Z.of_nat (length l))%Z && (Z.of_nat k - Z.of_nat (length l) <? 0)%Z) with true.
    2:{ symmetry. apply andb_true_iff. rewrite Z.leb_le, Z.ltb_lt. lia. }
    replace (Z.to_nat (Z.of_nat k - Z.of_nat (length l) + Z.of_nat (length l))) with k by lia.
    rewrite Nat2Z.id, Hx. auto.
  - cbn. fold l. destruct (py_index (length l) i) as [k|] eqn:E.
    + pose proof (py_index_lt _ _ _ E) as Hk. destruct (nth_error_lt l k Hk) as [x ->]. split; [discriminate|].
      intro H. exfalso. unfold py_index in E.
      destruct ((0 <=? i)%Z && (i <? Z.of_nat (length l))%Z) eqn:E1;
        [apply andb_true_iff in E1; rewrite Z.leb_le, Z.ltb_lt in E1; lia|].
      destruct ((- Z.of_nat (length l) <=? i)%Z && (i <? 0)%Z) eqn:E2; [|discriminate].
      apply andb_true_iff in E2; rewrite Z.leb_le, Z.ltb_lt in E2; lia.
    + split; auto. intros _. unfold py_index in E.
      destruct ((0 <=? i)%Z && (i <? Z.of_nat (length l))%Z) eqn:E1; [discriminate|].
      destruct ((- Z.of_nat (length l) <=? i)%Z && (i <? 0)%Z) eqn:E2; [discriminate|].
      apply andb_false_iff in E1, E2. rewrite Z.leb_gt, Z.ltb_ge in E1, E2. lia.
  - intro x. cbn. fold l. assert (forall y, named [y] name 0 <-> has_name name y = true) as Hone.
    { intro y. rewrite has_name_iff. unfold named. cbn. split; [intros [z [E H]]; congruence|intro H; eauto]. }
    clearbody l. induction l as [|y l IH]; cbn [filter].
    + split; [discriminate|]. intros [k [[z [Hz _]] _]]. destruct k; discriminate.
    + destruct (has_name name y) eqn:Ey.
      * split.
        -- intro E. injection E as ->. exists 0. split; [exists x; split; [reflexivity|apply has_name_iff; auto]|]. split; auto. lia.
        -- intros [[|k] [Hk [Hx Hlt]]]; [cbn in Hx; congruence|]. exfalso. apply (Hlt 0); [lia|]. exists y. split; auto.
           apply has_name_iff. exact Ey.
      * rewrite IH. split.
        -- intros [k [[z [Hz Hn]] [Hx Hlt]]]. exists (S k). split; [exists z; auto|]. split; auto.
           intros [|j] Hj [z' [Hz' Hn']]; [cbn in Hz'; injection Hz' as <-; apply has_name_iff in Hn'; congruence|].
           apply (Hlt j); [lia|]. exists z'. auto.
        -- intros [[|k] [[z [Hz Hn]] [Hx Hlt]]]; [cbn in Hz; injection Hz as <-; apply has_name_iff in Hn; congruence|].
           exists k. split; [exists z; auto|]. split; auto. intros j Hj [z' Hz']. apply (Hlt (S j)); [lia|]. exists z'. auto.
  - cbn. fold l. rewrite <- (filter_enumerate (has_name name) l).
    destruct (filter (fun p => has_name name (snd p)) (enumerate l)); cbn; split; congruence.
Qed.

(** The entries set by add_connection; an unknown name is ignored. *)
Theorem C27_add_connection :
  forall query s c a1 a2 l1 l2 num,
    in_step s -> st_connections s = Some c ->
    get_alpha s a1 = Ok l1 -> get_alpha s a2 = Ok l2 ->
    let n := length (st_atoms s) in
    let refers l x := exists z, In z (alpha_list l) /\ py_index n z = Some x in
    let valid l := forall z, In z (alpha_list l) -> (- Z.of_nat n <= z < Z.of_nat n)%Z in
    let (s', r) := add_connection query s a1 a2 num false in
    (valid l1 -> valid l2 ->
     r = Ok tt /\
     st_atoms s' = st_atoms s /\ st_positions s' = st_positions s /\
     exists c', st_connections s' = Some c' /\
       forall x y, x < n -> y < n ->
         let new := (refers l1 x /\ refers l2 y) \/ (refers l1 y /\ refers l2 x) in
         (new -> nth y (nth x c' []) 0 = num) /\ (~ new -> nth y (nth x c' []) 0 = nth y (nth x c []) 0)) /\
    (alpha_list l1 = [] \/ alpha_list l2 = [] -> r = Ok tt /\ s' = s).
Proof.
  intros query s c a1 a2 l1 l2 num Hs Ec E1 E2 n refers valid. unfold add_connection. rewrite E1, E2, Ec.
  pose proof Hs as [_ [_ [_ Ht]]]. rewrite Ec in Ht.
  destruct (set_entries_spec n (list_prod (alpha_list l1) (alpha_list l2)) num c Ht) as [Hok Hval].
  destruct (set_entries c (list_prod (alpha_list l1) (alpha_list l2)) num) as [c' ok] eqn:Es. cbn [fst snd] in *.
  assert (forall z, (- Z.of_nat n <= z < Z.of_nat n)%Z -> py_index n z <> None) as Hpy.
  { intros z Hz. unfold py_index. destruct ((0 <=? z)%Z && (z <? Z.of_nat n)%Z) eqn:E; [discriminate|].
    destruct ((- Z.of_nat n <=? z)%Z && (z <? 0)%Z) eqn:E'; [discriminate|].
    apply andb_false_iff in E, E'. rewrite Z.leb_gt, Z.ltb_ge in E, E'. lia. }
  assert (valid l1 -> valid l2 -> ok = true) as Hvalid.
  { intros V1 V2. apply Hok. intros i j Hin. apply in_prod_iff in Hin. split; apply Hpy; [apply V1|apply V2]; tauto. }
  destruct ok; cbn [negb].
  - split.
    + intros V1 V2. split; auto. split; auto. split; auto. exists c'. split; auto. intros x y Hx Hy.
      destruct (Hval eq_refl x y Hx Hy) as [G1 G2]. split.
      * intros [[[z1 [I1 P1]] [z2 [I2 P2]]]|[[z1 [I1 P1]] [z2 [I2 P2]]]]; apply G1; exists z1, z2;
          (split; [apply in_prod_iff; auto|auto]).
      * intro Hno. apply G2. intros [i [j [Hin Hc]]]. apply Hno. apply in_prod_iff in Hin. destruct Hin as [I1 I2].
        destruct Hc as [[P1 P2]|[P1 P2]]; [left|right]; split; eexists; eauto.
    + intro H. split; auto. assert (list_prod (alpha_list l1) (alpha_list l2) = []) as El.
      { destruct H as [->| ->]; [reflexivity|]. clear. induction (alpha_list l1) as [|z0 l0 IH0]; [reflexivity|exact IH0]. }
      rewrite El in Es. cbn in Es. injection Es as <-. rewrite <- Ec. destruct s; reflexivity.
  - split; [intros V1 V2; specialize (Hvalid V1 V2); discriminate|].
    intro H. assert (list_prod (alpha_list l1) (alpha_list l2) = []) as El.
    { destruct H as [->| ->]; [reflexivity|]. clear. induction (alpha_list l1) as [|z0 l0 IH0]; [reflexivity|exact IH0]. }
    rewrite El in Es. discriminate.
Qed.

(** A misspelt name is not an error: nothing is connected. *)
Corollary C27_unknown_name_is_ignored :
  forall query s c name a2 l2 num,
    in_step s -> st_connections s = Some c -> get_alpha s a2 = Ok l2 -> (forall k, ~ named (st_atoms s) name k) ->
    add_connection query s (RName name) a2 num false = (s, Ok tt) /\ get_atom s (RName name) = Raise ValueError.
Proof.
  intros query s c name a2 l2 num Hs Ec E2 Hno.
  destruct (C27_references s name (ex_atom "A") 0%Z) as [[ks [E1 [_ Hks]]] [_ [_ [_ [_ [_ [_ [_ Hg]]]]]]]].
  assert (ks = []) as ->. { destruct ks as [|z ks]; auto. exfalso. destruct (proj1 (Hks z) (or_introl eq_refl)) as [k [_ Hk]]. eapply Hno; eauto. }
  pose proof (C27_add_connection query s c (RName name) a2 (Many []) l2 num Hs Ec E1 E2) as H. cbv zeta in H.
  destruct (add_connection query s (RName name) a2 num false) as [s' r]. destruct H as [_ H].
  destruct (H (or_introl eq_refl)) as [-> ->]. split; auto. apply Hg. exact E1.
Qed.

(** An atom object that is not in the unit cell is an error, in either place; nothing changes. *)
Theorem C27_foreign_atom :
  forall query s a num run, (forall x, In x (st_atoms s) -> atom_eq x a = false) ->
    (forall a2, add_connection query s (RAtom a) a2 num run = (s, Raise ValueError)) /\
    (forall a1 l1, get_alpha s a1 = Ok l1 -> add_connection query s a1 (RAtom a) num run = (s, Raise ValueError)).
Proof.
  intros query s a num run Ha. destruct (C27_references s "" a 0%Z) as [_ [_ [H _]]]. apply H in Ha. unfold add_connection. split.
  - intro a2. rewrite Ha. reflexivity.
  - intros a1 l1 E. rewrite E, Ha. reflexivity.
Qed.

(** Without atoms there is no matrix: indices are an error, names change nothing. *)
Theorem C27_no_atoms :
  forall query b num run, let s := new_structure b in
    (forall i j, add_connection query s (RIndex i) (RIndex j) num run = (s, Raise TypeError)) /\
    (forall name i, add_connection query s (RName name) (RIndex i) num false = (s, Ok tt) /\
                    add_connection query s (RIndex i) (RName name) num false = (s, Ok tt)) /\
    (forall a i, add_connection query s (RAtom a) (RIndex i) num run = (s, Raise ValueError)).
Proof. intros query b num run s. repeat split. Qed.

Example C27_no_atoms_example :
  add_connection brute (new_structure ex_rect) (RIndex 0) (RIndex 0) 1 true = (new_structure ex_rect, Raise TypeError).
Proof. reflexivity. Qed.

(** add_connections sets every entry; without atoms there is no matrix. *)
Theorem C27_add_connections :
  forall query s num, in_step s ->
    (st_connections s = None -> forall run, add_connections query s num run = (s, Raise AttributeError)) /\
    (forall c, st_connections s = Some c ->
      let n := length (st_atoms s) in
      let (s', r) := add_connections query s num false in
      r = Ok tt /\ st_basis s' = st_basis s /\ st_atoms s' = st_atoms s /\ st_positions s' = st_positions s /\ st_analysis s' = st_analysis s /\
      (exists c', st_connections s' = Some c' /\ length c' = n /\ (forall row, In row c' -> length row = n) /\
        forall x y, x < n -> y < n -> nth y (nth x c' []) 0 = num) /\
      add_connections query s num true = analyze query s').
Proof.
  intros query s num Hs. split.
  - intros E run. unfold add_connections. rewrite E. reflexivity.
  - intros c Ec n. pose proof Hs as [_ [_ [_ Ht]]]. rewrite Ec in Ht. destruct Ht as [T1 [T2 _]]. unfold add_connections. rewrite Ec.
    cbn [st_basis st_atoms st_positions st_connections st_analysis]. do 5 (split; [reflexivity|]). split; [|reflexivity].
    eexists. split; [reflexivity|]. split; [rewrite map_length; exact T1|]. split.
    + intros row Hr. apply in_map_iff in Hr. destruct Hr as [row0 [<- Hr]]. rewrite map_length. apply T2. auto.
    + intros x y Hx Hy. rewrite (nth_map_in _ _ _ []) by (unfold n in *; lia). rewrite (nth_map_in _ _ _ 0); [reflexivity|].
      rewrite (T2 (nth x c [])) by (apply nth_In; unfold n in *; lia). exact Hy.
Qed.

Example C27_add_connections_example :
  let s := run_calls brute ex_rect [CAddAtom None (ex_atom "A") false 0; CAddAtom (Some [1; 0]%Q) (ex_atom "B") false 0] in
  in_step s /\ st_connections s = Some [[0; 0]; [0; 0]] /\ st_connections (fst (add_connections brute s 2 false)) = Some [[2; 2]; [2; 2]].
Proof.
  cbv zeta. split; [|split; reflexivity]. apply (reachable_in_step brute ex_rect). unfold run_calls. cbn [fold_left].
  repeat (apply r_call; [|intro; reflexivity || discriminate]). apply r_new.
Qed.

Example C27_example :
  let s := run_calls brute ex_rect [CAddAtom None (ex_atom "A") false 0; CAddAtom (Some [1; 0]%Q) (ex_atom "B") false 0;
             CAddAtom (Some [0; 1#2]%Q) (ex_atom "A") false 0] in
  in_step s /\
  get_alpha s (RName "A") = Ok (Many [0; 2]%Z) /\ get_alpha s (RName "X") = Ok (Many []) /\
  get_alpha s (RAtom (ex_atom "B")) = Ok (One 1%Z) /\ get_alpha s (RAtom (ex_atom "X")) = Raise ValueError /\
  st_connections (fst (add_connection brute s (RName "A") (RIndex (-2)) 1 false)) =
    Some [[0; 1; 0]; [1; 0; 1]; [0; 1; 0]] /\
  snd (add_connection brute s (RName "A") (RIndex 3) 1 false) = Raise IndexError /\
  add_connection brute s (RName "X") (RIndex 0) 1 false = (s, Ok tt) /\
  (forall x, In x (st_atoms s) -> atom_eq x (ex_atom "X") = false).
Proof.
  cbv zeta. split; [|do 7 (split; [vm_compute; reflexivity|]); intros x Hx; vm_compute in Hx; repeat (destruct Hx as [<-|Hx]; [reflexivity|]); destruct Hx].
  apply (reachable_in_step brute ex_rect). unfold run_calls. cbn [fold_left].
  repeat (apply r_call; [|intro; reflexivity || discriminate]). apply r_new.
Qed.

(** ** C38 *)

Theorem C38_equality :
  forall p md5 s t u,
    st_connections s <> None -> st_connections t <> None -> st_connections u <> None ->
    structure_eq p md5 s s = Some true /\
    structure_eq p md5 s t = structure_eq p md5 t s /\
    (structure_eq p md5 s t = Some true -> structure_eq p md5 t u = Some true -> structure_eq p md5 s u = Some true) /\
    (structure_eq p md5 s t = Some true <-> structure_hash p md5 s = structure_hash p md5 t) /\
    (* lattices with the same vectors, atoms, positions and connections are equal *)
    (b_vectors (st_basis s) = b_vectors (st_basis t) -> st_atoms s = st_atoms t -> st_positions s = st_positions t ->
     st_connections s = st_connections t -> structure_eq p md5 s t = Some true) /\
    (* equal lattices print the same, unless the hash function collides *)
    ((forall x y, md5 x = md5 y -> x = y) -> structure_eq p md5 s t = Some true -> dumps p s = dumps p t).
Proof.
  intros p md5 s t u Hs Ht Hu.
  assert (forall x, st_connections x <> None -> exists text, dumps p x = Some text) as Hd.
  { intros x Hx. unfold dumps. cbn. destruct (st_connections x); [eauto|congruence]. }
  destruct (Hd s Hs) as [ds Es]. destruct (Hd t Ht) as [dt Et]. destruct (Hd u Hu) as [du Eu].
  assert (b_vectors (st_basis s) = b_vectors (st_basis t) -> st_atoms s = st_atoms t -> st_positions s = st_positions t ->
     st_connections s = st_connections t -> ds = dt) as Heq.
  { intros H1 H2 H3 H4. assert (todict s = todict t) as E by (unfold todict; congruence).
    assert (dumps p s = dumps p t) by (unfold dumps; rewrite E; reflexivity). congruence. }
  unfold structure_eq, structure_hash. rewrite Es, Et, Eu. cbn [option_map].
  split; [rewrite Z.eqb_refl; reflexivity|]. split; [rewrite Z.eqb_sym; reflexivity|].
  assert (forall x y, Some (x =? y)%Z = Some true <-> x = y) as Hz.
  { intros x y. split; [intro H; injection H as H; apply Z.eqb_eq; exact H|intros ->; rewrite Z.eqb_refl; reflexivity]. }
  rewrite !Hz. split; [congruence|]. split; [split; congruence|]. split; [intros; f_equal; auto|].
  intros Hinj E. apply Hinj in E. congruence.
Qed.

(** A lattice without atoms cannot be compared or hashed. *)
Theorem C38_no_atoms :
  forall p md5 b s, structure_hash p md5 (new_structure b) = None /\ structure_eq p md5 (new_structure b) s = None.
Proof. intros. split; reflexivity. Qed.

Example C38_example :
  let p := mkPrinter (fun v => String.concat "," (map (fun q => if Qeq_bool q 0 then "0" else "x")%string v))
             (fun a => a_name a) (fun r => "r"%string) in
  let s := run_calls brute ex_rect [CAddAtom None (ex_atom "A") false 0] in
  let t := run_calls brute ex_rect [CAddAtom None (ex_atom "B") false 0] in
  dumps p s = Some (String.concat (String (Ascii.ascii_of_nat 10) EmptyString)
    ["vectors:       x,0; 0,x"; "atoms:         A"; "positions:     0,0"; "connections:   r"]%string) /\
  structure_eq p (fun x => Z.of_nat (String.length x)) s s = Some true /\
  structure_eq p (fun x => if String.eqb x (match dumps p s with Some y => y | None => "" end) then 0 else 1)%Z s t = Some false.
Proof. vm_compute. auto. Qed.

Print Assumptions C25_calls_keep_lattice_in_step.
Print Assumptions C25_add_after_analysis.
Print Assumptions C26_add_atom.
Print Assumptions C27_references.
Print Assumptions C27_add_connection.
Print Assumptions C27_unknown_name_is_ignored.
Print Assumptions C38_equality.
Print Assumptions C38_no_atoms.
Print Assumptions C27_no_atoms.
Print Assumptions C27_add_connections.
Print Assumptions C27_foreign_atom.
