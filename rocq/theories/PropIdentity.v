(** * Properties of the text, hash and equality of lattices (C38, C80) *)
From Coq Require Import String Ascii List ZArith QArith Bool Arith Lia DecimalString DecimalNat.
From Verif Require Import Np LinAlg AtomModel BasisModel SpatialModel ShapeModel StructureModel DataModel LatticeModel KDBrute
  BasisProofs StructureProofs StructureFacts PropData PropStructure SpecBasis PropDict LatticeExamples IdentityModel.
Import ListNotations.
Open Scope nat_scope.
Open Scope list_scope.

(** ** Texts *)

Definition newline : ascii := ascii_of_nat 10.
Definition semicolon : ascii := ";"%char.

(** A text that can be told apart in a list: not empty, without semicolons and line breaks. *)
Definition plain (s : string) : Prop :=
  s <> EmptyString /\ ~ In semicolon (list_ascii_of_string s) /\ ~ In newline (list_ascii_of_string s).

Lemma chars_app s t : list_ascii_of_string (String.append s t) = list_ascii_of_string s ++ list_ascii_of_string t.
Proof. induction s as [|c s IH]; cbn; [reflexivity|rewrite IH; reflexivity]. Qed.

Lemma app_cancel s t u : String.append s t = String.append s u -> t = u.
Proof. induction s as [|c s IH]; cbn; intro H; [exact H|injection H as H; auto]. Qed.

Lemma app_cancel_right s t u : String.append s u = String.append t u -> s = t.
Proof.
  intro H. apply (f_equal list_ascii_of_string) in H. rewrite !chars_app in H. apply app_inv_tail in H.
  rewrite <- (string_of_list_ascii_of_string s), <- (string_of_list_ascii_of_string t). congruence.
Qed.

Lemma split_once c a b x y :
  ~ In c (list_ascii_of_string a) -> ~ In c (list_ascii_of_string b) ->
  String.append a (String c x) = String.append b (String c y) -> a = b /\ x = y.
Proof.
  revert b. induction a as [|d a IH]; intros [|e b]; cbn; intros Ha Hb H.
  - injection H as H. auto.
  - injection H as H _. exfalso. apply Hb. left. congruence.
  - injection H as H _. exfalso. apply Ha. left. congruence.
  - injection H as -> H. destruct (IH b) as [-> ->]; auto.
Qed.

Lemma joined_plain l : Forall plain l -> ~ In newline (list_ascii_of_string (String.concat "; " l)).
Proof.
  induction l as [|x l IH]; intro H; [cbn; tauto|]. inversion_clear H as [|? ? [_ [_ Hx]] Hl]. specialize (IH Hl).
  destruct l as [|y l]; [exact Hx|]. change (String.concat "; " (x :: y :: l)) with (String.append x (String.append "; " (String.concat "; " (y :: l)))).
  rewrite !chars_app, !in_app_iff. intros [H|[H|H]]; auto. cbn in H. destruct H as [H|[H|[]]]; discriminate.
Qed.

Lemma join_inj l : forall m, Forall plain l -> Forall plain m -> String.concat "; " l = String.concat "; " m -> l = m.
Proof.
  assert (forall x l, plain x -> String.concat "; " (x :: l) <> EmptyString) as Hne.
  { intros x [|y r] [Hx _]; cbn; [exact Hx|]. destruct x; [congruence|cbn; discriminate]. }
  induction l as [|x l IH]; intros [|y m] Hl Hm H; auto.
  - inversion_clear Hm as [|? ? Hy _]. symmetry in H. apply Hne in H; tauto.
  - inversion_clear Hl as [|? ? Hx _]. apply Hne in H; tauto.
  - inversion_clear Hl as [|? ? [Hx [Hxs _]] Hl']. inversion_clear Hm as [|? ? [Hy [Hys _]] Hm'].
    assert (forall z k r, String.concat "; " (z :: k :: r) = String.append z (String semicolon (String " " (String.concat "; " (k :: r))))) as Hc by reflexivity.
    assert (forall z t, In semicolon (list_ascii_of_string (String.append z (String semicolon t)))) as Hin.
    { intros z t. rewrite chars_app, in_app_iff. right. left. reflexivity. }
    destruct l as [|x2 l], m as [|y2 m].
    + cbn in H. congruence.
    + rewrite Hc in H. cbn [String.concat] in H. subst x. exfalso. apply Hxs, Hin.
    + rewrite Hc in H. cbn [String.concat] in H. subst y. exfalso. apply Hys, Hin.
    + rewrite !Hc in H. apply split_once in H; auto. destruct H as [-> H]. injection H as H. f_equal. apply IH; auto.
Qed.

Lemma lines_inj x xs y ys :
  Forall plain x -> Forall plain y ->
  String.append (String.concat "; " x) (String newline xs) = String.append (String.concat "; " y) (String newline ys) -> x = y /\ xs = ys.
Proof. intros Hx Hy H. apply split_once in H; [|apply joined_plain; auto..]. destruct H as [H ->]. apply join_inj in H; auto. Qed.

(** ** C38: which lattices print the same text *)

(** Everything a structure prints. *)
Definition prints_plain (p : printer) (s : structure) : Prop :=
  Forall plain (map (show_vec p) (b_vectors (st_basis s))) /\ Forall plain (map (show_atom p) (st_atoms s)) /\
  Forall plain (map (show_vec p) (st_positions s)) /\
  match st_connections s with Some c => Forall plain (map (show_row p) c) | None => True end.

(** Two structures that look the same, entry by entry. *)
Definition look_alike (p : printer) (s t : structure) : Prop :=
  map (show_vec p) (b_vectors (st_basis s)) = map (show_vec p) (b_vectors (st_basis t)) /\
  map (show_atom p) (st_atoms s) = map (show_atom p) (st_atoms t) /\
  map (show_vec p) (st_positions s) = map (show_vec p) (st_positions t) /\
  option_map (map (show_row p)) (st_connections s) = option_map (map (show_row p)) (st_connections t).

Theorem C38_equal_iff_look_alike :
  forall p md5 s t,
    st_connections s <> None -> st_connections t <> None -> prints_plain p s -> prints_plain p t ->
    (dumps p s = dumps p t <-> look_alike p s t) /\
    ((forall x y, md5 x = md5 y -> x = y) -> (structure_eq p md5 s t = Some true <-> look_alike p s t)).
Proof.
  intros p md5 s t Hs Ht Ps Pt.
  assert (dumps p s = dumps p t <-> look_alike p s t) as Hd.
  { unfold look_alike, prints_plain, dumps in *. cbn [todict sd_vectors sd_atoms sd_positions sd_connections] in *.
    destruct (st_connections s) as [cs|]; [|congruence]. destruct (st_connections t) as [ct|]; [|congruence].
    destruct Ps as [P1 [P2 [P3 P4]]], Pt as [Q1 [Q2 [Q3 Q4]]]. cbn [option_map]. split.
    - intro H. injection H as H.
      apply lines_inj in H; auto. destruct H as [E1 H]. injection H as H.
      apply lines_inj in H; auto. destruct H as [E2 H]. injection H as H.
      apply lines_inj in H; auto. destruct H as [E3 H]. injection H as H.
      apply join_inj in H; auto. rewrite E1, E2, E3, H. auto.
    - intros [E1 [E2 [E3 E4]]]. injection E4 as E4. rewrite E1, E2, E3, E4. reflexivity. }
  split; [exact Hd|]. intro Hinj. rewrite <- Hd. unfold structure_eq, structure_hash.
  assert (forall x, st_connections x <> None -> exists text, dumps p x = Some text) as He.
  { intros x Hx. unfold dumps. cbn. destruct (st_connections x); [eauto|congruence]. }
  destruct (He s Hs) as [ds ->], (He t Ht) as [dt ->]. cbn [option_map]. split.
  - intro H. injection H as H. apply Z.eqb_eq, Hinj in H. congruence.
  - intro H. injection H as ->. rewrite Z.eqb_refl. reflexivity.
Qed.

(** ** C80 *)

Definition shape_plain (show_num : Q -> string) (l : lattice) : Prop :=
  match lt_shape l with Some v => Forall plain (map show_num v) | None => True end.

Theorem C80_equal_iff_look_alike :
  forall p show_num md5 l m v w,
    st_connections (lt_structure l) <> None -> st_connections (lt_structure m) <> None -> lt_shape l = Some v -> lt_shape m = Some w ->
    prints_plain p (lt_structure l) -> prints_plain p (lt_structure m) ->
    shape_plain show_num l -> shape_plain show_num m -> (forall x y, md5 x = md5 y -> x = y) ->
    (lattice_eq p show_num md5 l m = Some true <->
     look_alike p (lt_structure l) (lt_structure m) /\ map show_num v = map show_num w) /\
    (lattice_eq p show_num md5 l m = Some false <->
     ~ (look_alike p (lt_structure l) (lt_structure m) /\ map show_num v = map show_num w)) /\
    (lattice_eq p show_num md5 l m = Some true <-> lattice_hash p show_num md5 l = lattice_hash p show_num md5 m).
Proof.
  intros p show_num md5 l m v w Hs Ht Ev Ew Ps Pt Pl Pm Hinj.
  unfold shape_plain in Pl, Pm. rewrite Ev in Pl. rewrite Ew in Pm.
  assert (lattice_dumps p show_num l = lattice_dumps p show_num m <->
          look_alike p (lt_structure l) (lt_structure m) /\ map show_num v = map show_num w) as Hd.
  { unfold look_alike, prints_plain, lattice_dumps, lattice_todict in *.
    cbn [ld_structure ld_shape todict sd_vectors sd_atoms sd_positions sd_connections] in *. rewrite Ev, Ew.
    destruct (st_connections (lt_structure l)) as [cs|]; [|congruence]. destruct (st_connections (lt_structure m)) as [ct|]; [|congruence].
    destruct Ps as [P1 [P2 [P3 P4]]], Pt as [Q1 [Q2 [Q3 Q4]]]. cbn [option_map]. split.
    - intro H. injection H as H.
      apply lines_inj in H; auto. destruct H as [E1 H]. injection H as H.
      apply lines_inj in H; auto. destruct H as [E2 H]. injection H as H.
      apply lines_inj in H; auto. destruct H as [E3 H]. injection H as H.
      apply lines_inj in H; auto. destruct H as [E4 H]. injection H as H.
      apply join_inj in H; auto. rewrite E1, E2, E3, E4, H. auto 6.
    - intros [[E1 [E2 [E3 E4]]] E5]. injection E4 as E4. rewrite E1, E2, E3, E4, E5. reflexivity. }
  assert (exists dl dm, lattice_dumps p show_num l = Some dl /\ lattice_dumps p show_num m = Some dm) as [dl [dm [El Em]]].
  { unfold lattice_dumps, lattice_todict. cbn [ld_structure ld_shape todict sd_connections]. rewrite Ev, Ew.
    destruct (st_connections (lt_structure l)); [|congruence]. destruct (st_connections (lt_structure m)); [eauto|congruence]. }
  unfold lattice_eq, lattice_hash. rewrite <- Hd, El, Em. cbn [option_map].
  split; [|split].
  - split; intro H; injection H as H; [apply Z.eqb_eq, Hinj in H; congruence|subst; rewrite Z.eqb_refl; reflexivity].
  - split; [intros H E; injection H as H; injection E as ->; rewrite Z.eqb_refl in H; discriminate|].
    intro H. destruct (md5 dl =? md5 dm)%Z eqn:E; auto. apply Z.eqb_eq, Hinj in E. subst. tauto.
  - split; intro H; injection H as H; [apply Z.eqb_eq in H; congruence|rewrite H, Z.eqb_refl; reflexivity].
Qed.

(** A lattice that is not built, or has no atoms, can neither be hashed nor compared. *)
Theorem C80_not_built :
  forall p show_num md5 l m, lt_shape l = None \/ st_connections (lt_structure l) = None ->
    lattice_hash p show_num md5 l = None /\ lattice_eq p show_num md5 l m = None /\ lattice_eq p show_num md5 m l = None.
Proof.
  intros p show_num md5 l m H.
  assert (lattice_hash p show_num md5 l = None) as E.
  { unfold lattice_hash, lattice_dumps, lattice_todict. cbn [ld_structure ld_shape todict sd_connections].
    destruct H as [->| ->]; [destruct (st_connections _)|]; reflexivity. }
  unfold lattice_eq. rewrite E. split; [reflexivity|]. split; [reflexivity|]. destruct (lattice_hash p show_num md5 m); reflexivity.
Qed.

(** The sites are not part of the identity: lattices with the same structure and extents are equal, and making a
    lattice periodic (or open again) leaves it equal to itself. *)
Theorem C80_sites_do_not_count :
  forall p show_num md5,
    (forall l m, lt_structure l = lt_structure m -> lt_shape l = lt_shape m ->
       lattice_hash p show_num md5 l = lattice_hash p show_num md5 m) /\
    (forall query argsort l axis, st_connections (lt_structure l) <> None -> lt_shape l <> None ->
       lattice_eq p show_num md5 (fst (set_periodic query argsort l axis)) l = Some true).
Proof.
  intros p show_num md5.
  assert (forall l m, lt_structure l = lt_structure m -> lt_shape l = lt_shape m ->
       lattice_hash p show_num md5 l = lattice_hash p show_num md5 m) as H1.
  { intros l m E1 E2. unfold lattice_hash, lattice_dumps, lattice_todict. rewrite E1, E2. reflexivity. }
  split; [exact H1|]. intros query argsort l axis Hc Hs. set (l' := fst _).
  assert (lt_structure l' = lt_structure l /\ lt_shape l' = lt_shape l) as [E1 E2].
  { subst l'. unfold set_periodic. destruct (lt_shape l) eqn:E; [|auto]. destruct (match lt_data l with None => None | Some d => _ end) as [d|]; [|auto].
    cbv zeta. set (ax := match axis with AxNone => None | _ => _ end). destruct ax as [axes|]; [|cbn; auto].
    destruct (st_analysis _); [|cbn; auto]. destruct (compute_pneighbors _ _ _ _ _ _ _) as [[|e pd]|]; [cbn; auto| |cbn; auto].
    destruct (DataModel.set_periodic d (e :: pd)); cbn; auto. }
  unfold lattice_eq. rewrite (H1 l' l E1 E2).
  assert (exists h, lattice_hash p show_num md5 l = Some h) as [h ->].
  { unfold lattice_hash, lattice_dumps, lattice_todict. cbn [ld_structure ld_shape todict sd_connections].
    destruct (st_connections _); [|congruence]. destruct (lt_shape l); [cbn; eauto|congruence]. }
  rewrite Z.eqb_refl. reflexivity.
Qed.

(** The dictionary restores the analysed structure (C37), but neither sites nor extents: the result has no hash. *)
Theorem C80_dictionary :
  forall query inv p show_num md5 s0 l,
    valid_basis (st_basis s0) -> in_step s0 -> inv (b_mat (st_basis s0)) = b_inv (st_basis s0) ->
    analyze query s0 = (lt_structure l, Ok tt) ->
    ld_shape (lattice_todict l) = lt_shape l /\
    exists m, lattice_fromdict query inv (lattice_todict l) = Ok m /\
      st_atoms (lt_structure m) = st_atoms s0 /\ st_positions (lt_structure m) = st_positions s0 /\
      st_connections (lt_structure m) = st_connections s0 /\ st_analysis (lt_structure m) = st_analysis (lt_structure l) /\
      structure_eq p md5 (lt_structure m) (lt_structure l) = Some true /\
      lt_data m = None /\ lt_shape m = None /\ lt_axes m = [] /\ lattice_hash p show_num md5 m = None.
Proof.
  intros query inv p show_num md5 s0 l Hb Hs Hinv Ha. split; [reflexivity|].
  destruct (C37_round_trip query inv s0 (lt_structure l) Hb Hs Hinv Ha) as [s' [E [E1 [E2 [E3 [E4 [E5 [E6 _]]]]]]]].
  exists (new_lattice s'). unfold lattice_fromdict, lattice_todict. cbn [ld_structure]. rewrite E.
  split; [reflexivity|]. cbn [lt_structure new_lattice lt_data lt_shape lt_axes]. repeat (split; [assumption|]).
  split; [|repeat (split; [reflexivity|]); apply (C80_not_built p show_num md5 _ (new_lattice s')); left; reflexivity].
  destruct (analyze_keeps query s0) as [K1 [K2 [K3 K4]]]. rewrite Ha in K1, K2, K3, K4. cbn [fst] in K1, K2, K3, K4.
  assert (st_connections s0 <> None) as Hc.
  { intro Hn. unfold analyze in Ha. rewrite Hn in Ha. destruct (st_atoms s0); discriminate. }
  assert (st_connections s' <> None) as Hc1 by congruence. assert (st_connections (lt_structure l) <> None) as Hc2 by congruence.
  destruct (C38_equality p md5 s' (lt_structure l) s' Hc1 Hc2 Hc1) as [_ [_ [_ [_ [H _]]]]]. apply H; congruence.
Qed.

(** The errors of [C37_bad_dictionaries] are errors of [Lattice.fromdict]; the entry "shape" does not count. *)
Theorem C80_bad_dictionaries :
  forall query inv dict shape good pos a rest,
    combine (sd_positions dict) (sd_atoms dict) = good ++ (pos, a) :: rest ->
    (forall p, In p good -> length (fst p) = length (sd_vectors dict)) ->
    (forall i j r r', i < j -> nth_error (map fst good) i = Some r -> nth_error (map fst good) j = Some r' -> ~ same r r') ->
    (length pos <> length (sd_vectors dict) -> lattice_fromdict query inv (mkLDict dict shape) = Raise ValueError) /\
    (length pos = length (sd_vectors dict) -> (exists p, In p good /\ same (fst p) pos) ->
     lattice_fromdict query inv (mkLDict dict shape) = Raise SiteOccupiedError).
Proof.
  intros query inv dict shape good pos a rest E Hl Hd. destruct (C37_bad_dictionaries query inv dict good pos a rest E Hl Hd) as [H1 H2].
  unfold lattice_fromdict. cbn [ld_structure]. split.
  - intro H. rewrite (H1 H). reflexivity.
  - intros H G. rewrite (H2 H G). reflexivity.
Qed.

Example C80_bad_example :
  let dict x := mkDict [[2; 0]; [0; 1]]%Q [ex_atom "A"; ex_atom "B"] [[0; 0]; x]%Q (Some [[0; 1]; [1; 0]]) in
  let inv := fun _ => [[1#2; 0]; [0; 1]]%Q in
  combine (sd_positions (dict [1]%Q)) (sd_atoms (dict [1]%Q)) = [([0; 0], ex_atom "A")]%Q ++ [([1]%Q, ex_atom "B")] /\
  lattice_fromdict brute inv (mkLDict (dict [1]%Q) None) = Raise ValueError /\
  lattice_fromdict brute inv (mkLDict (dict [0; 0]%Q) (Some [1; 1]%Q)) = Raise SiteOccupiedError.
Proof. cbv zeta. auto. Qed.

(** Atoms are told apart by the instance: the printed index is the number of atoms created before. *)
Lemma show_nat_inj m n : show_nat m = show_nat n -> m = n.
Proof.
  unfold show_nat. intro H. apply (f_equal NilZero.uint_of_string) in H. rewrite !NilZero.usu in H.
  - injection H as H. apply Unsigned.to_uint_inj, H.
  - intro E. pose proof (Unsigned.of_to n) as F. destruct n; [discriminate E|]. rewrite E in F. discriminate F.
  - intro E. pose proof (Unsigned.of_to m) as F. destruct m; [discriminate E|]. rewrite E in F. discriminate F.
Qed.

Theorem C80_atoms_by_instance :
  forall show_num a b,
    a_name a = a_name b -> a_params a = a_params b ->
    (a_index a = a_index b -> atom_repr show_num a = atom_repr show_num b) /\
    (dict_get (a_params a) "index" = None -> (atom_repr show_num a = atom_repr show_num b <-> a_index a = a_index b)).
Proof.
  intros show_num a b En Ep. unfold atom_repr. rewrite <- En, <- Ep. split; [intros <-; reflexivity|].
  intro Hi. rewrite Hi. split; [|intros <-; reflexivity]. intro H. apply app_cancel, app_cancel, app_cancel, app_cancel_right in H.
  apply show_nat_inj, H.
Qed.

(** Hence two lattices made in the same way, each with its own atoms, are different. *)
Theorem C80_own_atoms_differ :
  forall p show_num md5 l m v w i a b,
    show_atom p = atom_repr show_num ->
    lt_shape l = Some v -> lt_shape m = Some w ->
    st_connections (lt_structure l) <> None -> st_connections (lt_structure m) <> None ->
    prints_plain p (lt_structure l) -> prints_plain p (lt_structure m) -> shape_plain show_num l -> shape_plain show_num m ->
    (forall x y, md5 x = md5 y -> x = y) ->
    nth_error (st_atoms (lt_structure l)) i = Some a -> nth_error (st_atoms (lt_structure m)) i = Some b ->
    a_name a = a_name b -> a_params a = a_params b -> dict_get (a_params a) "index" = None -> a_index a <> a_index b ->
    lattice_eq p show_num md5 l m = Some false /\ structure_eq p md5 (lt_structure l) (lt_structure m) = Some false.
Proof.
  intros p show_num md5 l m v w i a b Hp Ev Ew Hl Hm Pl Pm Sl Sm Hinj Ha Hb En Epar Hi Hne.
  assert (~ look_alike p (lt_structure l) (lt_structure m)) as Hno.
  { intros [_ [E _]]. apply (f_equal (fun k => nth_error k i)) in E. rewrite !nth_error_map, Ha, Hb in E. cbn [option_map] in E.
    injection E as E. rewrite Hp in E. apply (C80_atoms_by_instance show_num a b En Epar) in E; auto. }
  split.
  - apply (C80_equal_iff_look_alike p show_num md5 l m v w); tauto.
  - destruct (structure_eq p md5 (lt_structure l) (lt_structure m)) as [[|]|] eqn:E; auto.
    + apply (C38_equal_iff_look_alike p md5 _ _ Hl Hm Pl Pm) in E; tauto.
    + exfalso. unfold structure_eq, structure_hash, dumps in E. cbn [todict sd_connections] in E.
      destruct (st_connections (lt_structure l)); [|congruence]. destruct (st_connections (lt_structure m)); [discriminate E|congruence].
Qed.

(** Printing of the small numbers of the examples. *)
Definition show_q (q : Q) : string :=
  String.append (if (Qnum q <? 0)%Z then "-" else "") (String.append (show_nat (Z.to_nat (Z.abs (Qnum q)))) (String.append "/" (show_nat (Pos.to_nat (Qden q))))).
Definition show_list {A} (f : A -> string) (l : list A) : string := String.append "[" (String.append (String.concat " " (map f l)) "]").
Definition ex_printer : printer := mkPrinter (show_list show_q) (atom_repr show_q) (show_list show_nat).

(** An injective stand-in for the hash function: the text read as a number. *)
Fixpoint text_code (l : list ascii) : Z :=
  match l with [] => 0 | c :: r => (Z.of_nat (nat_of_ascii c) + 1 + 257 * text_code r)%Z end.
Definition ex_md5 (s : string) : Z := text_code (list_ascii_of_string s).

Lemma ex_md5_inj x y : ex_md5 x = ex_md5 y -> x = y.
Proof.
  unfold ex_md5. intro H. rewrite <- (string_of_list_ascii_of_string x), <- (string_of_list_ascii_of_string y). f_equal.
  revert H. generalize (list_ascii_of_string y). generalize (list_ascii_of_string x). clear x y.
  assert (forall c, (0 <= Z.of_nat (nat_of_ascii c) < 256)%Z) as Hc by (intro c; pose proof (nat_ascii_bounded c); lia).
  assert (forall l, (0 <= text_code l)%Z) as Hp by (induction l; cbn [text_code]; [lia|specialize (Hc a); lia]).
  induction l as [|c l IH]; intros [|d m]; cbn [text_code]; intro H; auto.
  - specialize (Hc d). specialize (Hp m). lia.
  - specialize (Hc c). specialize (Hp l). lia.
  - assert (Z.of_nat (nat_of_ascii c) = Z.of_nat (nat_of_ascii d) /\ text_code l = text_code m) as [E1 E2].
    { pose proof (Hc c). pose proof (Hc d). lia. }
    apply Nat2Z.inj in E1. rewrite (IH m E2), <- (ascii_nat_embedding c), <- (ascii_nat_embedding d), E1. reflexivity.
Qed.

(** The chain of five sites built again, with the next atom the program creates. *)
Definition next_atom : atom := atom_new 1 (Some "A") (VNum (1#5)) VNone (VNum 1) [].
Definition heavy_atom : atom := atom_new 0 (Some "A") (VNum (1#5)) VNone (VNum 2) [].
Definition chain_of (a : atom) : lattice :=
  fst (build brute dist_argsort [1]%Q (new_lattice (run_calls brute ex_chain [CAddAtom (Some [0]%Q) a false 1])) (ASize [4]%Q) false None true None None None).

Definition chain_again : lattice := Eval vm_compute in chain_of next_atom.
Definition heavy_chain : lattice := Eval vm_compute in chain_of heavy_atom.

(** Checking texts by computation. *)
Definition plainb (s : string) : bool :=
  negb (String.eqb s "") && forallb (fun c => negb (Ascii.eqb c semicolon) && negb (Ascii.eqb c newline)) (list_ascii_of_string s).
Lemma plainb_ok l : forallb plainb l = true -> Forall plain l.
Proof.
  rewrite forallb_forall. intro H. apply Forall_forall. intros s Hs. specialize (H s Hs). unfold plainb in H.
  apply andb_prop in H. destruct H as [H1 H2]. rewrite forallb_forall in H2. split; [|split].
  - intros ->. discriminate.
  - intro E. specialize (H2 _ E). discriminate.
  - intro E. specialize (H2 _ E). discriminate.
Qed.

(** What an atom prints: parameters that are None, empty or zero are left out, others are printed. *)
Definition left_out (v : pyval) : Prop := v = VNone \/ v = VStr "" \/ exists q, v = VNum q /\ (q == 0)%Q.

Lemma string_app_assoc a b c : String.append (String.append a b) c = String.append a (String.append b c).
Proof. induction a as [|x a IH]; cbn; congruence. Qed.

Theorem C80_printed_parameters :
  forall show_num i name w k v l l',
    (left_out v -> k <> "index" ->
       atom_repr show_num (mkAtom i name w (l ++ (k, v) :: l')) = atom_repr show_num (mkAtom i name w (l ++ l'))) /\
    (~ left_out v -> k <> "index" ->
       atom_repr show_num (mkAtom i name w [(k, v)]) =
         String.append "Atom(" (String.append name (String.append ", " (String.append k (String.append "=" (String.append (show_val show_num v)
           (String.append ", " (String.append (show_nat i) ")")))))))).
Proof.
  intros show_num i name w k v l l'.
  assert (truthy v = true <-> ~ left_out v) as Ht.
  { unfold left_out. destruct v as [|x|q]; cbn.
    - split; [discriminate|]. intro H. exfalso. apply H. auto.
    - rewrite negb_true_iff. destruct (String.eqb_spec x ""%string) as [->|Hx]; split; try congruence; try discriminate.
      + intro H. exfalso. apply H. auto.
      + intros _ [H|[H|[q [H _]]]]; congruence.
    - rewrite negb_true_iff. split.
      + intros H [E|[E|[q' [E Hq]]]]; try discriminate. injection E as <-. apply Qeq_bool_iff in Hq. congruence.
      + intro H. destruct (Qeq_bool q 0) eqn:E; auto. exfalso. apply H. right. right. exists q. split; auto. apply Qeq_bool_iff. auto. }
  split; intros Hv Hk.
  - assert (truthy v = false) as E by (destruct (truthy v); auto; exfalso; apply (proj1 Ht); auto).
    unfold atom_repr. cbn [a_params a_name a_index].
    assert (filter (fun kv : string * pyval => truthy (snd kv)) (l ++ (k, v) :: l') = filter (fun kv => truthy (snd kv)) (l ++ l')) as ->
      by (rewrite !filter_app; cbn [filter snd]; rewrite E; reflexivity).
    assert (dict_get (l ++ (k, v) :: l') "index" = dict_get (l ++ l') "index") as ->; [|reflexivity].
    clear - Hk. induction l as [|[k' v'] l IH]; cbn [app dict_get].
    + destruct (String.eqb_spec "index"%string k); congruence.
    + destruct (String.eqb "index" k'); auto.
  - apply Ht in Hv. unfold atom_repr. cbn [a_params a_name a_index filter snd map fst dict_get]. rewrite Hv.
    destruct (String.eqb_spec "index"%string k); [congruence|]. cbn [map fst snd String.concat].
    destruct (String.eqb_spec (String.append k (String.append "=" (show_val show_num v))) ""%string) as [E|_]; [destruct k; discriminate|].
    rewrite !string_app_assoc. reflexivity.
Qed.

Example C80_printed_parameters_example :
  left_out (VNum 0) /\ ~ left_out (VNum (1#5)) /\
  atom_repr show_q (mkAtom 3 "A" (VNum 1) [("charge", VNum 0); ("radius", VNum (1#5))]%string) = "Atom(A, radius=1/5, 3)"%string.
Proof.
  split; [right; right; exists 0%Q; split; reflexivity|]. split; [|vm_compute; reflexivity].
  intros [H|[H|[q [H E]]]]; try discriminate. injection H as <-. discriminate.
Qed.

Example C80_example :
  let again := chain_again in
  lattice_dumps ex_printer show_q chain5 = Some (String.concat (String newline EmptyString)
    ["vectors:       [1/1]"; "atoms:         Atom(A, radius=1/5, 0)"; "positions:     [0/1]"; "connections:   [1]"; "shape:         4/1"]%string) /\
  lt_shape chain5 = Some [4]%Q /\ lt_shape again = Some [4]%Q /\
  st_connections (lt_structure chain5) = Some [[1]] /\ st_connections (lt_structure again) = Some [[1]] /\
  prints_plain ex_printer (lt_structure chain5) /\ prints_plain ex_printer (lt_structure again) /\
  shape_plain show_q chain5 /\ shape_plain show_q again /\
  nth_error (st_atoms (lt_structure chain5)) 0 = Some (ex_atom "A") /\ nth_error (st_atoms (lt_structure again)) 0 = Some next_atom /\
  dict_get (a_params (ex_atom "A")) "index" = None /\
  lattice_eq ex_printer show_q ex_md5 chain5 chain5 = Some true /\
  lattice_eq ex_printer show_q ex_md5 chain5 again = Some false.
Proof.
  cbv zeta. split; [vm_compute; reflexivity|]. repeat (split; [reflexivity|]).
  split; [repeat split; apply plainb_ok; vm_compute; reflexivity|]. split; [repeat split; apply plainb_ok; vm_compute; reflexivity|].
  split; [apply plainb_ok; vm_compute; reflexivity|]. split; [apply plainb_ok; vm_compute; reflexivity|].
  repeat (split; [reflexivity|]). split; vm_compute; reflexivity.
Qed.

(** "Equal lattices have the same sites, links and weights" is false. *)
Theorem C80_same_sites_refuted :
  exists l m h,
    lattice_eq ex_printer show_q ex_md5 l m = Some true /\ lattice_eq ex_printer show_q ex_md5 l h = Some true /\
    option_map (fun d => neighbor_pairs d true) (lt_data l) <> option_map (fun d => neighbor_pairs d true) (lt_data m) /\
    map a_weight (st_atoms (lt_structure l)) <> map a_weight (st_atoms (lt_structure h)).
Proof.
  exists chain5, ring5, heavy_chain. split; [vm_compute; reflexivity|]. split; [vm_compute; reflexivity|]. split; vm_compute; discriminate.
Qed.

(** "A lattice made twice in the same way equals itself" is false. *)
Theorem C80_made_twice_refuted :
  exists a b,
    a_name a = a_name b /\ a_weight a = a_weight b /\ a_params a = a_params b /\
    lattice_eq ex_printer show_q ex_md5 (chain_of a) (chain_of b) = Some false.
Proof. exists (ex_atom "A"), next_atom. repeat (split; [reflexivity|]). vm_compute. reflexivity. Qed.

(** A parameter called index takes the place of the running index, printed as it is, None and zero too. *)
Theorem C80_printed_index :
  forall show_num i name w s q,
    atom_repr show_num (mkAtom i name w [("index", VNone)]%string) = String.append "Atom(" (String.append name ", None)") /\
    (s <> ""%string -> atom_repr show_num (mkAtom i name w [("index", VStr s)]%string) =
       String.append "Atom(" (String.append name (String.append ", index=" (String.append s (String.append ", " (String.append s ")")))))) /\
    ((q == 0)%Q -> atom_repr show_num (mkAtom i name w [("index", VNum q)]%string) =
       String.append "Atom(" (String.append name (String.append ", " (String.append (show_num q) ")")))).
Proof.
  intros show_num i name w s q. split; [|split].
  - reflexivity.
  - intro H. unfold atom_repr. cbn [a_params a_name a_index filter snd map fst dict_get truthy]. destruct (String.eqb_spec s ""%string); [congruence|].
    cbn [negb map fst snd String.concat show_val]. change (String.eqb "index" "index") with true. cbv iota.
    destruct (String.eqb_spec (String.append "index" (String.append "=" s)) ""%string) as [E|_]; [discriminate|].
    rewrite !string_app_assoc. reflexivity.
  - intro H. unfold atom_repr. cbn [a_params a_name a_index filter snd map fst dict_get truthy]. apply Qeq_bool_iff in H. rewrite H.
    reflexivity.
Qed.

Example C80_printed_index_example :
  atom_repr show_q (mkAtom 3 "A" (VNum 1) [("index", VNone)]%string) = "Atom(A, None)"%string /\
  atom_repr show_q (mkAtom 3 "A" (VNum 1) [("index", VStr "x")]%string) = "Atom(A, index=x, x)"%string.
Proof. split; vm_compute; reflexivity. Qed.

Print Assumptions C38_equal_iff_look_alike.
Print Assumptions C80_equal_iff_look_alike.
Print Assumptions C80_not_built.
Print Assumptions C80_sites_do_not_count.
Print Assumptions C80_dictionary.
Print Assumptions C80_atoms_by_instance.
Print Assumptions C80_own_atoms_differ.
Print Assumptions C80_same_sites_refuted.
Print Assumptions C80_made_twice_refuted.
Print Assumptions C80_printed_parameters.
Print Assumptions C80_bad_dictionaries.
Print Assumptions C80_printed_index.
