(** * Property C103 (lattpy/structure.py, lattice.py: constructors with keyword arguments) *)
From Coq Require Import String List ZArith QArith Qabs Qround Bool Arith Lia Lqa.
From Verif Require Import Np NpFacts LinAlg LinFacts SpecUtils UtilsModel SpecBasis AtomModel BasisModel BasisProofs
  PropBasis SpatialModel SpecSpatial SpecStructure StructureModel KDBrute StructureFacts
  AnalyzeProofs StructureProofs PropStructure PropAnalyze ShapeModel DataModel PropData LatticeModel PresetModel PropPreset ConstructModel.
Import ListNotations.
Open Scope nat_scope.
Open Scope list_scope.

(** ** Specification *)

(** The atoms meant by a reference: by number (negative ones count from the end), by name, or the first equal atom. *)
Definition means (atoms : list atom) (r : aref) (x : nat) : Prop :=
  match r with
  | RIndex i => x < length atoms /\ (i = Z.of_nat x \/ i = Z.of_nat x - Z.of_nat (length atoms))%Z
  | RName name => named atoms name x
  | RAtom a => (exists y, nth_error atoms x = Some y /\ atom_eq y a = true) /\ forall j y, j < x -> nth_error atoms j = Some y -> atom_eq y a = false
  end.

(** References that are not an error.  Unknown names are none. *)
Definition accepted (atoms : list atom) (r : aref) : Prop :=
  match r with
  | RIndex i => (- Z.of_nat (length atoms) <= i < Z.of_nat (length atoms))%Z
  | RName _ => True
  | RAtom a => exists x, In x atoms /\ atom_eq x a = true
  end.

(** An entry of the dictionary sets the number for two atoms. *)
Definition relates (atoms : list atom) (e : (aref * aref) * nat) (x y : nat) : Prop :=
  (means atoms (fst (fst e)) x /\ means atoms (snd (fst e)) y) \/ (means atoms (fst (fst e)) y /\ means atoms (snd (fst e)) x).

(** The table of connections: the last entry for a pair counts, zero without any. *)
Definition table_of (atoms : list atom) (l : list ((aref * aref) * nat)) (c : list (list nat)) : Prop :=
  length c = length atoms /\ (forall row, In row c -> length row = length atoms) /\
  forall x y, x < length atoms -> y < length atoms ->
    (forall l1 e l2, l = l1 ++ e :: l2 -> relates atoms e x y -> (forall e', In e' l2 -> ~ relates atoms e' x y) -> nth y (nth x c []) 0 = snd e) /\
    ((forall e, In e l -> ~ relates atoms e x y) -> nth y (nth x c []) 0 = 0).

(** ** Proofs *)

Lemma py_index_iff n i x : py_index n i = Some x <-> x < n /\ (i = Z.of_nat x \/ i = Z.of_nat x - Z.of_nat n)%Z.
Proof.
  unfold py_index. destruct ((0 <=? i)%Z && (i <? Z.of_nat n)%Z) eqn:E.
  - apply andb_true_iff in E. rewrite Z.leb_le, Z.ltb_lt in E. split; [intro H; injection H as <-; lia|]. intros [Hx [Hi|Hi]]; [f_equal; lia|lia].
  - apply andb_false_iff in E. rewrite Z.leb_gt, Z.ltb_ge in E. destruct ((- Z.of_nat n <=? i)%Z && (i <? 0)%Z) eqn:E'.
    + apply andb_true_iff in E'. rewrite Z.leb_le, Z.ltb_lt in E'. split; [intro H; injection H as <-; lia|]. intros [Hx [Hi|Hi]]; [lia|f_equal; lia].
    + apply andb_false_iff in E'. rewrite Z.leb_gt, Z.ltb_ge in E'. split; [discriminate|lia].
Qed.

Lemma means_lt atoms r x : means atoms r x -> x < length atoms.
Proof.
  destruct r as [i|name|a]; cbn; [tauto| |].
  - intros [y [H _]]. apply nth_error_Some. congruence.
  - intros [[y [H _]] _]. apply nth_error_Some. congruence.
Qed.

Lemma alpha_means s r : accepted (st_atoms s) r -> exists al, get_alpha s r = Ok al /\
  (forall z, In z (alpha_list al) -> py_index (length (st_atoms s)) z <> None) /\
  forall x, (exists z, In z (alpha_list al) /\ py_index (length (st_atoms s)) z = Some x) <-> means (st_atoms s) r x.
Proof.
  set (l := st_atoms s). intro H. destruct r as [i|name|a]; cbn [accepted means] in *.
  - exists (One i). split; [reflexivity|]. cbn [alpha_list]. split.
    + intros z [<-|[]]. destruct (py_index (length l) i) eqn:E; [discriminate|]. exfalso.
      destruct (Z_lt_le_dec i 0) as [Hi|Hi];
        [assert (py_index (length l) i = Some (Z.to_nat (i + Z.of_nat (length l)))) as E' by (apply py_index_iff; lia)
        |assert (py_index (length l) i = Some (Z.to_nat i)) as E' by (apply py_index_iff; lia)]; congruence.
    + intro x. rewrite <- py_index_iff. split; [intros [z [[<-|[]] E]]; exact E|]. intro E. exists i. split; [left; reflexivity|exact E].
  - destruct (C27_references s name (ex_atom "A") 0%Z) as [[ks [E [_ Hk]]] _]. fold l in Hk. exists (Many ks). split; [exact E|]. cbn [alpha_list].
    assert (forall k, named l name k -> py_index (length l) (Z.of_nat k) = Some k) as Hp.
    { intros k [y [Hy _]]. apply py_index_iff. split; [apply nth_error_Some; congruence|left; reflexivity]. }
    split.
    + intros z Hz. apply Hk in Hz. destruct Hz as [k [-> Hn]]. rewrite (Hp k Hn). discriminate.
    + intro x. split.
      * intros [z [Hz Hx]]. apply Hk in Hz. destruct Hz as [k [-> Hn]]. rewrite (Hp k Hn) in Hx. congruence.
      * intro Hn. exists (Z.of_nat x). split; [apply Hk; eauto|apply Hp; exact Hn].
  - destruct (C27_references s "" a 0%Z) as [_ [Ha [Hv _]]]. fold l in Ha, Hv.
    destruct (get_alpha s (RAtom a)) as [al|e] eqn:E.
    + cbn in E. destruct (list_index 0 (st_atoms s) a) as [i|] eqn:Ei; [|discriminate]. injection E as <-.
      assert (exists k, i = Z.of_nat k) as [k ->].
      { clear -Ei. assert (forall l z, (0 <= z)%Z -> list_index z l a = Some i -> (0 <= i)%Z) as H.
        { induction l as [|y l IH]; intros z Hz H; cbn in H; [discriminate|]. destruct (atom_eq y a); [injection H as <-; exact Hz|]. apply (IH (z + 1)%Z); [lia|exact H]. }
        exists (Z.to_nat i). specialize (H _ 0%Z ltac:(lia) Ei). lia. }
      pose proof (proj1 (Ha k) eq_refl) as Hk.
      assert (k < length l) as Lk by (destruct Hk as [[y [Hy _]] _]; apply nth_error_Some; congruence).
      exists (One (Z.of_nat k)). split; [reflexivity|]. cbn [alpha_list].
      assert (py_index (length l) (Z.of_nat k) = Some k) as Hp by (apply py_index_iff; auto).
      split; [intros z [<-|[]]; rewrite Hp; discriminate|]. intro x. split.
      * intros [z [[<-|[]] Hx]]. rewrite Hp in Hx. injection Hx as <-. exact Hk.
      * intro Hx. apply Ha in Hx. injection Hx as Hx. exists (Z.of_nat k). split; [left; reflexivity|]. rewrite Hp. f_equal. lia.
    + exfalso. assert (e = ValueError) as -> by (cbn in E; destruct (list_index 0 (st_atoms s) a); congruence).
      destruct H as [x [Hx Hxa]]. rewrite (proj1 Hv eq_refl x Hx) in Hxa. discriminate.
Qed.

(** The object before it is analysed. *)
Definition staged (b : basis) (atoms : list (option (list Q) * atom)) (c : option (list (list nat))) : structure :=
  mkStructure b (map snd atoms) (map (fun p => meant_position (b_dim b) (fst p)) atoms) false c None.

Lemma table_sym atoms l c : table_of atoms l c -> (forall x y, x < length atoms -> y < length atoms -> nth y (nth x c []) 0 = nth x (nth y c []) 0) -> sym_table (length atoms) c.
Proof. intros [H1 [H2 _]] H. apply sym_table_intro; auto. Qed.

Lemma relates_sym atoms e x y : relates atoms e x y -> relates atoms e y x.
Proof. unfold relates. tauto. Qed.

Lemma pair_step query b atoms c e : sym_table (length atoms) c ->
  accepted (map snd atoms) (fst (fst e)) -> accepted (map snd atoms) (snd (fst e)) ->
  exists c', add_connection query (staged b atoms (Some c)) (fst (fst e)) (snd (fst e)) (snd e) false = (staged b atoms (Some c'), Ok tt) /\
    sym_table (length atoms) c' /\
    forall x y, x < length atoms -> y < length atoms ->
      (relates (map snd atoms) e x y -> nth y (nth x c' []) 0 = snd e) /\ (~ relates (map snd atoms) e x y -> nth y (nth x c' []) 0 = nth y (nth x c []) 0).
Proof.
  intros Hc H1 H2. set (s := staged b atoms (Some c)). change (map snd atoms) with (st_atoms s) in *.
  destruct (alpha_means s _ H1) as [l1 [E1 [V1 M1]]]. destruct (alpha_means s _ H2) as [l2 [E2 [V2 M2]]].
  assert (length (st_atoms s) = length atoms) as Ln by (cbn; apply map_length). rewrite Ln in *.
  unfold add_connection. rewrite E1, E2. cbn [s staged st_connections st_basis st_atoms st_positions st_frozen st_analysis]. fold s.
  destruct (set_entries_spec (length atoms) (list_prod (alpha_list l1) (alpha_list l2)) (snd e) c Hc) as [Hok Hval].
  pose proof (set_entries_sym (length atoms) (list_prod (alpha_list l1) (alpha_list l2)) (snd e) c Hc) as Hsym.
  destruct (set_entries c (list_prod (alpha_list l1) (alpha_list l2)) (snd e)) as [c' ok] eqn:Es. cbn [fst snd] in *.
  assert (ok = true) as ->. { apply Hok. intros i j Hin. apply in_prod_iff in Hin. split; [apply V1|apply V2]; tauto. }
  cbn [negb]. exists c'. split; [reflexivity|]. split; [exact Hsym|]. intros x y Hx Hy. destruct (Hval eq_refl x y Hx Hy) as [G1 G2].
  change (st_atoms s) with (map snd atoms) in M1, M2. unfold relates. rewrite <- !M1, <- !M2. split.
  - intros [[[z1 [I1 P1]] [z2 [I2 P2]]]|[[z1 [I1 P1]] [z2 [I2 P2]]]]; apply G1; exists z1, z2; (split; [apply in_prod_iff; auto|auto]).
  - intro Hno. apply G2. intros [i [j [Hin Hd]]]. apply Hno. apply in_prod_iff in Hin. destruct Hin as [I1 I2].
    destruct Hd as [[P1 P2]|[P1 P2]]; [left|right]; split; eexists; eauto.
Qed.

(** Induction on the processed entries. *)
Lemma pairs_run query b atoms todo : forall done c, sym_table (length atoms) c -> table_of (map snd atoms) done c ->
  (forall e, In e todo -> accepted (map snd atoms) (fst (fst e)) /\ accepted (map snd atoms) (snd (fst e))) ->
  exists c', add_pairs query (staged b atoms (Some c)) todo = (staged b atoms (Some c'), Ok tt) /\
    sym_table (length atoms) c' /\ table_of (map snd atoms) (done ++ todo) c'.
Proof.
  induction todo as [|e todo IH]; intros done c Hc Ht Ha.
  - exists c. rewrite app_nil_r. auto.
  - destruct (Ha e (or_introl eq_refl)) as [A1 A2]. destruct (pair_step query b atoms c e Hc A1 A2) as [c1 [E [Hc1 Hv]]].
    destruct (IH (done ++ [e]) c1 Hc1) as [c' [E' [Hc' Ht']]].
    + destruct Ht as [_ [_ Ht]]. split; [rewrite map_length; apply Hc1|]. split; [rewrite map_length; apply Hc1|].
      intros x y Hx Hy. specialize (Ht x y Hx Hy). rewrite map_length in Hx, Hy. destruct (Hv x y Hx Hy) as [V1 V2]. split.
      * intros l1 e1 l2 El Hr Hn. destruct (exists_last (l:=e1 :: l2)) as [m [z Hm]]; [discriminate|].
        assert (done ++ [e] = (l1 ++ m) ++ [z]) as El' by (rewrite <- app_assoc, <- Hm; exact El).
        apply app_inj_tail in El'. destruct El' as [Ed <-]. destruct m as [|m0 m].
        -- cbn in Hm. injection Hm as -> ->. apply V1. exact Hr.
        -- cbn in Hm. injection Hm as <- ->.
           assert (~ relates (map snd atoms) e x y) as Hne by (apply Hn; apply in_app_iff; right; left; reflexivity).
           rewrite (V2 Hne). apply (proj1 Ht l1 e1 m); auto. intros e' He'. apply Hn. apply in_app_iff. left. exact He'.
      * intro Hn. rewrite V2 by (apply Hn; apply in_app_iff; right; left; reflexivity). apply (proj2 Ht). intros e' He'. apply Hn. apply in_app_iff. left. exact He'.
    + intros e' He'. apply Ha. right. exact He'.
    + exists c'. rewrite <- app_assoc in Ht'. split; [|auto]. destruct e as [[a1 a2] num]. cbn [add_pairs]. cbn [fst snd] in E. rewrite E. exact E'.
Qed.

Lemma zero_table_sym n : sym_table n (repeat (repeat 0 n) n).
Proof.
  apply sym_table_intro; [apply repeat_length|intros row Hr; apply repeat_spec in Hr; subst row; apply repeat_length|].
  intros i j Hi Hj. rewrite !nth_repeat_row. destruct (i <? n), (j <? n); reflexivity.
Qed.

Lemma zero_table_of atoms : table_of atoms [] (repeat (repeat 0 (length atoms)) (length atoms)).
Proof.
  destruct (zero_table_sym (length atoms)) as [H1 [H2 _]]. split; [exact H1|]. split; [exact H2|]. intros x y Hx Hy. split.
  - intros l1 e l2 E. destruct l1; discriminate.
  - intros _. rewrite nth_repeat_row. destruct (_ && _); reflexivity.
Qed.

(** The positions have the right length and are different. *)
Definition good_atoms (d : nat) (atoms : list (option (list Q) * atom)) : Prop :=
  (forall p, In p atoms -> length (meant_position d (fst p)) = d) /\ all_different (map (fun p => meant_position d (fst p)) atoms).

Lemma atoms_run query b atoms : good_atoms (b_dim b) atoms -> add_atoms query (new_structure b) atoms =
  (staged b atoms (match atoms with [] => None | _ => Some (repeat (repeat 0 (length atoms)) (length atoms)) end), Ok tt).
Proof.
  intros [Hl Hd]. destruct (add_atoms_run query atoms (new_structure b) eq_refl) as [H _].
  - intros i j r r' _ Hi. destruct i; discriminate.
  - intros r Hr. apply in_map_iff in Hr. destruct Hr as [p [<- Hp]]. apply Hl. exact Hp.
  - destruct (H Hd) as [c [E Hc]]. rewrite E. unfold staged. cbn [new_structure st_basis st_atoms st_positions st_analysis app]. f_equal. f_equal.
    destruct atoms as [|p atoms]; [cbn in E; unfold new_structure in E; injection E; auto|]. rewrite Hc by discriminate. cbn [new_structure st_atoms app]. rewrite map_length. reflexivity.
Qed.

(** ** Theorems *)

(** Atoms only: they are stored in the given order; the first wrong position decides the error. *)
Theorem C103_atoms :
  forall query b atoms,
    let d := b_dim b in
    (good_atoms d atoms ->
     exists s, construct query b (Some atoms) None = Ok s /\ st_basis s = b /\ st_atoms s = map snd atoms /\
       st_positions s = map (fun p => meant_position d (fst p)) atoms /\ st_analysis s = None /\
       (st_connections s = None <-> atoms = []) /\
       (forall c i j, st_connections s = Some c -> nth j (nth i c []) 0 = 0)) /\
    (forall good pos a rest cons, atoms = good ++ (pos, a) :: rest -> good_atoms d good ->
       (length (meant_position d pos) <> d -> construct query b (Some atoms) cons = Raise ValueError) /\
       (length (meant_position d pos) = d -> (exists p, In p good /\ same (meant_position d (fst p)) (meant_position d pos)) ->
        construct query b (Some atoms) cons = Raise SiteOccupiedError)).
Proof.
  intros query b atoms d. split.
  - intro H. unfold construct. rewrite (atoms_run query b atoms H). eexists. split; [reflexivity|]. cbn [staged st_basis st_atoms st_positions st_analysis st_connections].
    do 4 (split; [reflexivity|]). split; [destruct atoms; split; intro; (reflexivity || discriminate)|]. intros c i j E. destruct atoms as [|p atoms]; [discriminate|]. injection E as <-.
    change (nth j (nth i (repeat (repeat 0 (length (p :: atoms))) (length (p :: atoms))) []) 0 = 0). rewrite nth_repeat_row. destruct (_ && _); reflexivity.
  - intros good pos a rest cons E Hg.
    assert (forall s, add_atoms query s (good ++ (pos, a) :: rest) = match add_atoms query s good with (s', Ok _) => add_atoms query s' ((pos, a) :: rest) | (s', Raise e) => (s', Raise e) end) as Happ.
    { clear. induction good as [|[p x] good IH]; intro s; [reflexivity|]. cbn [app add_atoms]. destruct (add_atom query s p x false 0) as [s' [[]|e]]; auto. }
    unfold construct. rewrite E, Happ, (atoms_run query b good Hg). cbn [add_atoms].
    set (c := match good with [] => None | _ => _ end). split.
    + intro H. assert (add_atom query (staged b good c) pos a false 0 = (staged b good c, Raise ValueError)) as ->; [|reflexivity].
      unfold add_atom. cbn [staged st_basis]. apply Nat.eqb_neq in H. change d with (b_dim b) in H.
      destruct pos as [p|]; cbn [meant_position] in H; [|change (repeat 0%Q (b_dim b)) with (vzero (b_dim b)) in H]; unfold vec in *; rewrite H; reflexivity.
    + intros H [p [Hp Hs]]. rewrite (add_atom_step query (staged b good c) pos a eq_refl H). cbn [staged st_basis st_positions].
      fold d. destruct (existsb (veqb (meant_position d pos)) (map (fun p => meant_position d (fst p)) good)) eqn:Ex; [reflexivity|]. exfalso.
      apply not_true_iff_false in Ex. apply Ex. apply existsb_exists. exists (meant_position d (fst p)). split; [apply in_map_iff; eauto|].
      apply veqb_veq. apply same_veq. destruct Hs as [S1 S2]. split; [auto|]. intro i. symmetry. apply S2.
Qed.

(** Atoms and pairs: the object is the analysed one with the given atoms and the table of the pairs. *)
Theorem C103_pairs :
  forall query b atoms l,
    let names := map snd atoms in
    good_atoms (b_dim b) atoms -> atoms <> [] ->
    (forall e, In e l -> accepted names (fst (fst e)) /\ accepted names (snd (fst e))) ->
    exists c, table_of names l c /\ in_step (staged b atoms (Some c)) /\
      construct query b (Some atoms) (Some (ConsPairs l)) = finished (analyze query (staged b atoms (Some c))).
Proof.
  intros query b atoms l names Hg Hne Ha. unfold construct. rewrite (atoms_run query b atoms Hg).
  replace (match atoms with [] => None | _ => Some (repeat (repeat 0 (length atoms)) (length atoms)) end) with (Some (repeat (repeat 0 (length atoms)) (length atoms))) by (destruct atoms; [congruence|reflexivity]).
  destruct (pairs_run query b atoms l [] (repeat (repeat 0 (length atoms)) (length atoms)) (zero_table_sym _)) as [c [E [Hs Ht]]]; [|exact Ha|].
  { rewrite <- (map_length snd atoms). apply zero_table_of. }
  exists c. split; [exact Ht|]. split; [|rewrite E; reflexivity].
  destruct Hg as [Hl Hd]. split; [cbn; rewrite !map_length; reflexivity|]. cbn [staged st_basis st_positions st_connections st_atoms].
  split; [intros r Hr; apply in_map_iff in Hr; destruct Hr as [p [<- Hp]]; apply Hl; exact Hp|]. split; [exact Hd|]. rewrite map_length. exact Hs.
Qed.

(** ** Which table *)

Lemma In_dec_exists {A} (P : A -> Prop) (l : list A) : (forall a, {P a} + {~ P a}) -> {exists a, In a l /\ P a} + {~ exists a, In a l /\ P a}.
Proof.
  intro H. destruct (Exists_dec P l H) as [E|E]; [left; apply Exists_exists; exact E|right; intro F; apply E; apply Exists_exists; exact F].
Qed.

Lemma means_dec atoms r x : accepted atoms r -> means atoms r x \/ ~ means atoms r x.
Proof.
  intro H. set (s := mkStructure (mkBasis [] []) atoms [] false None None). change atoms with (st_atoms s) in H.
  destruct (alpha_means s r H) as [al [_ [_ M]]]. change (st_atoms s) with atoms in M. rewrite <- M.
  destruct (In_dec_exists (fun z => py_index (length atoms) z = Some x) (alpha_list al)) as [E|E]; [|left; exact E|right; exact E].
  intro z. destruct (py_index (length atoms) z) as [k|]; [|right; discriminate]. destruct (Nat.eq_dec k x) as [->|Hk]; [left; reflexivity|right; congruence].
Qed.

Definition all_accepted (atoms : list atom) (l : list ((aref * aref) * nat)) : Prop :=
  forall e, In e l -> accepted atoms (fst (fst e)) /\ accepted atoms (snd (fst e)).

Lemma last_related atoms l x y : all_accepted atoms l ->
  (exists l1 e l2, l = l1 ++ e :: l2 /\ relates atoms e x y /\ forall e', In e' l2 -> ~ relates atoms e' x y) \/ (forall e, In e l -> ~ relates atoms e x y).
Proof.
  induction l as [|e l IH]; intro Ha; [right; intros e []|].
  destruct IH as [[l1 [e1 [l2 [-> [Hr Hn]]]]]|IH]; [intros e' He'; apply Ha; right; exact He'|left; exists (e :: l1), e1, l2; auto|].
  destruct (Ha e (or_introl eq_refl)) as [A1 A2].
  assert (relates atoms e x y \/ ~ relates atoms e x y) as [Hr|Hr].
  { unfold relates. destruct (means_dec atoms _ x A1), (means_dec atoms _ y A1), (means_dec atoms _ x A2), (means_dec atoms _ y A2); tauto. }
  - left. exists [], e, l. auto.
  - right. intros e' [<-|He']; auto.
Qed.

Lemma table_ext (atoms : list atom) (c c' : list (list nat)) : length c = length atoms -> length c' = length atoms ->
  (forall row, In row c -> length row = length atoms) -> (forall row, In row c' -> length row = length atoms) ->
  (forall x y, x < length atoms -> y < length atoms -> nth y (nth x c []) 0 = nth y (nth x c' []) 0) -> c = c'.
Proof.
  intros L L' R R' H. apply (list_eq_nth _ _ []); [congruence|]. intros x Hx. rewrite L in Hx.
  assert (length (nth x c []) = length atoms) as Lx by (apply R; apply nth_In; lia). assert (length (nth x c' []) = length atoms) as Lx' by (apply R'; apply nth_In; lia).
  apply (list_eq_nth _ _ 0); [congruence|]. intros y Hy. apply H; lia.
Qed.

Lemma table_unique atoms l c c' : all_accepted atoms l -> table_of atoms l c -> table_of atoms l c' -> c = c'.
Proof.
  intros Ha [L [R H]] [L' [R' H']]. apply (table_ext atoms); auto. intros x y Hx Hy. destruct (H x y Hx Hy) as [H1 H2]. destruct (H' x y Hx Hy) as [H1' H2'].
  destruct (last_related atoms l x y Ha) as [[l1 [e [l2 [E [Hr Hn]]]]]|Hn]; [rewrite (H1 l1 e l2), (H1' l1 e l2); auto|rewrite H2, H2'; auto].
Qed.

(** The pairs may be given in any order as long as entries for the same atoms agree, and each pair either way round. *)
Definition agreeing (atoms : list atom) (l : list ((aref * aref) * nat)) : Prop :=
  forall e e' x y, In e l -> In e' l -> relates atoms e x y -> relates atoms e' x y -> snd e = snd e'.
Definition swapped (e : (aref * aref) * nat) : (aref * aref) * nat := ((snd (fst e), fst (fst e)), snd e).

Theorem C103_order :
  forall query b atoms l l',
    let names := map snd atoms in
    good_atoms (b_dim b) atoms -> atoms <> [] -> all_accepted names l -> agreeing names l ->
    (forall e, In e l' -> In e l \/ In (swapped e) l) -> (forall e, In e l -> In e l' \/ In (swapped e) l') ->
    construct query b (Some atoms) (Some (ConsPairs l')) = construct query b (Some atoms) (Some (ConsPairs l)).
Proof.
  intros query b atoms l l' names Hg Hne Ha Hagree Hl' Hl.
  assert (forall e x y, relates names (swapped e) x y <-> relates names e x y) as Hsw by (intros [[r1 r2] num] x y; unfold relates, swapped; cbn [fst snd]; tauto).
  assert (all_accepted names l') as Ha'.
  { intros e He. destruct (Hl' e He) as [H|H]; [apply Ha; exact H|]. specialize (Ha _ H). cbn [swapped fst snd] in Ha. tauto. }
  destruct (C103_pairs query b atoms l Hg Hne Ha) as [c [Ht [_ E]]]. destruct (C103_pairs query b atoms l' Hg Hne Ha') as [c' [Ht' [_ E']]].
  fold names in Ht, Ht'. assert (c' = c) as ->; [|congruence].
  apply (table_unique names l'); auto. destruct Ht as [L [R H]]. split; [exact L|]. split; [exact R|]. intros x y Hx Hy. destruct (H x y Hx Hy) as [H1 H2]. split.
  - intros l1 e l2 -> Hr _.
    assert (exists e0, In e0 l /\ relates names e0 x y /\ snd e0 = snd e) as [e0 [He0 [Hr0 Es]]].
    { destruct (Hl' e) as [Hin|Hin]; [apply in_app_iff; right; left; reflexivity|exists e; auto|exists (swapped e); split; auto; split; [apply Hsw; exact Hr|reflexivity]]. }
    destruct (last_related names l x y Ha) as [[m1 [e1 [m2 [E1 [Hr1 Hn1]]]]]|Hn]; [|exfalso; apply (Hn e0); auto].
    rewrite (H1 m1 e1 m2 E1 Hr1 Hn1), <- Es. apply (Hagree e1 e0 x y); auto. rewrite E1. apply in_app_iff. right. left. reflexivity.
  - intro Hn. apply H2. intros e He Hr. destruct (Hl e He) as [Hin|Hin]; [apply (Hn e); auto|apply (Hn (swapped e)); auto]. apply Hsw. exact Hr.
Qed.

(** A number stands for all pairs. *)
Theorem C103_number :
  forall query b atoms num l,
    let n := length (atoms : list (option vec * atom)) in
    good_atoms (b_dim b) atoms -> atoms <> [] ->
    (forall e, In e l <-> exists i j, i < n /\ j < n /\ e = ((RIndex (Z.of_nat i), RIndex (Z.of_nat j)), num)) ->
    construct query b (Some atoms) (Some (ConsNumber num)) = construct query b (Some atoms) (Some (ConsPairs l)).
Proof.
  intros query b atoms num l n Hg Hne Hl.
  assert (all_accepted (map snd atoms) l) as Ha.
  { intros e He. apply Hl in He. destruct He as [i [j [Hi [Hj ->]]]]. cbn [fst snd accepted]. rewrite map_length. fold n. lia. }
  destruct (C103_pairs query b atoms l Hg Hne Ha) as [c [Ht [_ E]]]. eapply eq_trans; [|symmetry; exact E].
  unfold construct. rewrite (atoms_run query b atoms Hg).
  match goal with |- context [staged b atoms ?T] => replace T with (Some (repeat (repeat 0 n) n)) by (unfold n; destruct atoms; [congruence|reflexivity]) end.
  unfold add_connections. cbn [staged st_connections st_basis st_atoms st_positions st_frozen st_analysis]. rewrite map_map_const.
  assert (repeat (repeat num n) n = c) as ->; [|reflexivity].
  destruct Ht as [L [R H]]. apply (table_ext (map snd atoms)); auto; rewrite ?map_length; [apply repeat_length|intros row Hr; apply repeat_spec in Hr; subst row; apply repeat_length|].
  intros x y Hx Hy. rewrite map_length in H. destruct (H x y Hx Hy) as [H1 _]. fold n in Hx, Hy. rewrite nth_repeat_row.
  assert ((x <? n) && (y <? n) = true) as -> by (apply andb_true_iff; split; apply Nat.ltb_lt; assumption).
  assert (In ((RIndex (Z.of_nat x), RIndex (Z.of_nat y)), num) l) as Hin by (apply Hl; eauto).
  destruct (last_related (map snd atoms) l x y Ha) as [[l1 [e [l2 [E1 [Hr Hn]]]]]|Hn].
  - rewrite (H1 l1 e l2 E1 Hr Hn). assert (In e l) as He by (rewrite E1; apply in_app_iff; right; left; reflexivity). apply Hl in He. destruct He as [i [j [_ [_ ->]]]]. reflexivity.
  - exfalso. apply (Hn _ Hin). left. cbn [fst snd means]. rewrite map_length. fold n. lia.
Qed.

(** Misspelt names are not an error: the entry is ignored. *)
Theorem C103_unknown_name :
  forall query b atoms l1 l2 name r num,
    (forall k, ~ named (map snd atoms) name k) -> accepted (map snd atoms) r -> 
    construct query b (Some atoms) (Some (ConsPairs (l1 ++ ((RName name, r), num) :: l2))) = construct query b (Some atoms) (Some (ConsPairs (l1 ++ l2))) /\
    construct query b (Some atoms) (Some (ConsPairs (l1 ++ ((r, RName name), num) :: l2))) = construct query b (Some atoms) (Some (ConsPairs (l1 ++ l2))).
Proof.
  intros query b atoms l1 l2 name r num Hno Hr. unfold construct.
  assert (forall l s s' x, add_atoms query s l = (s', Ok x) -> st_atoms s' = st_atoms s ++ map snd l) as Hat.
  { induction l as [|[p a] l IH]; intros s s' x H; cbn [add_atoms] in H; [injection H as <-; cbn; rewrite app_nil_r; reflexivity|].
    destruct (add_atom query s p a false 0) as [s1 [u|e]] eqn:E; [|discriminate]. rewrite (IH s1 s' x H). cbn [map snd].
    assert (st_atoms s1 = st_atoms s ++ [a]) as ->; [|rewrite <- app_assoc; reflexivity].
    unfold add_atom in E. cbv zeta in E. destruct (negb _); [discriminate|]. destruct (existsb _ _); [discriminate|]. destruct (st_frozen s); [discriminate|]. cbn in E. injection E as <- _. reflexivity. }
  destruct (add_atoms query (new_structure b) atoms) as [s [u|e]] eqn:Es; [|auto].
  assert (st_atoms s = map snd atoms) as Ea by (rewrite (Hat _ _ _ _ Es); reflexivity). clear Hat Es.
  assert (forall l s, (exists s' e, add_pairs query s l = (s', Raise e)) \/ exists s' u, add_pairs query s l = (s', Ok u) /\ st_atoms s' = st_atoms s) as Hp.
  { induction l as [|[[a1 a2] k] l IH]; intro s0; [right; exists s0, tt; auto|]. cbn [add_pairs].
    destruct (add_connection query s0 a1 a2 k false) as [s1 [v|e]] eqn:E; [|left; eauto].
    assert (st_atoms s1 = st_atoms s0) as E1.
    { unfold add_connection in E. destruct (get_alpha s0 a1); [|discriminate]. destruct (get_alpha s0 a2); [|discriminate]. destruct (st_connections s0).
      - destruct (set_entries _ _ _) as [c ok]. destruct ok; cbn in E; [|discriminate]. injection E as <- _. reflexivity.
      - destruct (list_prod _ _); [|discriminate]. injection E as <- _. reflexivity. }
    destruct (IH s1) as [H|[s' [u' [H H']]]]; [left; exact H|right; exists s', u'; split; [exact H|congruence]]. }
  assert (forall l' s, add_pairs query s (l1 ++ l') = match add_pairs query s l1 with (s', Ok _) => add_pairs query s' l' | (s', Raise e) => (s', Raise e) end) as Happ.
  { clear. induction l1 as [|[[a1 a2] k] l1 IH]; intros l' s; [reflexivity|]. cbn [app add_pairs]. destruct (add_connection query s a1 a2 k false) as [s1 [v|e]]; auto. }
  rewrite !Happ. destruct (Hp l1 s) as [[s' [e ->]]|[s' [u' [-> Ea']]]]; [auto|]. cbn [add_pairs].
  assert (get_alpha s' (RName name) = Ok (Many [])) as En.
  { destruct (C27_references s' name (ex_atom "A") 0%Z) as [[ks [E [_ Hk]]] _]. rewrite E. destruct ks as [|z ks]; [reflexivity|]. exfalso.
    destruct (proj1 (Hk z) (or_introl eq_refl)) as [k [_ Hn]]. apply (Hno k). rewrite <- Ea, <- Ea'. exact Hn. }
  rewrite <- Ea, <- Ea' in Hr. destruct (alpha_means s' r Hr) as [al [Er _]].
  assert (list_prod (alpha_list al) (@nil Z) = []) as Enil by (induction (alpha_list al) as [|z m IH]; [reflexivity|exact IH]).
  unfold add_connection. rewrite En, Er. cbn [alpha_list list_prod]. rewrite Enil. cbn [set_entries negb].
  destruct (st_connections s') as [c|] eqn:Ec; [|auto].
  assert (mkStructure (st_basis s') (st_atoms s') (st_positions s') (st_frozen s') (Some c) (st_analysis s') = s') as -> by (rewrite <- Ec; destruct s'; reflexivity). auto.
Qed.

(** The first entry that is an error decides: a foreign atom, or a number out of range (beside a reference that means
    something). *)
Definition outside (atoms : list atom) (r : aref) : Prop :=
  exists i, r = RIndex i /\ (i < - Z.of_nat (length atoms) \/ Z.of_nat (length atoms) <= i)%Z.

Theorem C103_bad_pairs :
  forall query b atoms l e rest,
    let names := map snd atoms in
    good_atoms (b_dim b) atoms -> atoms <> [] -> all_accepted names l ->
    let r1 := fst (fst e) in
    let r2 := snd (fst e) in
    let foreign r := exists a, r = RAtom a /\ forall x, In x names -> atom_eq x a = false in
    let present r := outside names r \/ exists x, means names r x in
    (foreign r1 \/ foreign r2 -> construct query b (Some atoms) (Some (ConsPairs (l ++ e :: rest))) = Raise ValueError) /\
    ((outside names r1 /\ present r2) \/ (present r1 /\ outside names r2) -> construct query b (Some atoms) (Some (ConsPairs (l ++ e :: rest))) = Raise IndexError).
Proof.
  intros query b atoms l e rest names Hg Hne Ha r1 r2 foreign present. unfold construct. rewrite (atoms_run query b atoms Hg).
  match goal with |- context [staged b atoms ?T] => replace T with (Some (repeat (repeat 0 (length atoms)) (length atoms))) by (destruct atoms; [congruence|reflexivity]) end.
  destruct (pairs_run query b atoms l [] (repeat (repeat 0 (length atoms)) (length atoms)) (zero_table_sym _)) as [c [E [Hs _]]]; [|exact Ha|].
  { rewrite <- (map_length snd atoms). apply zero_table_of. }
  assert (forall l' s, add_pairs query s (l ++ l') = match add_pairs query s l with (s', Ok _) => add_pairs query s' l' | (s', Raise e) => (s', Raise e) end) as Happ.
  { clear. induction l as [|[[a1 a2] k] l IH]; intros l' s; [reflexivity|]. cbn [app add_pairs]. destruct (add_connection query s a1 a2 k false) as [s1 [v|e]]; auto. }
  rewrite Happ, E. set (s := staged b atoms (Some c)). assert (st_atoms s = names) as Es by reflexivity.
  destruct e as [[q1 q2] num]. cbn [fst snd] in r1, r2. cbn [add_pairs]. fold r1 r2.
  assert (forall r, foreign r -> get_alpha s r = Raise ValueError) as Hf.
  { intros r [a [-> H]]. destruct (C27_references s "" a 0%Z) as [_ [_ [Hv _]]]. apply Hv. rewrite Es. exact H. }
  assert (forall r, get_alpha s r = Raise ValueError \/ exists al, get_alpha s r = Ok al) as Hor.
  { intros [i|nm|a]; cbn [get_alpha]; eauto. destruct (list_index 0 (st_atoms s) a); eauto. }
  split.
  - intros [H|H]; apply Hf in H; unfold add_connection; [rewrite H; reflexivity|]. destruct (Hor r1) as [->|[al ->]]; [reflexivity|]. rewrite H. reflexivity.
  - assert (forall r, outside names r -> exists i, get_alpha s r = Ok (One i) /\ py_index (length atoms) i = None) as Ho.
    { intros r [i [-> Hi]]. exists i. split; [reflexivity|]. unfold names in Hi. rewrite map_length in Hi. destruct (py_index (length atoms) i) as [x|] eqn:Ep; [|reflexivity]. apply py_index_iff in Ep. lia. }
    assert (forall r, present r -> exists al z, get_alpha s r = Ok al /\ In z (alpha_list al)) as Hpr.
    { intros r [H|[x Hx]]; [destruct (Ho r H) as [i [Ei _]]; exists (One i), i; split; [exact Ei|left; reflexivity]|].
      assert (accepted (st_atoms s) r) as Hacc.
      { rewrite Es. destruct r as [i|nm|a]; cbn in *; [lia|exact I|]. destruct Hx as [[y [Hy Hya]] _]. exists y. split; [eapply nth_error_In; exact Hy|exact Hya]. }
      destruct (alpha_means s r Hacc) as [al [Er [_ M]]]. rewrite Es in M. apply M in Hx. destruct Hx as [z [Hz _]]. exists al, z. auto. }
    intro H. assert (exists l1 l2 i j, get_alpha s r1 = Ok l1 /\ get_alpha s r2 = Ok l2 /\ In (i, j) (list_prod (alpha_list l1) (alpha_list l2)) /\
                       (py_index (length atoms) i = None \/ py_index (length atoms) j = None)) as [l1 [l2 [i [j [E1 [E2 [Hin Hp]]]]]]].
    { destruct H as [[H1 H2]|[H1 H2]].
      - destruct (Ho _ H1) as [i [E1 P1]]. destruct (Hpr _ H2) as [al [z [E2 Hz]]]. exists (One i), al, i, z. split; auto. split; auto. split; [apply in_prod_iff; split; [left; reflexivity|exact Hz]|left; exact P1].
      - destruct (Ho _ H2) as [i [E2 P2]]. destruct (Hpr _ H1) as [al [z [E1 Hz]]]. exists al, (One i), z, i. split; auto. split; auto. split; [apply in_prod_iff; split; [exact Hz|left; reflexivity]|right; exact P2]. }
    unfold add_connection. rewrite E1, E2. unfold s. cbn [staged st_connections].
    destruct (set_entries_spec (length atoms) (list_prod (alpha_list l1) (alpha_list l2)) num c Hs) as [Hok _].
    destruct (set_entries c (list_prod (alpha_list l1) (alpha_list l2)) num) as [c' ok]. cbn [snd] in Hok.
    destruct ok; [|reflexivity]. exfalso. destruct (proj1 Hok eq_refl i j Hin) as [P1 P2]. tauto.
Qed.

(** End to end: the neighbours in the infinite lattice. *)
Theorem C103_neighbors :
  forall query b atoms l,
    let names := map snd atoms in
    let d := b_dim b in
    let R := map (fun p => meant_position d (fst p)) atoms in
    correct_tree query -> valid_basis b -> 1 <= d -> good_atoms d atoms -> atoms <> [] -> all_accepted names l ->
    let built := construct query b (Some atoms) (Some (ConsPairs l)) in
    exists c, table_of names l c /\
      ((forall x y, nth y (nth x c []) 0 = 0) -> built = Raise NoConnectionsError) /\
      ((exists x y, nth y (nth x c []) 0 <> 0) ->
         exists s m cells, built = Ok s /\ st_basis s = b /\ st_atoms s = names /\ st_positions s = R /\
           (forall x y, nth y (nth x c []) 0 <= m) /\ (exists x y, nth y (nth x c []) 0 = m) /\
           get_neighbor_cells b (2 * m) true Qle_bool = Some cells /\
           forall a t, a < length R ->
             (exists i L, StructureModel.get_neighbors s (repeat 0%Z d) a i = Ok L /\ In t L) <->
             (exists k n x, k < length R /\ t = n ++ [Z.of_nat k] /\ linked d (b_mat b) R cells c a k n x)).
Proof.
  intros query b atoms l names d R Hq Hb Hd Hg Hne Ha built.
  destruct (C103_pairs query b atoms l Hg Hne Ha) as [c [Ht [Hs E]]]. fold built in E. exists c. split; [exact Ht|].
  destruct (C28_analyze_outcome query (staged b atoms (Some c)) Hb Hd Hs) as [_ [Hnone Hok]]. cbn [staged st_atoms st_connections] in Hnone, Hok.
  assert (map snd atoms <> []) as Hne' by (destruct atoms; [congruence|discriminate]).
  fold (staged b atoms (Some c)) in Hnone, Hok. split.
  - intro Hz. rewrite E. destruct (analyze query (staged b atoms (Some c))) as [s r]. cbn [snd] in Hnone.
    rewrite (proj2 Hnone); [reflexivity|]. split; [exact Hne'|]. intros c0 i j E0. injection E0 as <-. apply Hz.
  - intros [x0 [y0 Hnz]]. destruct (analyze query (staged b atoms (Some c))) as [s r] eqn:Ean. cbn [snd] in Hok.
    assert (r = Ok tt) as -> by (apply Hok; split; [exact Hne'|intro Hz; apply Hnz; apply Hz; reflexivity]).
    destruct (C28_analyze_finds_configured_distances query (staged b atoms (Some c)) s c Hq Hb Hd Hs eq_refl Ean) as [m [cells [H1 [H2 [H3 [H4 _]]]]]].
    exists s, m, cells. split; [rewrite E; reflexivity|].
    destruct (analyze_ok query _ _ Ean) as (conns & raw & _ & _ & _ & _ & EE).
    split; [|split; [|split; [|auto]]]; rewrite EE; reflexivity.
Qed.

(** Without atoms. *)
Theorem C103_no_atoms :
  forall query b atoms, atoms = None \/ atoms = Some [] ->
    (forall num, construct query b atoms (Some (ConsNumber num)) = Raise AttributeError) /\
    (forall l, (forall e, In e l -> (exists n, fst (fst e) = RName n) \/ (exists n, snd (fst e) = RName n)) ->
       (forall e a, In e l -> fst (fst e) <> RAtom a /\ snd (fst e) <> RAtom a) ->
       construct query b atoms (Some (ConsPairs l)) = Raise NoAtomsError /\
       (forall i j num rest, construct query b atoms (Some (ConsPairs (l ++ ((RIndex i, RIndex j), num) :: rest))) = Raise TypeError) /\
       (forall r1 r2 num rest, (exists a, r1 = RAtom a \/ r2 = RAtom a) -> construct query b atoms (Some (ConsPairs (l ++ ((r1, r2), num) :: rest))) = Raise ValueError)).
Proof.
  intros query b atoms Hat.
  assert (forall cons, construct query b atoms cons = construct query b None cons) as Hnone by (intro cons; destruct Hat as [->| ->]; reflexivity).
  split; [intro num; rewrite Hnone; reflexivity|]. intros l Hn Hno.
  assert (forall l', add_pairs query (new_structure b) (l ++ l') = add_pairs query (new_structure b) l') as Hl.
  { intro l'. induction l as [|[[r1 r2] num] l IH]; [reflexivity|]. cbn [app add_pairs].
    specialize (Hn _ (or_introl eq_refl)) as Hn1. cbn [fst snd] in Hn1.
    assert (add_connection query (new_structure b) r1 r2 num false = (new_structure b, Ok tt)) as ->.
    { pose proof (fun a => Hno _ a (or_introl eq_refl)) as H. cbn [fst snd] in H. unfold add_connection.
      destruct r1 as [i|n1|a]; [| |exfalso; apply (proj1 (H a)); reflexivity]; (destruct r2 as [j|n2|a2]; [| |exfalso; apply (proj2 (H a2)); reflexivity]); try reflexivity.
      exfalso. destruct Hn1 as [[n E]|[n E]]; discriminate. }
    apply IH; [intros e He; apply Hn; right; exact He|intros e a He; apply Hno; right; exact He]. }
  split; [|split].
  - rewrite Hnone. unfold construct. cbn [add_atoms]. specialize (Hl []). rewrite app_nil_r in Hl. rewrite Hl. reflexivity.
  - intros i j num rest. rewrite Hnone. unfold construct. cbn [add_atoms]. rewrite Hl. reflexivity.
  - intros r1 r2 num rest [a [->| ->]]; rewrite Hnone; unfold construct; cbn [add_atoms]; rewrite Hl; cbn [add_pairs]; unfold add_connection; [reflexivity|]. destruct r1; reflexivity.
Qed.

(** Building from the constructor. *)
Theorem C103_shape :
  forall query argsort norms b atoms,
    (* nothing is built without a shape, whatever the periodic axes are *)
    (forall cons periodic,
       construct_lattice query argsort norms b atoms cons None periodic =
       match construct query b atoms cons with Ok s => Ok (mkLattice s None None None [] None) | Raise e => Raise e end) /\
    (* a shape needs connections *)
    (forall l sh periodic, atoms = Some l -> good_atoms (b_dim b) l -> l <> [] ->
       construct_lattice query argsort norms b atoms None (Some sh) periodic = Raise NoConnectionsError) /\
    (forall sh periodic, atoms = None \/ atoms = Some [] ->
       construct_lattice query argsort norms b atoms None (Some sh) periodic = Raise NotAnalyzedError).
Proof.
  intros query argsort norms b atoms. split; [|split].
  - intros cons periodic. unfold construct_lattice. destruct (construct query b atoms cons); reflexivity.
  - intros l sh periodic -> Hg Hne. unfold construct_lattice, construct. rewrite (atoms_run query b l Hg).
    match goal with |- context [staged b l ?T] => replace T with (Some (repeat (repeat 0 (length l)) (length l))) by (destruct l; [congruence|reflexivity]) end.
    unfold build, build_tables. cbn [lt_structure set_data new_lattice].
    assert (no_connections (staged b l (Some (repeat (repeat 0 (length l)) (length l)))) = true) as ->; [|reflexivity].
    cbn [no_connections staged st_connections]. apply forallb_forall. intros row Hr. apply repeat_spec in Hr. subst row. apply forallb_forall. intros x Hx. apply repeat_spec in Hx. subst x. reflexivity.
  - intros sh periodic [->| ->]; reflexivity.
Qed.

(** The ready-made lattices are calls of the constructor. *)
Theorem C103_ready_made :
  forall query argsort inv at_ num,
    (forall b atoms, preset query b atoms num = construct query b (Some atoms) (Some (ConsNumber num))) /\
    (forall a s periodic, finite_hypercubic query argsort inv (ASize s) a at_ num false periodic =
       construct_lattice query argsort (repeat (Qabs a) (length s)) (hypercubic inv (length s) a) (Some [(None, at_)]) (Some (ConsNumber num)) (Some (ASize s)) periodic).
Proof.
  intros query argsort inv at_ num.
  assert (forall b atoms, preset query b atoms num = construct query b (Some atoms) (Some (ConsNumber num))) as H.
  { intros b atoms. unfold preset, construct. destruct (add_atoms query (new_structure b) atoms) as [s [u|e]]; [|reflexivity]. unfold finished. destruct (add_connections query s num true) as [s' [u'|e']]; reflexivity. }
  split; [exact H|]. intros a s periodic. unfold finite_hypercubic, construct_lattice. rewrite H.
  destruct (construct query (hypercubic inv (length s) a) (Some [(None, at_)]) (Some (ConsNumber num))) as [st|e]; [|reflexivity].
  unfold finished. destruct (build _ _ _ _ _ _ _ _ _ _ _) as [l [u|e]]; reflexivity.
Qed.

(** ** Examples *)

(** Two atoms of a chain with period three, the second one named twice in a cell of a second example. *)
Definition ab_atoms : list (option (list Q) * atom) := [(None, ex_atom "A"); (Some [1%Q], ex_atom "B")].
Definition abb_atoms : list (option (list Q) * atom) := ab_atoms ++ [(Some [2%Q], ex_atom "B")].
Definition chain3 : basis := mkBasis [[3%Q]] [[1#3]].
Definition table (r : result structure) : option (list (list nat)) := match r with Ok s => st_connections s | Raise _ => None end.

Lemma chain3_valid : valid_basis chain3.
Proof.
  split; [split; [reflexivity|intros r [<-|[]]; reflexivity]|]. split; [split; [reflexivity|intros r [<-|[]]; reflexivity]|].
  split; intros [|i] [|j] Hi Hj; cbn in Hi, Hj; try lia; reflexivity.
Qed.

Lemma abb_good : good_atoms 1 abb_atoms.
Proof.
  split; [intros p [<-|[<-|[<-|[]]]]; reflexivity|].
  intros [|[|[|i]]] [|[|[|j]]] r r' Hij Hi Hj; cbn in Hi, Hj; try (destruct i; discriminate); try (destruct j; discriminate); try lia; injection Hi as <-; injection Hj as <-; intros [_ H]; specialize (H 0); vm_compute in H; discriminate.
Qed.

Example C103_atoms_example :
  good_atoms (b_dim chain3) abb_atoms /\
  (match construct brute chain3 (Some abb_atoms) None with Ok s => (length (st_atoms s), st_connections s) = (3, Some [[0; 0; 0]; [0; 0; 0]; [0; 0; 0]]) | Raise _ => False end) /\
  construct brute chain3 (Some [(None, ex_atom "A"); (Some [0%Q], ex_atom "B"); (Some [1; 2]%Q, ex_atom "C")]) None = Raise SiteOccupiedError /\
  construct brute chain3 (Some [(None, ex_atom "A"); (Some [1; 2]%Q, ex_atom "C"); (Some [0%Q], ex_atom "B")]) (Some (ConsNumber 1)) = Raise ValueError.
Proof. split; [exact abb_good|]. split; [vm_compute; reflexivity|]. split; vm_compute; reflexivity. Qed.

(** The first entry sets both atoms named "B"; the last one overrides it for one of them. *)
Definition abb_pairs : list ((aref * aref) * nat) :=
  [((RName "B", RName "A"), 1); ((RAtom (ex_atom "A"), RAtom (ex_atom "A")), 2); ((RIndex 0, RIndex (-1)), 3)].

Lemma abb_accepted : all_accepted (map snd abb_atoms) abb_pairs.
Proof.
  intros e [<-|[<-|[<-|[]]]]; cbn [fst snd accepted]; [auto| |cbn; lia].
  split; (exists (ex_atom "A"); split; [left; reflexivity|reflexivity]).
Qed.

Example C103_pairs_example :
  good_atoms (b_dim chain3) abb_atoms /\ all_accepted (map snd abb_atoms) abb_pairs /\
  table (construct brute chain3 (Some abb_atoms) (Some (ConsPairs abb_pairs))) = Some [[2; 1; 3]; [1; 0; 0]; [3; 0; 0]] /\
  means (map snd abb_atoms) (RIndex (-1)) 2 /\ means (map snd abb_atoms) (RName "B") 1 /\ means (map snd abb_atoms) (RName "B") 2.
Proof.
  split; [exact abb_good|]. split; [exact abb_accepted|]. split; [vm_compute; reflexivity|]. split; [cbn; lia|].
  split; (eexists; split; [reflexivity|vm_compute; reflexivity]).
Qed.

Example C103_order_example :
  let l := [((RName "A", RName "B"), 1); ((RIndex 0, RIndex 0), 2)] in
  let l' := [((RIndex 0, RIndex 0), 2); ((RName "B", RName "A"), 1)] in
  all_accepted (map snd ab_atoms) l /\ agreeing (map snd ab_atoms) l /\
  (forall e, In e l' -> In e l \/ In (swapped e) l) /\ (forall e, In e l -> In e l' \/ In (swapped e) l') /\
  table (construct brute chain3 (Some ab_atoms) (Some (ConsPairs l))) = Some [[2; 1]; [1; 0]] /\
  table (construct brute chain3 (Some ab_atoms) (Some (ConsPairs l'))) = Some [[2; 1]; [1; 0]] /\
  (* entries that do not agree depend on the order *)
  table (construct brute chain3 (Some ab_atoms) (Some (ConsPairs [((RName "A", RName "B"), 1); ((RName "B", RName "A"), 2)]))) = Some [[0; 2]; [2; 0]] /\
  table (construct brute chain3 (Some ab_atoms) (Some (ConsPairs [((RName "B", RName "A"), 2); ((RName "A", RName "B"), 1)]))) = Some [[0; 1]; [1; 0]].
Proof.
  assert (forall name x, named (map snd ab_atoms) name x -> (x = 0 /\ name = "A"%string) \/ (x = 1 /\ name = "B"%string)) as Hn.
  { intros name x [a [Hx Ha]]. destruct x as [|[|x]]; [| |destruct x; discriminate]; injection Hx as <-; injection Ha as <-; auto. }
  split; [intros e [<-|[<-|[]]]; cbn; lia|]. split; [|split; [|split]].
  - intros e e' x y He He' H H'. assert (forall n, named (map snd ab_atoms) "A" n -> n = 0) as HA by (intros n H0; apply Hn in H0; destruct H0 as [[-> _]|[_ E]]; [reflexivity|discriminate]).
    assert (forall n, named (map snd ab_atoms) "B" n -> n = 1) as HB by (intros n H0; apply Hn in H0; destruct H0 as [[_ E]|[-> _]]; [discriminate|reflexivity]).
    destruct He as [<-|[<-|[]]]; destruct He' as [<-|[<-|[]]]; try reflexivity; exfalso; unfold relates in H, H'; cbn [fst snd means] in H, H'.
    + destruct H as [[H1 H2]|[H1 H2]]; apply HA in H1; apply HB in H2; subst; cbn in H'; lia.
    + destruct H' as [[H1 H2]|[H1 H2]]; apply HA in H1; apply HB in H2; subst; cbn in H; lia.
  - intros e [<-|[<-|[]]]; [left; right; left; reflexivity|right; left; reflexivity].
  - intros e [<-|[<-|[]]]; [right; right; left; reflexivity|left; left; reflexivity].
  - repeat split; vm_compute; reflexivity.
Qed.

Example C103_number_example :
  construct brute chain3 (Some ab_atoms) (Some (ConsNumber 2)) =
  construct brute chain3 (Some ab_atoms) (Some (ConsPairs [((RIndex 0, RIndex 0), 2); ((RIndex 0, RIndex 1), 2); ((RIndex 1, RIndex 0), 2); ((RIndex 1, RIndex 1), 2)])) /\
  table (construct brute chain3 (Some ab_atoms) (Some (ConsNumber 2))) = Some [[2; 2]; [2; 2]].
Proof. split; vm_compute; reflexivity. Qed.

Example C103_unknown_name_example :
  (forall k, ~ named (map snd ab_atoms) "C" k) /\ accepted (map snd ab_atoms) (RName "A") /\
  table (construct brute chain3 (Some ab_atoms) (Some (ConsPairs [((RName "A", RName "C"), 5); ((RName "A", RName "B"), 1)]))) = Some [[0; 1]; [1; 0]] /\
  construct brute chain3 (Some ab_atoms) (Some (ConsPairs [((RName "A", RName "C"), 5)])) = Raise NoConnectionsError.
Proof.
  split; [intros [|[|k]] [a [Hx Ha]]; [| |destruct k; discriminate]; injection Hx as <-; discriminate Ha|]. split; [exact I|]. split; vm_compute; reflexivity.
Qed.

Example C103_bad_pairs_example :
  (forall x, In x (map snd ab_atoms) -> atom_eq x (ex_atom "C") = false) /\ outside (map snd ab_atoms) (RIndex 2) /\ outside (map snd ab_atoms) (RIndex (-3)) /\
  construct brute chain3 (Some ab_atoms) (Some (ConsPairs [((RName "A", RName "B"), 1); ((RIndex 5, RAtom (ex_atom "C")), 1)])) = Raise ValueError /\
  construct brute chain3 (Some ab_atoms) (Some (ConsPairs [((RName "A", RIndex 2), 1); ((RIndex 5, RAtom (ex_atom "C")), 1)])) = Raise IndexError /\
  (* out of range beside an unused name *)
  construct brute chain3 (Some ab_atoms) (Some (ConsPairs [((RName "A", RName "B"), 1); ((RIndex 5, RName "C"), 1)])) =
  construct brute chain3 (Some ab_atoms) (Some (ConsPairs [((RName "A", RName "B"), 1)])).
Proof.
  split; [intros x [<-|[<-|[]]]; reflexivity|]. split; [exists 2%Z; split; [reflexivity|cbn; lia]|]. split; [exists (-3)%Z; split; [reflexivity|cbn; lia]|].
  split; [vm_compute; reflexivity|]. split; vm_compute; reflexivity.
Qed.

(** Nearest neighbours of different kind only: the atoms at 0 and 1, and the atom at -2 for the one at 0 is at distance two. *)
Example C103_neighbors_example :
  correct_tree brute /\ valid_basis chain3 /\ 1 <= b_dim chain3 /\ good_atoms (b_dim chain3) ab_atoms /\
  match construct brute chain3 (Some ab_atoms) (Some (ConsPairs [((RName "A", RName "B"), 2)])) with
  | Ok s => StructureModel.get_neighbors s [0%Z] 0 0 = Ok [[0; 1]]%Z /\ StructureModel.get_neighbors s [0%Z] 0 1 = Ok [[-1; 1]]%Z /\
            StructureModel.get_neighbors s [0%Z] 1 0 = Ok [[0; 0]]%Z /\ StructureModel.get_neighbors s [0%Z] 1 1 = Ok [[1; 0]]%Z
  | Raise _ => False
  end /\
  construct brute chain3 (Some ab_atoms) (Some (ConsPairs [((RName "A", RName "B"), 2); ((RName "B", RName "A"), 0)])) = Raise NoConnectionsError.
Proof.
  split; [exact brute_nearest|]. split; [exact chain3_valid|]. split; [apply le_n|]. split; [|split; vm_compute; auto].
  split; [intros p [<-|[<-|[]]]; reflexivity|].
  intros [|[|i]] [|[|j]] r r' Hij Hi Hj; cbn in Hi, Hj; try (destruct i; discriminate); try (destruct j; discriminate); try lia; injection Hi as <-; injection Hj as <-; intros [_ H]; specialize (H 0); vm_compute in H; discriminate.
Qed.

Example C103_no_atoms_example :
  construct brute chain3 None (Some (ConsNumber 1)) = Raise AttributeError /\
  construct brute chain3 (Some []) (Some (ConsPairs [((RName "A", RIndex 0), 1)])) = Raise NoAtomsError /\
  construct brute chain3 None (Some (ConsPairs [((RName "A", RName "A"), 1); ((RIndex 0, RIndex 0), 1)])) = Raise TypeError /\
  construct brute chain3 None (Some (ConsPairs [((RName "A", RAtom (ex_atom "A")), 1)])) = Raise ValueError.
Proof. repeat split. Qed.

Example C103_shape_example :
  let built cons sh periodic := construct_lattice brute dist_argsort [3%Q] chain3 (Some ab_atoms) cons sh periodic in
  (match built (Some (ConsPairs [((RName "A", RName "B"), 1)])) (Some (ASize [6%Q])) None with
   | Ok l => option_map d_indices (lt_data l) = Some [[0; 0]; [0; 1]; [1; 0]; [1; 1]; [2; 0]]%Z
   | Raise _ => False end) /\
  (match built (Some (ConsNumber 1)) None (Some (AxBool true)) with Ok l => lt_data l = None /\ lt_axes l = [] | Raise _ => False end) /\
  built None (Some (ASize [6%Q])) None = Raise NoConnectionsError /\
  construct_lattice brute dist_argsort [3%Q] chain3 None None (Some (ASize [6%Q])) None = Raise NotAnalyzedError.
Proof. split; [vm_compute; reflexivity|]. split; [vm_compute; auto|]. split; vm_compute; reflexivity. Qed.

Example C103_ready_made_example :
  option_map d_indices (match construct_lattice brute dist_argsort [1; 1]%Q (hypercubic inverse_small 2 1) (Some [(None, ex_atom "A")]) (Some (ConsNumber 1)) (Some (ASize [1; 1]%Q)) None with
                        | Ok l => lt_data l | Raise _ => None end) = Some [[0; 0; 0]; [0; 1; 0]; [1; 0; 0]; [1; 1; 0]]%Z.
Proof. vm_compute. reflexivity. Qed.

Print Assumptions C103_atoms.
Print Assumptions C103_pairs.
Print Assumptions C103_order.
Print Assumptions C103_number.
Print Assumptions C103_unknown_name.
Print Assumptions C103_bad_pairs.
Print Assumptions C103_neighbors.
Print Assumptions C103_no_atoms.
Print Assumptions C103_shape.
Print Assumptions C103_ready_made.
