(** * C87: positions by atom (lattpy/structure.py, get_base_atom_dict) *)
From Coq Require Import String List ZArith QArith Bool Arith Lia Sorted.
From Verif Require Import AtomModel SpecAtom AtomProofs PropAtom.
Import ListNotations.
Open Scope nat_scope.
Open Scope string_scope.
Open Scope list_scope.

(** The atom at [i] is the first one with its name. *)
Definition first_of_name (atoms : list atom) (i : nat) : Prop :=
  exists a, nth_error atoms i = Some a /\ forall j b, j < i -> nth_error atoms j = Some b -> a_name b <> a_name a.

(** The positions of the atoms with a name, in order. *)
Fixpoint positions_of {P} (name : string) (atoms : list atom) (positions : list P) : list P :=
  match atoms, positions with
  | a :: ar, p :: pr => if string_dec (a_name a) name then p :: positions_of name ar pr else positions_of name ar pr
  | _, _ => []
  end.

Section Fold.
  Context {P : Type} (h : string -> Z) (hv : pyval -> Z).
  Hypothesis Hhv : forall s, hv (VStr s) = h s.

  Lemma is_key_names a k : plain a -> is_key h a k = true <-> a_name k = a_name a.
  Proof.
    intro Ha. unfold is_key, atom_eq, atom_hash. rewrite getattr_name by auto. cbn [pyval_eqb]. rewrite andb_true_iff, Z.eqb_eq, String.eqb_eq.
    split; [tauto|]. intro E. rewrite E. auto.
  Qed.

  Lemma name_in_keys_spec s (d : atom_map P) : name_in_keys h hv (VStr s) d = true <-> exists e, In e d /\ a_name (fst e) = s.
  Proof.
    unfold name_in_keys. rewrite existsb_exists. split; intros [e [H1 H2]]; exists e; split; auto.
    - apply andb_true_iff in H2. destruct H2 as [_ H2]. apply String.eqb_eq in H2. exact H2.
    - rewrite Hhv. unfold atom_hash. rewrite H2. cbn. rewrite Z.eqb_refl, String.eqb_refl. reflexivity.
  Qed.

  Definition entries (atoms : list atom) (positions : list P) (firsts : list nat) (d : atom_map P) : Prop :=
    StronglySorted lt firsts /\ (forall i, In i firsts <-> first_of_name atoms i) /\
    Forall2 (fun i e => nth_error atoms i = Some (fst e) /\ snd e = positions_of (a_name (fst e)) atoms positions) firsts d.

  Lemma positions_of_snoc name : forall atoms (positions : list P) a p, length atoms = length positions ->
    positions_of name (atoms ++ [a]) (positions ++ [p]) =
    positions_of name atoms positions ++ if string_dec (a_name a) name then [p] else [].
  Proof.
    induction atoms as [|b atoms IH]; intros [|q positions] a p L; try discriminate L; cbn.
    - destruct (string_dec (a_name a) name); reflexivity.
    - rewrite IH by (cbn in L; lia). destruct (string_dec (a_name b) name); reflexivity.
  Qed.

  Lemma positions_of_none name : forall atoms (positions : list P), (forall a, In a atoms -> a_name a <> name) -> positions_of name atoms positions = [].
  Proof.
    induction atoms as [|b atoms IH]; intros [|q positions] H; cbn; auto. destruct (string_dec (a_name b) name) as [E|_].
    - exfalso. apply (H b); [left; auto|auto].
    - apply IH. intros. apply H. right. auto.
  Qed.

  Lemma first_of_name_snoc atoms a i : first_of_name (atoms ++ [a]) i <->
    first_of_name atoms i \/ (i = length atoms /\ forall b, In b atoms -> a_name b <> a_name a).
  Proof.
    unfold first_of_name. split.
    - intros [c [Hc H]]. destruct (Nat.lt_ge_cases i (length atoms)) as [Hi|Hi].
      + left. rewrite nth_error_app1 in Hc by auto. exists c. split; auto. intros j b Hj Hb. apply (H j b Hj). rewrite nth_error_app1 by lia. auto.
      + right. rewrite nth_error_app2 in Hc by auto. destruct (i - length atoms) as [|[|k]] eqn:E; [|discriminate|discriminate]. cbn in Hc. injection Hc as <-.
        split; [lia|]. intros b Hb. apply In_nth_error in Hb. destruct Hb as [j Hj]. pose proof (proj1 (nth_error_Some atoms j) ltac:(congruence)).
        apply (H j b); [lia|]. rewrite nth_error_app1 by auto. auto.
    - intros [[c [Hc H]]|[-> H]].
      + pose proof (proj1 (nth_error_Some atoms i) ltac:(congruence)). exists c. rewrite nth_error_app1 by auto. split; auto.
        intros j b Hj Hb. rewrite nth_error_app1 in Hb by lia. eauto.
      + exists a. rewrite nth_error_app2, Nat.sub_diag by auto. split; [reflexivity|]. intros j b Hj Hb. rewrite nth_error_app1 in Hb by lia.
        apply H. eapply nth_error_In; eauto.
  Qed.

  Lemma sorted_snoc l n : StronglySorted lt l -> (forall i, In i l -> i < n) -> StronglySorted lt (l ++ [n]).
  Proof.
    induction 1 as [|a l H IH HF]; intro Hn; cbn; [repeat constructor|]. constructor.
    - apply IH. intros; apply Hn; right; auto.
    - apply Forall_app. split; auto. constructor; auto. apply Hn. left. auto.
  Qed.

  Lemma Forall2_weaken {A B} (R S : A -> B -> Prop) l m : (forall a b, In a l -> In b m -> R a b -> S a b) -> Forall2 R l m -> Forall2 S l m.
  Proof. intros H F. induction F; constructor; [apply H; cbn; auto|]. apply IHF. intros. apply H; cbn; auto. Qed.

  Lemma step_entries atoms (positions : list P) firsts d a p :
    plain a -> length atoms = length positions -> entries atoms positions firsts d ->
    exists firsts' d', atom_dict_step h hv (fun q => Some q) (Some d) (a, p) = Some d' /\ entries (atoms ++ [a]) (positions ++ [p]) firsts' d'.
  Proof.
    intros Ha L [HS [HF H2]]. unfold atom_dict_step. cbn [fst snd]. rewrite getattr_name by auto.
    assert (forall i, In i firsts -> i < length atoms) as Hlt.
    { intros i Hi. apply HF in Hi. destruct Hi as [c [Hc _]]. apply nth_error_Some. congruence. }
    destruct (name_in_keys h hv (VStr (a_name a)) d) eqn:Ek.
    - apply name_in_keys_spec in Ek. destruct Ek as [e [He Ee]].
      (* the list under this name grows *)
      assert (forall (f : list nat) (d : atom_map P), (exists e, In e d /\ a_name (fst e) = a_name a) -> (forall i, In i f -> first_of_name atoms i) -> StronglySorted lt f ->
        Forall2 (fun i e => nth_error atoms i = Some (fst e) /\ snd e = positions_of (a_name (fst e)) atoms positions) f d ->
        exists d', append_to h a p d = Some d' /\
          Forall2 (fun i e => nth_error (atoms ++ [a]) i = Some (fst e) /\ snd e = positions_of (a_name (fst e)) (atoms ++ [a]) (positions ++ [p])) f d') as HA.
      { clear - L Ha. intros f d Hex Hf Hs H2. induction H2 as [|i [k l] f d [H1 H1'] H2 IH]; [destruct Hex as [e [[] _]]|]. cbn [fst snd] in *.
        cbn [append_to]. inversion Hs as [|? ? Hs' Hsf]. subst.
        assert (nth_error (atoms ++ [a]) i = Some k) as Hnk.
        { rewrite nth_error_app1; auto. apply nth_error_Some. congruence. }
        destruct (is_key h a k) eqn:E.
        - eexists. split; [reflexivity|]. apply is_key_names in E; auto. constructor.
          + cbn [fst snd]. split; auto. rewrite positions_of_snoc by auto. destruct (string_dec (a_name a) (a_name k)); [congruence|congruence].
          + (* the other entries have other names *)
            refine (Forall2_weaken _ _ _ _ _ H2). intros j [k' l'] Hj He [Hk' Hl']. cbn [fst snd] in *. split.
            * rewrite nth_error_app1; auto. apply nth_error_Some. congruence.
            * rewrite positions_of_snoc by auto. destruct (string_dec (a_name a) (a_name k')) as [E'|_]; [|rewrite app_nil_r; auto]. exfalso.
              destruct (Hf j (or_intror Hj)) as [c [Hc Hc']]. rewrite Hk' in Hc. injection Hc as <-.
              rewrite Forall_forall in Hsf. apply (Hc' i k); auto. congruence.
        - destruct IH as [d' [E1 E2]]; auto.
          { destruct Hex as [e [[<-|He] Ee]]; [|eauto]. cbn in Ee. apply is_key_names with (k := k) in Ha. destruct Ha as [_ Ha]. rewrite Ha in E by auto. discriminate. }
          { intros; apply Hf; right; auto. }
          rewrite E1. eexists. split; [reflexivity|]. constructor; auto. cbn [fst snd]. split; auto. rewrite positions_of_snoc by auto.
          destruct (string_dec (a_name a) (a_name k)) as [E'|_]; [|rewrite app_nil_r; auto]. apply (is_key_names a k) in Ha. destruct Ha as [_ Ha]. rewrite Ha in E by auto. discriminate. }
      destruct (HA firsts d) as [d' [E1 E2]]; eauto. { intros i Hi. apply HF. auto. }
      exists firsts, d'. split; auto. split; auto. split; auto. intro i. rewrite first_of_name_snoc, HF. split; [tauto|]. intros [H|[-> H]]; auto. exfalso.
      assert (exists i, nth_error atoms i = Some (fst e)) as [i Hi].
      { clear - H2 He. induction H2 as [|i e' f d [H _] H2 IH]; [destruct He|]. destruct He as [->|He]; eauto. }
      apply (H (fst e)); auto. eapply nth_error_In; eauto.
    - assert (forall e, In e d -> a_name (fst e) <> a_name a) as Hno.
      { intros e He E. assert (name_in_keys h hv (VStr (a_name a)) d = true) by (apply name_in_keys_spec; eauto). congruence. }
      assert (put_new h a p d = d ++ [(a, [p])]) as ->.
      { clear - Hno Ha. induction d as [|[k l] d IH]; [reflexivity|]. cbn. destruct (is_key h a k) eqn:E.
        - apply is_key_names in E; auto. exfalso. apply (Hno (k, l)); [left; auto|auto].
        - rewrite IH; auto. intros. apply Hno. right. auto. }
      assert (forall b, In b atoms -> a_name b <> a_name a) as Hnob.
      { intros b Hb E. (* the first atom with this name has an entry *)
        assert (exists i c, nth_error atoms i = Some c /\ a_name c = a_name a /\ forall j b, j < i -> nth_error atoms j = Some b -> a_name b <> a_name c) as [i [c [H1 [E1 H3]]]].
        { clear - Hb E. induction atoms as [|b0 atoms IH]; [destruct Hb|]. destruct (string_dec (a_name b0) (a_name a)) as [E0|N0].
          - exists 0, b0. repeat split; auto. intros; lia.
          - destruct Hb as [->|Hb]; [contradiction|]. destruct (IH Hb) as [i [c [H1 [H2 H3]]]]. exists (S i), c. split; auto. split; auto.
            intros [|j] b' Hj Hb'; cbn in Hb'; [congruence|]. apply (H3 j); auto. lia. }
        assert (In i firsts) as Hi by (apply HF; exists c; auto).
        assert (exists e, In e d /\ nth_error atoms i = Some (fst e)) as [e [He Hne]].
        { clear - H2 Hi. induction H2 as [|i' e f d [H _] H2 IH]; [destruct Hi|]. destruct Hi as [->|Hi]; [exists e; cbn; auto|].
          destruct (IH Hi) as [e' [? ?]]. exists e'. cbn. auto. }
        apply (Hno e He). congruence. }
      exists (firsts ++ [length atoms]), (d ++ [(a, [p])]). split; auto. split; [apply sorted_snoc; auto|]. split.
      + intro i. rewrite first_of_name_snoc, in_app_iff, HF. cbn. split; [intros [H|[<-|[]]]; auto|intros [H|[-> H]]; auto].
      + apply Forall2_app.
        * refine (Forall2_weaken _ _ _ _ _ H2). intros i [k l] Hi He [Hk Hl]. cbn [fst snd] in *. split.
          -- rewrite nth_error_app1; auto.
          -- rewrite positions_of_snoc by auto. destruct (string_dec (a_name a) (a_name k)) as [E|_]; [|rewrite app_nil_r; auto].
             exfalso. apply (Hno _ He). cbn. auto.
        * repeat constructor; cbn [fst snd]. { rewrite nth_error_app2, Nat.sub_diag by auto. reflexivity. }
          rewrite positions_of_snoc by auto. rewrite positions_of_none by auto. destruct (string_dec (a_name a) (a_name a)); [reflexivity|congruence].
  Qed.

  Lemma fold_entries : forall atoms (positions : list P), (forall a, In a atoms -> plain a) -> length atoms = length positions ->
    exists firsts d, fold_left (atom_dict_step h hv (fun q => Some q)) (combine atoms positions) (Some []) = Some d /\ entries atoms positions firsts d.
  Proof.
    intro atoms. induction atoms as [|a atoms IH] using rev_ind; intros positions Hp L.
    - destruct positions; [|discriminate L]. exists [], []. split; [reflexivity|]. split; [constructor|]. split; [|constructor].
      intro i. split; [intros []|]. intros [a [H _]]. destruct i; discriminate.
    - destruct positions as [|p positions _] using rev_ind; [rewrite app_length in L; cbn in L; lia|]. rewrite !app_length in L. cbn in L.
      destruct (IH positions) as [firsts [d [E H]]]; [intros; apply Hp, in_app_iff; auto|lia|].
      destruct (step_entries atoms positions firsts d a p) as [f' [d' [E' H']]]; auto; [apply Hp, in_app_iff; cbn; auto|lia|].
      exists f', d'. split; auto.
      assert (forall (l : list atom) (m : list P) x y, length l = length m -> combine (l ++ [x]) (m ++ [y]) = combine l m ++ [(x, y)]) as HC.
      { clear. induction l as [|b l IH]; intros [|q m] x y L; try discriminate; [reflexivity|]. cbn. f_equal. apply IH. cbn in L. lia. }
      rewrite HC by lia. rewrite fold_left_app, E. exact E'.
  Qed.
End Fold.

(** One entry for each name, in the order of first occurrence, under the first atom with this name. *)
Theorem C87_groups_by_name :
  forall {P} h hv dim atleast2d atoms (positions : list P),
    (forall s, hv (VStr s) = h s) -> (forall a, In a atoms -> plain a) -> length atoms = length positions ->
    atleast2d = false \/ dim <> 1 ->
    exists d firsts, get_base_atom_dict h hv dim atleast2d atoms positions = Some d /\
      StronglySorted lt firsts /\ (forall i, In i firsts <-> first_of_name atoms i) /\
      Forall2 (fun i e => nth_error atoms i = Some (fst e) /\ snd e = positions_of (a_name (fst e)) atoms positions) firsts d.
Proof.
  intros P h hv dim al atoms positions Hhv Hp L Hd. destruct (fold_entries h hv Hhv atoms positions Hp L) as [firsts [d [E H]]].
  exists d, firsts. split; [|exact H]. unfold get_base_atom_dict.
  replace (al && Nat.eqb dim 1) with false; [exact E|]. symmetry. destruct Hd as [->|Hd]; [reflexivity|]. apply Nat.eqb_neq in Hd. rewrite Hd. apply andb_false_r.
Qed.

(** In one dimension the default arguments fail. *)
Theorem C87_one_dimension :
  forall {P} h hv a atoms p (positions : list P),
    get_base_atom_dict h hv 1 true (a :: atoms) (p :: positions) = None.
Proof.
  intros. unfold get_base_atom_dict. cbn [andb Nat.eqb combine fold_left].
  assert (forall l, fold_left (atom_dict_step h hv (fun _ : P => None)) l None = None) as HN by (induction l as [|x l IH]; [reflexivity|exact IH]).
  apply HN.
Qed.

(** A parameter called "name" breaks the look-up: KeyError. *)
Theorem C87_name_param_refuted :
  exists a b, plain a /\ b = atom_run (atom_new 1 (Some "B") (VNum (1#5)) VNone (VNum 1) []) [SetItem "name" (VStr "A")] /\
    forall h hv, (forall s, hv (VStr s) = h s) -> h "A" <> h "B" -> get_base_atom_dict h hv 2 true [a; b] [[0; 0]; [1; 0]]%Q = None.
Proof.
  exists (atom_new 0 (Some "A") (VNum (1#5)) VNone (VNum 1) []). eexists. split; [reflexivity|]. split; [reflexivity|].
  intros h hv Hv Hh.
  unfold get_base_atom_dict. cbn. unfold name_in_keys. cbn. unfold atom_hash. cbn. rewrite Hv, Z.eqb_refl. cbn.
  unfold is_key, atom_hash. cbn. apply Z.eqb_neq in Hh. rewrite Hh. reflexivity.
Qed.

Example C87_example :
  let atoms := [atom_new 0 (Some "A") (VNum (1#5)) VNone (VNum 1) []; atom_new 1 (Some "B") (VNum (1#5)) VNone (VNum 1) [];
                atom_new 2 None (VNum (1#2)) VNone (VNum 1) []; atom_new 3 (Some "B") (VNum (1#5)) VNone (VNum 1) []] in
  let h := fun s => Z.of_nat (String.length s) in
  let hv := fun v => match v with VStr s => h s | _ => 0%Z end in
  (forall a, In a atoms -> plain a) /\ (forall s, hv (VStr s) = h s) /\
  option_map (map (fun e => (a_index (fst e), snd e))) (get_base_atom_dict h hv 2 true atoms [[0; 0]; [1; 0]; [0; 1]; [1; 1]]%Q)
    = Some [(0, [[0; 0]; [0; 1]]%Q); (1, [[1; 0]; [1; 1]]%Q)].
Proof.
  cbv zeta. split; [intros a [<-|[<-|[<-|[<-|[]]]]]; reflexivity|]. split; [reflexivity|]. vm_compute. reflexivity.
Qed.

Print Assumptions C87_groups_by_name.
Print Assumptions C87_one_dimension.
Print Assumptions C87_name_param_refuted.
Print Assumptions C87_example.
