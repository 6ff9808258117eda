(** * Properties C06-C08 (lattpy/atom.py) *)
From Coq Require Import String List ZArith QArith Bool Arith Lia.
From Verif Require Import AtomModel SpecAtom AtomProofs.
Import ListNotations.
Open Scope nat_scope.
Open Scope string_scope.

(** ** C06: equality and hash *)

(** Atoms produced by the constructor and any later assignments, with no parameter "name". *)
Definition plain (a : atom) : Prop := atom_getitem a "name" = None.

Theorem C06_eq_equivalence :
  forall a b c, plain a -> plain b -> plain c ->
    atom_eq a a = true /\
    atom_eq a b = atom_eq b a /\
    (atom_eq a b = true -> atom_eq b c = true -> atom_eq a c = true) /\
    (forall h, atom_eq a b = true -> atom_hash h a = atom_hash h b) /\
    (forall s, atom_eq_str a s = true -> atom_getattr a "name" = Some (VStr s)) /\
    (atom_eq a b = true <-> atom_getattr a "name" = atom_getattr b "name").
Proof.
  intros a b c Ha Hb Hc. repeat split.
  - apply atom_eq_names; auto.
  - apply eq_true_iff_eq. rewrite !atom_eq_names by assumption. split; congruence.
  - rewrite !atom_eq_names by assumption. congruence.
  - intros h H. apply atom_eq_names in H; auto. unfold atom_hash. congruence.
  - intros s H. unfold atom_eq_str in H. apply String.eqb_eq in H.
    rewrite getattr_name by assumption. congruence.
  - rewrite atom_eq_names by assumption. rewrite !getattr_name by assumption. congruence.
  - rewrite atom_eq_names by assumption. rewrite !getattr_name by assumption. congruence.
Qed.

(** Every atom the API can produce without an assignment under "name" is plain. *)
Theorem C06_reachable_plain :
  forall count name radius color weight kwargs ops,
    good_kwargs kwargs -> untouched "name" ops ->
    plain (atom_run (atom_new count name radius color weight kwargs) ops).
Proof.
  intros cnt name radius color weight kw ops Hk Hu. unfold plain.
  rewrite atom_run_replay by (apply wf_atom_new; assumption).
  rewrite replay_untouched by (apply untouched_rev; assumption).
  unfold atom_getitem. apply dict_get_None. simpl. intros [H|[H|H]]; try discriminate.
  destruct Hk as [_ Hk]. apply (Hk _ H). simpl. auto.
Qed.

(** After [b["name"] = "A"] equality is not symmetric and not compatible with the hash. *)
Theorem C06_name_param_refuted :
  exists a b ops,
    b = atom_run (atom_new 1 (Some "B") (VNum (1#5)) VNone (VNum 1) []) ops /\
    atom_eq a b = true /\ atom_eq b a = false /\
    exists h, atom_hash h a <> atom_hash h b.
Proof.
  exists (atom_new 0 (Some "A") (VNum (1#5)) VNone (VNum 1) []). eexists.
  exists [SetItem "name" (VStr "A")]. split; [reflexivity|]. repeat split.
  exists (fun s => if String.eqb s "A" then 1%Z else 2%Z). simpl. discriminate.
Qed.

Example C06_example :
  let a := atom_new 0 None (VNum (1#5)) VNone (VNum 1) [] in
  let b := atom_run (atom_new 1 (Some "A") (VNum (1#2)) VNone (VNum 1) [("spin", VNum 1)])
             [SetAttr "color" (VStr "C1"); DelItem "spin"] in
  plain a /\ plain b /\ atom_eq a b = true /\ atom_eq b a = true.
Proof. repeat split. Qed.

(** ** C07: dictionary behaviour *)

Theorem C07_reads_replay_history :
  forall count name radius color weight kwargs ops key,
    good_kwargs kwargs ->
    let a0 := atom_new count name radius color weight kwargs in
    let a := atom_run a0 ops in
    let expected := replay (atom_getitem a0) (rev ops) in
    (* item access *)
    atom_getitem a key = expected key /\
    (* get with a default *)
    (forall d, atom_get a key d = match expected key with Some v => v | None => d end) /\
    (* attribute access to a public parameter *)
    (prefix "_" key = false -> expected key <> None -> atom_getattr a key = expected key) /\
    (* the keys, each once; len counts them *)
    (In key (atom_keys a) <-> expected key <> None) /\
    NoDup (atom_keys a) /\ atom_len a = List.length (atom_keys a) /\
    (* name, weight and index do not change *)
    a_name a = a_name a0 /\ a_weight a = a_weight a0 /\ a_index a = a_index a0.
Proof.
  intros cnt name radius color weight kw ops key Hk a0 a expected.
  assert (wf_atom a0) as Hwf by (apply wf_atom_new; assumption).
  assert (forall q, atom_getitem a q = expected q) as Hr.
  { intro q. apply atom_run_replay. assumption. }
  destruct (atom_run_name a0 ops) as [Hn [Hw Hi]].
  repeat split; auto.
  - intro d. unfold atom_get. rewrite Hr. reflexivity.
  - intros Hp He. rewrite <- Hr in *. unfold atom_getattr, atom_getitem, dict_mem in *.
    rewrite starts_prefix, Hp. destruct (dict_get (a_params a) key); [reflexivity|congruence].
  - intros Hin He. rewrite <- Hr in He. apply dict_get_None in He. contradiction.
  - intros He. rewrite <- Hr in He. unfold atom_getitem in He.
    destruct (dict_get (a_params a) key) eqn:E; [|congruence]. eapply dict_get_In; eauto.
  - apply wf_atom_run. assumption.
  - unfold atom_len, atom_keys. rewrite map_length. reflexivity.
Qed.

(** Each single operation raises exactly when it should. *)
Theorem C07_errors :
  forall a key v,
    snd (atom_step a (SetItem key v)) = Done /\
    (snd (atom_step a (DelItem key)) = RaisedKeyError <-> atom_getitem a key = None) /\
    (snd (atom_step a (SetAttr key v)) = RaisedAttributeError <->
       prefix "_" key = true \/ atom_getitem a key = None) /\
    (snd (atom_step a (DelItem key)) <> Done -> fst (atom_step a (DelItem key)) = a) /\
    (snd (atom_step a (SetAttr key v)) <> Done -> fst (atom_step a (SetAttr key v)) = a).
Proof.
  intros a key v. simpl. unfold atom_getitem, dict_mem. rewrite starts_prefix.
  destruct (dict_get (a_params a) key) eqn:E; destruct (prefix "_" key); simpl;
  repeat split; intros; auto; try discriminate; try congruence;
  match goal with H : _ \/ _ |- _ => destruct H; discriminate | _ => idtac end.
Qed.

(** In words: the last assignment wins if nothing touches the key afterwards. *)
Theorem C07_last_write_wins :
  forall count name radius color weight kwargs before key v after,
    good_kwargs kwargs -> untouched key after ->
    let a0 := atom_new count name radius color weight kwargs in
    atom_getitem (atom_run a0 (before ++ [SetItem key v] ++ after)) key = Some v /\
    atom_getitem (atom_run a0 (before ++ [DelItem key] ++ after)) key = None.
Proof.
  intros cnt name radius color weight kw before key v after Hk Hu a0.
  assert (wf_atom a0) as Hwf by (apply wf_atom_new; assumption).
  split; rewrite atom_run_replay by assumption; rewrite !rev_app_distr, <- app_assoc;
  rewrite replay_app; rewrite replay_untouched by (apply untouched_rev; assumption);
  rewrite replay_app; simpl; destruct (string_dec key key); congruence.
Qed.

(** Attribute access: a public parameter hides the property of the same name. *)
Theorem C07_attributes :
  forall a key,
    (prefix "_" key = false -> forall v, atom_getitem a key = Some v -> atom_getattr a key = Some v) /\
    (atom_getitem a key = None \/ prefix "_" key = true ->
      (key = "name" -> atom_getattr a key = Some (VStr (a_name a))) /\
      (key = "weight" -> atom_getattr a key = Some (a_weight a)) /\
      (key = "index" -> atom_getattr a key = Some (VNum (inject_Z (Z.of_nat (a_index a))))) /\
      (~ In key ["name"; "weight"; "index"]%list -> atom_getattr a key = None)).
Proof.
  intros a key. unfold atom_getitem, atom_getattr, dict_mem. rewrite starts_prefix. split.
  - intros Hp v E. rewrite Hp, E. reflexivity.
  - intro H. assert (negb (prefix "_" key) && match dict_get (a_params a) key with Some _ => true | None => false end = false) as ->.
    { destruct H as [->| ->]; [apply andb_false_r|reflexivity]. }
    split; [intros ->; reflexivity|]. split; [intros ->; reflexivity|]. split; [intros ->; reflexivity|].
    intro Hk. destruct (String.eqb_spec key "name") as [->|_]; [exfalso; apply Hk; simpl; auto|].
    destruct (String.eqb_spec key "weight") as [->|_]; [exfalso; apply Hk; simpl; auto|].
    destruct (String.eqb_spec key "index") as [->|_]; [exfalso; apply Hk; simpl; auto|]. reflexivity.
Qed.

Example C07_attributes_example :
  let a := atom_run (atom_new 7 (Some "B") (VNum (1#5)) VNone (VNum 3) []) [SetItem "index" (VStr "i"); SetItem "_q" (VNum 1)] in
  atom_getattr a "index" = Some (VStr "i") /\ atom_getattr a "weight" = Some (VNum 3) /\
  atom_getattr a "_q" = None /\ atom_getitem a "_q" = Some (VNum 1).
Proof. repeat split. Qed.

Lemma dict_get_fold d p k : NoDup (map fst p) ->
  dict_get (fold_left (fun d kv => dict_set d (fst kv) (snd kv)) p d) k = match dict_get p k with Some v => Some v | None => dict_get d k end.
Proof.
  revert d. induction p as [|[k' v] p IH]; intros d Hn; [reflexivity|]. inversion Hn as [|? ? Hk Hn']; subst. cbn [fold_left fst snd].
  rewrite IH by auto. cbn [dict_get]. rewrite dict_get_set. destruct (String.eqb_spec k k') as [->|E].
  - assert (dict_get p k' = None) as -> by (apply dict_get_None; auto). destruct (string_dec k' k'); congruence.
  - destruct (dict_get p k); [reflexivity|]. destruct (string_dec k k'); [congruence|reflexivity].
Qed.

(** [dict()] has the parameters, and the index and the name unless a parameter has the same name. *)
Theorem C07_dict :
  forall count name radius color weight kwargs ops key,
    good_kwargs kwargs ->
    let a := atom_run (atom_new count name radius color weight kwargs) ops in
    dict_get (atom_dict a) key =
      match atom_getitem a key with
      | Some v => Some v
      | None => if string_dec key "index" then Some (VNum (inject_Z (Z.of_nat (a_index a))))
                else if string_dec key "name" then Some (VStr (a_name a)) else None
      end.
Proof.
  intros cnt name radius color weight kw ops key Hk a. unfold atom_dict, atom_getitem.
  assert (wf_atom a) as Hwf by (apply wf_atom_run, wf_atom_new; assumption).
  rewrite dict_get_fold by exact Hwf. destruct (dict_get (a_params a) key); [reflexivity|]. cbn [dict_get].
  destruct (String.eqb_spec key "index"), (string_dec key "index"); try congruence.
  destruct (String.eqb_spec key "name"), (string_dec key "name"); congruence.
Qed.

(** The weight is not in it. *)
Theorem C07_dict_weight_refuted :
  let a := atom_new 0 (Some "B") (VNum (1#5)) VNone (VNum 3) [] in
  atom_getattr a "weight" = Some (VNum 3) /\ dict_get (atom_dict a) "weight" = None.
Proof. split; reflexivity. Qed.

Example C07_dict_example :
  let a := atom_run (atom_new 7 (Some "B") (VNum (1#5)) VNone (VNum 3) []) [SetItem "index" (VStr "i")] in
  good_kwargs [] /\ dict_get (atom_dict a) "index" = Some (VStr "i") /\ dict_get (atom_dict a) "name" = Some (VStr "B") /\
  dict_get (atom_dict a) "radius" = Some (VNum (1#5)).
Proof. repeat split; [constructor|simpl; tauto]. Qed.

Example C07_example :
  let a := atom_run (atom_new 0 (Some "B") (VNum (1#5)) VNone (VNum 1) [("spin", VNum 1)])
             [SetItem "spin" (VNum 2); SetAttr "color" (VStr "C2"); SetItem "q" (VNum 3);
              DelItem "radius"; SetAttr "zz" (VNum 1)] in
  good_kwargs [("spin", VNum 1)] /\
  atom_getitem a "spin" = Some (VNum 2) /\ atom_getattr a "color" = Some (VStr "C2") /\
  atom_getitem a "radius" = None /\ atom_getitem a "zz" = None /\ atom_len a = 3.
Proof.
  repeat split.
  - repeat constructor; simpl; tauto.
  - simpl. intros k [<-|[]] H. intuition discriminate.
Qed.

(** ** C08: copy *)

(** For every reachable atom: [copy] raises exactly when a parameter called name, weight, self or
    copy is stored; otherwise the copy is equal, has the same name, weight and parameters; only
    deleted default parameters come back. *)
Theorem C08_copy_faithful :
  forall count name radius color weight kwargs ops count',
    good_kwargs kwargs ->
    let a := atom_run (atom_new count name radius color weight kwargs) ops in
    (atom_copy count' a = None <->
      exists k, In k ["name"; "weight"; "self"; "copy"]%list /\ atom_getitem a k <> None) /\
    forall b, atom_copy count' a = Some b ->
      atom_eq a b = true /\ atom_eq b a = true /\ a_name b = a_name a /\
      a_weight b = a_weight a /\ a_index b = count' /\
      (forall q v, atom_getitem a q = Some v -> atom_getitem b q = Some v) /\
      (forall q, atom_getitem a q = None -> atom_getitem b q <> None ->
         (q = "color" /\ atom_getitem b q = Some VNone) \/
         (q = "radius" /\ atom_getitem b q = Some (VNum (1#5)))).
Proof.
  intros cnt name radius color weight kw ops cnt' Hk a. split.
  - apply atom_copy_None.
  - intros b Hb.
    assert (a_name a <> "") as Hne by apply name_nonempty.
    destruct (atom_copy_spec cnt' a b Hne Hb) as [H1 [H2 [H3 H4]]].
    assert (atom_getitem a "name" = None) as Hna.
    { destruct (atom_getitem a "name") eqn:E; auto. exfalso.
      assert (atom_copy cnt' a = None) as X; [|congruence].
      apply atom_copy_None. exists "name". split; [simpl; auto|congruence]. }
    assert (atom_getitem b "name" = None) as Hnb.
    { rewrite H4, Hna. reflexivity. }
    repeat split; auto.
    + apply atom_eq_names; auto.
    + apply atom_eq_names; auto.
    + intros q v Hq. rewrite H4, Hq. reflexivity.
    + intros q Hq Hn. rewrite H4, Hq in *.
      destruct (string_dec q "color"); [left; auto|].
      destruct (string_dec q "radius"); [right; auto|congruence].
Qed.

Example C08_example :
  let a := atom_run (atom_new 0 (Some "B") (VNum (1#5)) VNone (VNum 2) [("spin", VNum 1)])
             [DelItem "color"] in
  exists b, atom_copy 7 a = Some b /\ atom_getitem b "spin" = Some (VNum 1) /\
            atom_getitem a "color" = None /\ atom_getitem b "color" = Some VNone /\
            atom_copy 8 (atom_run a [SetItem "weight" (VNum 1)]) = None.
Proof. eexists. repeat split. Qed.

Print Assumptions C06_eq_equivalence.
Print Assumptions C06_reachable_plain.
Print Assumptions C07_reads_replay_history.
Print Assumptions C07_errors.
Print Assumptions C07_last_write_wins.
Print Assumptions C08_copy_faithful.
Print Assumptions C06_name_param_refuted.
Print Assumptions C07_attributes.
Print Assumptions C07_dict.
Print Assumptions C07_dict_weight_refuted.
