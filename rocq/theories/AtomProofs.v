(** * Proofs about atom.py *)
From Coq Require Import String Ascii List ZArith QArith Bool Arith Lia.
From Verif Require Import AtomModel SpecAtom.
Import ListNotations.
Open Scope nat_scope.
Open Scope string_scope.

Lemma string_eqb_neq a b : String.eqb a b = false <-> a <> b.
Proof. apply String.eqb_neq. Qed.

Lemma dict_get_set d k v q :
  dict_get (dict_set d k v) q = if string_dec q k then Some v else dict_get d q.
Proof.
  induction d as [|[k' v'] d IH]; simpl.
  - destruct (string_dec q k) as [->|N]; [rewrite String.eqb_refl|
      rewrite (proj2 (string_eqb_neq q k) N)]; auto.
  - destruct (String.eqb k k') eqn:E.
    + apply String.eqb_eq in E. subst k'. simpl.
      destruct (string_dec q k) as [->|N]; [rewrite String.eqb_refl|
        rewrite (proj2 (string_eqb_neq q k) N)]; auto.
    + simpl. rewrite IH. destruct (string_dec q k) as [->|N]; auto.
      rewrite E. reflexivity.
Qed.

Lemma dict_get_In d k v : dict_get d k = Some v -> In k (map fst d).
Proof.
  induction d as [|[k' v'] d IH]; simpl; [discriminate|].
  destruct (String.eqb k k') eqn:E; auto.
  apply String.eqb_eq in E. auto.
Qed.

Lemma dict_get_None d k : dict_get d k = None <-> ~ In k (map fst d).
Proof.
  induction d as [|[k' v'] d IH]; simpl; [tauto|].
  destruct (String.eqb k k') eqn:E.
  - apply String.eqb_eq in E. subst. split; [discriminate|tauto].
  - apply string_eqb_neq in E. rewrite IH. intuition congruence.
Qed.

Lemma dict_get_del d k q :
  NoDup (map fst d) ->
  dict_get (dict_del d k) q = if string_dec q k then None else dict_get d q.
Proof.
  induction d as [|[k' v'] d IH]; simpl; intro Hnd.
  - destruct (string_dec q k); auto.
  - inversion Hnd as [|? ? Hni Hnd']; subst.
    destruct (String.eqb k k') eqn:E.
    + apply String.eqb_eq in E. subst k'.
      destruct (string_dec q k) as [->|N].
      * apply dict_get_None. assumption.
      * rewrite (proj2 (string_eqb_neq q k) N). reflexivity.
    + simpl. rewrite IH by assumption. destruct (string_dec q k) as [->|N]; auto.
      rewrite E. reflexivity.
Qed.

Lemma keys_dict_set d k v :
  map fst (dict_set d k v) = map fst d \/
  (~ In k (map fst d) /\ map fst (dict_set d k v) = map fst d ++ [k])%list.
Proof.
  induction d as [|[k' v'] d IH]; simpl; [auto|].
  destruct (String.eqb k k') eqn:E; simpl; auto.
  apply string_eqb_neq in E. destruct IH as [->|[H ->]]; auto.
  right. split; auto. intros [->|H']; auto.
Qed.

Lemma NoDup_dict_set d k v : NoDup (map fst d) -> NoDup (map fst (dict_set d k v)).
Proof.
  intro H. destruct (keys_dict_set d k v) as [->|[Hn ->]]; auto.
  rewrite <- (rev_involutive (map fst d ++ [k])%list). apply NoDup_rev.
  rewrite rev_app_distr. simpl. constructor.
  - rewrite <- in_rev. assumption.
  - apply NoDup_rev. assumption.
Qed.

Lemma In_keys_dict_del d k q : In q (map fst (dict_del d k)) -> In q (map fst d).
Proof.
  induction d as [|[k' v'] d IH]; simpl; auto.
  destruct (String.eqb k k'); simpl; tauto.
Qed.

Lemma NoDup_dict_del d k : NoDup (map fst d) -> NoDup (map fst (dict_del d k)).
Proof.
  induction d as [|[k' v'] d IH]; simpl; auto. intro H. inversion H; subst.
  destruct (String.eqb k k'); simpl; auto. constructor; auto.
  intro Hin. apply In_keys_dict_del in Hin. contradiction.
Qed.

Definition wf_atom (a : atom) : Prop := NoDup (map fst (a_params a)).

Lemma wf_atom_new c n r co w kw : good_kwargs kw -> wf_atom (atom_new c n r co w kw).
Proof.
  intros [H1 H2]. unfold wf_atom. simpl. constructor.
  - intros [H|H]; [discriminate|]. apply (H2 _ H). simpl. auto 10.
  - constructor; auto. intro H. apply (H2 _ H). simpl. auto 10.
Qed.

Lemma wf_atom_step a op : wf_atom a -> wf_atom (fst (atom_step a op)).
Proof.
  unfold wf_atom. destruct op as [k v|k v|k]; simpl; intro H.
  - apply NoDup_dict_set. assumption.
  - destruct (_ && _); simpl; auto. apply NoDup_dict_set. assumption.
  - destruct (dict_mem _ _); simpl; auto. apply NoDup_dict_del. assumption.
Qed.

Lemma wf_atom_run a ops : wf_atom a -> wf_atom (atom_run a ops).
Proof.
  unfold atom_run. revert a. induction ops as [|op ops IH]; simpl; auto.
  intros a H. apply IH. apply wf_atom_step. assumption.
Qed.

Lemma starts_prefix k : starts_underscore k = prefix "_" k.
Proof.
  destruct k as [|[[] [] [] [] [] [] [] []] k]; try reflexivity; destruct k; reflexivity.
Qed.

Lemma atom_step_getitem a op q :
  wf_atom a ->
  atom_getitem (fst (atom_step a op)) q = replay (atom_getitem a) [op] q.
Proof.
  intro Hwf. destruct op as [k v|k v|k]; simpl; unfold atom_getitem.
  - apply dict_get_set.
  - rewrite starts_prefix. unfold dict_mem.
    destruct (prefix "_" k); simpl.
    + destruct (string_dec q k) as [->|N]; auto.
    + destruct (dict_get (a_params a) k) eqn:E; simpl.
      * apply dict_get_set.
      * destruct (string_dec q k) as [->|N]; auto.
  - unfold dict_mem. destruct (dict_get (a_params a) k) eqn:E; simpl.
    + apply dict_get_del. assumption.
    + destruct (string_dec q k) as [->|N]; auto.
Qed.

Lemma replay_ext f g h q : (forall k, f k = g k) -> replay f h q = replay g h q.
Proof.
  intro H. revert q. induction h as [|[k v|k v|k] h IH]; intro q; simpl; auto.
  - rewrite IH. reflexivity.
  - rewrite !IH. reflexivity.
  - rewrite IH. reflexivity.
Qed.

Lemma replay_app init h1 h2 q : replay init (h1 ++ h2) q = replay (replay init h2) h1 q.
Proof.
  revert q. induction h1 as [|[k v|k v|k] h IH]; intro q; simpl; auto; rewrite ?IH; reflexivity.
Qed.

Lemma atom_run_replay a ops q :
  wf_atom a -> atom_getitem (atom_run a ops) q = replay (atom_getitem a) (rev ops) q.
Proof.
  unfold atom_run. revert a. induction ops as [|op ops IH]; intros a H; simpl; auto.
  rewrite IH by (apply wf_atom_step; assumption). rewrite replay_app. apply replay_ext.
  intro k. apply atom_step_getitem. assumption.
Qed.

Lemma replay_untouched init h q : untouched q h -> replay init h q = init q.
Proof.
  unfold untouched. induction 1 as [|op h Hop _ IH]; simpl; auto.
  destruct op; destruct (string_dec q k); congruence.
Qed.

Lemma untouched_rev q ops : untouched q ops -> untouched q (rev ops).
Proof. apply Forall_rev. Qed.

Lemma atom_run_name a ops :
  a_name (atom_run a ops) = a_name a /\ a_weight (atom_run a ops) = a_weight a /\
  a_index (atom_run a ops) = a_index a.
Proof.
  unfold atom_run. revert a. induction ops as [|op ops IH]; intros a; simpl; auto.
  destruct (IH (fst (atom_step a op))) as [-> [-> ->]].
  destruct op; simpl; auto.
  - destruct (_ && _); auto.
  - destruct (dict_mem _ _); auto.
Qed.

Lemma getattr_name a : atom_getitem a "name" = None -> atom_getattr a "name" = Some (VStr (a_name a)).
Proof.
  unfold atom_getitem, atom_getattr, dict_mem. intros ->. reflexivity.
Qed.

Lemma atom_eq_names a b :
  atom_getitem b "name" = None -> (atom_eq a b = true <-> a_name a = a_name b).
Proof.
  intro H. unfold atom_eq. rewrite (getattr_name b H). simpl. apply String.eqb_eq.
Qed.

Lemma name_nonempty c n r co w kw ops :
  a_name (atom_run (atom_new c n r co w kw) ops) <> "".
Proof.
  destruct (atom_run_name (atom_new c n r co w kw) ops) as [-> _]. simpl.
  unfold default_name. destruct n as [s|]; [|discriminate].
  destruct (String.eqb s "") eqn:E; [discriminate|]. apply String.eqb_neq in E. assumption.
Qed.

Lemma dict_get_filter d (p : string -> bool) q :
  dict_get (filter (fun kv => p (fst kv)) d) q = if p q then dict_get d q else None.
Proof.
  induction d as [|[k v] d IH]; simpl.
  - destruct (p q); auto.
  - destruct (p k) eqn:E; simpl; rewrite IH.
    + destruct (String.eqb q k) eqn:F; auto. apply String.eqb_eq in F. subst. rewrite E. auto.
    + destruct (String.eqb q k) eqn:F; auto. apply String.eqb_eq in F. subst. rewrite E. auto.
Qed.

Lemma atom_copy_None c a :
  atom_copy c a = None <->
  exists k, In k ["name"; "weight"; "self"; "copy"]%list /\ atom_getitem a k <> None.
Proof.
  unfold atom_copy, atom_getitem, dict_mem. split.
  - intro H.
    destruct (dict_get (a_params a) "copy") eqn:E1;
      [exists "copy"; split; [simpl; auto|congruence]|].
    destruct (dict_get (a_params a) "name") eqn:E2;
      [exists "name"; split; [simpl; auto|congruence]|].
    destruct (dict_get (a_params a) "weight") eqn:E3;
      [exists "weight"; split; [simpl; auto|congruence]|].
    destruct (dict_get (a_params a) "self") eqn:E4;
      [exists "self"; split; [simpl; auto|congruence]|].
    discriminate.
  - intros [k [Hk Hg]].
    destruct (dict_get (a_params a) "copy") eqn:E1; auto.
    destruct (dict_get (a_params a) "name") eqn:E2; auto.
    destruct (dict_get (a_params a) "weight") eqn:E3; auto.
    destruct (dict_get (a_params a) "self") eqn:E4; auto.
    exfalso. simpl in Hk. destruct Hk as [<-|[<-|[<-|[<-|[]]]]]; congruence.
Qed.

Lemma atom_copy_spec c a b :
  a_name a <> "" -> atom_copy c a = Some b ->
  a_name b = a_name a /\ a_weight b = a_weight a /\ a_index b = c /\
  forall q, atom_getitem b q =
    match atom_getitem a q with
    | Some v => Some v
    | None => if string_dec q "color" then Some VNone
              else if string_dec q "radius" then Some (VNum (1#5)) else None
    end.
Proof.
  intros Hn H. unfold atom_copy in H.
  destruct (dict_mem (a_params a) "copy"); [discriminate|].
  destruct (_ || _); [discriminate|].
  injection H as <-. simpl. repeat split; auto.
  - destruct (String.eqb (a_name a) "") eqn:E; auto. apply String.eqb_eq in E. contradiction.
  - intro q. unfold atom_getitem. simpl.
    rewrite (dict_get_filter (a_params a)
       (fun k => negb (String.eqb k "radius" || String.eqb k "color"))).
    destruct (string_dec q "color") as [->|N1]; simpl.
    + destruct (dict_get (a_params a) "color"); auto.
    + rewrite (proj2 (String.eqb_neq q "color") N1).
      destruct (string_dec q "radius") as [->|N2]; simpl.
      * destruct (dict_get (a_params a) "radius"); auto.
      * rewrite (proj2 (String.eqb_neq q "radius") N2). simpl.
        destruct (dict_get (a_params a) q); auto.
Qed.
