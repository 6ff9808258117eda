(** * Facts about lattices: first matches, well-formedness of examples *)
From Coq Require Import List ZArith QArith Qabs Bool Arith Lia Lqa Permutation Sorting.Sorted.
From Verif Require Import Np NpFacts LinAlg SpecUtils DataModel SpecData DataFacts DataProofs LatticeModel SpecLattice.
Import ListNotations.
Open Scope nat_scope.
Open Scope list_scope.

(** The first position of a true entry. *)
Lemma where_hd mask i : hd_error (where_ mask) = Some i <-> first (fun k => nth k mask false = true) i.
Proof.
  pose proof (where_sorted mask) as Hs. pose proof (In_where mask) as Hin.
  destruct (where_ mask) as [|x l]; cbn.
  - split; [discriminate|]. intros [H _]. apply Hin in H. destruct H.
  - inversion Hs; subst. rewrite Forall_forall in H2. split.
    + intro E. injection E as <-. split; [apply Hin; left; auto|]. intros k Hk Hm. apply Hin in Hm. destruct Hm as [<-|Hm]; [lia|]. specialize (H2 k Hm). lia.
    + intros [Ha Hb]. apply Hin in Ha. destruct Ha as [<-|Ha]; auto. exfalso. apply (Hb x); [auto|apply Hin; left; auto].
Qed.

Lemma where_hd_none mask : hd_error (where_ mask) = None <-> forall k, nth k mask false = false.
Proof.
  pose proof (In_where mask) as Hin. destruct (where_ mask) as [|x l]; cbn.
  - split; auto. intros _ k. destruct (nth k mask false) eqn:E; auto. apply Hin in E. destruct E.
  - split; [discriminate|]. intro H. specialize (H x). rewrite (proj1 (Hin x)) in H by (left; auto). discriminate.
Qed.

Lemma nth_map_false {A} (f : A -> bool) l k :
  nth k (map f l) false = true <-> exists x, nth_error l k = Some x /\ f x = true.
Proof.
  revert k. induction l as [|y l IH]; intros [|k]; cbn.
  - split; [discriminate|]. intros [x [H _]]. discriminate.
  - split; [discriminate|]. intros [x [H _]]. discriminate.
  - split; [intro H; exists y; auto|]. intros [x [E H]]. injection E as <-. auto.
  - apply IH.
Qed.

(** ** A check for concrete data *)

Definition rect_check {A} (n m : nat) (t : list (list A)) : bool :=
  (length t =? n) && forallb (fun r => length r =? m) t.

Lemma rect_checked {A} n m (t : list (list A)) : rect_check n m t = true -> rect n m t.
Proof.
  unfold rect_check. intro H. apply andb_true_iff in H. destruct H as [H1 H2]. apply Nat.eqb_eq in H1. split; auto.
  intros r Hr. rewrite forallb_forall in H2. apply Nat.eqb_eq. auto.
Qed.

Fixpoint increasing_check (l : list dist) : bool :=
  match l with [] => true | x :: xs => forallb (fun y => dleb x y && negb (deqb x y)) xs && increasing_check xs end.

Lemma increasing_checked l : increasing_check l = true -> increasing dleb l.
Proof.
  induction l as [|x l IH]; cbn; intro H; constructor.
  - apply IH. apply andb_true_iff in H. tauto.
  - apply andb_true_iff in H. destruct H as [H _]. rewrite forallb_forall in H. apply Forall_forall. intros y Hy.
    specialize (H y Hy). apply andb_true_iff in H. destruct H as [H1 H2]. split; auto. apply deqb_neq. apply negb_true_iff. auto.
Qed.

Definition each_slot (n m : nat) (f : nat -> nat -> bool) : bool := forallb (fun i => forallb (f i) (seq 0 m)) (seq 0 n).

Lemma each_slot_true n m f : each_slot n m f = true -> forall i c, i < n -> c < m -> f i c = true.
Proof.
  unfold each_slot. intros H i c Hi Hc. rewrite forallb_forall in H. specialize (H i ltac:(apply in_seq; lia)).
  rewrite forallb_forall in H. apply H. apply in_seq. lia.
Qed.

Definition wf_core_check (d : data) : bool :=
  let n := nsites d in
  rect_check n (S (d_dim d)) (d_indices d) && rect_check n (d_dim d) (d_positions d) &&
  rect_check n (d_cols d) (d_neighbors d) && rect_check n (d_cols d) (d_distances d) &&
  (d_invalid_idx d =? n) && increasing_check (d_distvals d) &&
  match nth_error (d_distvals d) (d_invalid_distidx d) with Some Inf => true | _ => false end &&
  each_slot n (d_cols d) (fun i c => di d i c <? length (d_distvals d)) &&
  each_slot n (d_cols d) (fun i c => negb (valid d i c) || (nb d i c <? n)).

Lemma wf_core_checked d : wf_core_check d = true -> wf_core d.
Proof.
  unfold wf_core_check. cbv zeta. intro H. rewrite !andb_true_iff in H.
  destruct H as [[[[[[[[H1 H2] H3] H4] H5] H6] H7] H8] H9].
  constructor; try (apply rect_checked; assumption).
  - apply Nat.eqb_eq. assumption.
  - apply increasing_checked. assumption.
  - destruct (nth_error _ _) as [[|]|]; congruence.
  - intros i c Hi Hc. apply Nat.ltb_lt. apply (each_slot_true _ _ _ H8); auto.
  - intros i c Hi Hc Hv. apply Nat.ltb_lt. pose proof (each_slot_true _ _ _ H9 i c Hi Hc) as E. cbv beta in E. rewrite Hv in E. exact E.
Qed.

Definition wf_check (d : data) : bool :=
  let n := nsites d in
  wf_core_check d && rect_check n (d_cols d) (d_pmask d) && rect_check n (d_cols d) (d_pnvecs d) &&
  rect_check n (d_cols d) (d_paxes d) &&
  each_slot n (d_cols d) (fun i c => length (cell [] (d_pnvecs d) i c) =? d_dim d) &&
  each_slot n (d_cols d) (fun i c => length (cell [] (d_paxes d) i c) =? d_dim d) &&
  each_slot n (d_cols d) (fun i c => negb (pm d i c) || valid d i c).

Lemma wf_checked d : wf_check d = true -> wf d.
Proof.
  unfold wf_check. cbv zeta. intro H. rewrite !andb_true_iff in H.
  destruct H as [[[[[[H1 H2] H3] H4] H5] H6] H7].
  constructor; try (apply rect_checked; assumption).
  - apply wf_core_checked. assumption.
  - intros i c Hi Hc. apply Nat.eqb_eq. apply (each_slot_true _ _ _ H5); auto.
  - intros i c Hi Hc. apply Nat.eqb_eq. apply (each_slot_true _ _ _ H6); auto.
  - intros i c Hi Hc Hp. pose proof (each_slot_true _ _ _ H7 i c Hi Hc) as E. cbv beta in E. rewrite Hp in E. exact E.
Qed.

Definition padded_check (d : data) : bool :=
  each_slot (nsites d) (d_cols d) (fun i c => valid d i c || (nb d i c =? nsites d)).

Lemma padded_checked d : padded_check d = true -> padded d.
Proof.
  intros H i c Hi Hc Hv. pose proof (each_slot_true _ _ _ H i c Hi Hc) as E. cbv beta in E. rewrite Hv in E. apply Nat.eqb_eq. exact E.
Qed.
