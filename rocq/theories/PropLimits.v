(** * C61: limits, centre and relative positions *)
From Coq Require Import String List ZArith QArith Qabs Bool Arith Lia Lqa.
From Verif Require Import Np NpFacts LinAlg LinFacts SpecUtils SpecBasis SpecSpatial AtomModel BasisModel ShapeModel ShapeProofs
  StructureModel DataModel LatticeModel SpecLattice LatticeExamples.
Import ListNotations.
Open Scope nat_scope.
Open Scope list_scope.

(** The sites of a lattice of dimension [d]. *)
Definition has_sites (d : nat) (l : lattice) : Prop :=
  lt_positions l <> [] /\ forall p, In p (lt_positions l) -> length p = d.

(** Coordinate [j] of all sites. *)
Definition coords (j : nat) (l : lattice) : list Q := map (fun p : list Q => nth j p 0%Q) (lt_positions l).

Theorem C61_limits :
  forall d l, has_sites d l ->
    exists lim, limits l = Some lim /\ length lim = d /\
      forall j, j < d -> is_min (coords j l) (fst (nth j lim (0, 0)%Q)) /\ is_max (coords j l) (snd (nth j lim (0, 0)%Q)).
Proof.
  intros d l [Hne Hl]. unfold limits, coords. destruct (lt_positions l) as [|p ps] eqn:E; [congruence|]. rewrite <- E in *.
  eexists. split; [reflexivity|]. assert (length (point_limits (lt_positions l)) = d) as L by (apply point_limits_length; auto; congruence).
  split; [exact L|]. intros j Hj. destruct (nth_error_lt (point_limits (lt_positions l)) j) as [[lo hi] Hn]; [lia|].
  rewrite (nth_of_nth_error _ _ _ _ Hn). cbn [fst snd]. apply point_limits_spec. exact Hn.
Qed.

Lemma nth_fst j (l : list (Q * Q)) : nth j (map fst l) 0%Q = fst (nth j l (0, 0)%Q).
Proof. apply (map_nth fst l (0, 0)%Q). Qed.

Lemma nth_snd j (l : list (Q * Q)) : nth j (map snd l) 0%Q = snd (nth j l (0, 0)%Q).
Proof. apply (map_nth snd l (0, 0)%Q). Qed.

Lemma nth_repeat_lt {A} (x d : A) n j : j < n -> nth j (repeat x n) d = x.
Proof. revert j. induction n as [|n IH]; intros [|j] H; cbn; auto; try lia. apply IH. lia. Qed.

Lemma relative_entries l lim f d : limits l = Some lim -> length lim = d -> length f = d ->
  exists r, relative_position l f = Some r /\ length r = d /\
    forall j, j < d -> (nth j r 0 == fst (nth j lim (0, 0)) + nth j f 0 * (snd (nth j lim (0, 0)) - fst (nth j lim (0, 0))))%Q.
Proof.
  intros El L Lf. unfold relative_position. rewrite El. cbn [option_map]. eexists. split; [reflexivity|].
  assert (length (vsub (map snd lim) (map fst lim)) = d) as L1 by (rewrite vsub_length; rewrite !map_length; auto).
  assert (length (map2 Qmult f (vsub (map snd lim) (map fst lim))) = d) as L2.
  { rewrite map2_length. unfold vec in *. lia. }
  split; [rewrite vadd_length, map_length; auto; rewrite map_length; congruence|]. intros j Hj.
  rewrite nth_vadd by (rewrite map_length; congruence).
  rewrite (nth_map2 Qmult _ _ _ 0%Q 0%Q 0%Q) by (unfold vec in *; lia).
  rewrite nth_vsub by (rewrite !map_length; auto).
  rewrite !nth_fst, nth_snd. reflexivity.
Qed.

Theorem C61_relative_position :
  forall d l f, has_sites d l -> length f = d -> (forall j, j < d -> (0 <= nth j f 0 <= 1)%Q) ->
    exists lim r, limits l = Some lim /\ relative_position l f = Some r /\ length r = d /\
      forall j, j < d ->
        let lo := fst (nth j lim (0, 0)%Q) in
        let hi := snd (nth j lim (0, 0)%Q) in
        (lo <= nth j r 0 <= hi)%Q /\ (nth j r 0 == (1 - nth j f 0) * lo + nth j f 0 * hi)%Q.
Proof.
  intros d l f H Lf Hf. destruct (C61_limits d l H) as [lim [El [L Hlim]]].
  destruct (relative_entries l lim f d El L Lf) as [r [Er [Lr Hr]]]. exists lim, r.
  split; [auto|]. split; [auto|]. split; [auto|]. intros j Hj. cbv zeta. specialize (Hf j Hj). specialize (Hr j Hj).
  destruct (Hlim j Hj) as [[[x [Hx Ex]] Hmin] [_ Hmax]].
  specialize (Hmax x Hx). revert Hr Ex Hmax Hf. generalize (nth j r 0%Q), (nth j f 0%Q), (fst (nth j lim (0, 0)%Q)), (snd (nth j lim (0, 0)%Q)).
  intros z t lo hi Hr Ex Hmax [H0 H1]. assert (0 <= hi - lo)%Q by lra.
  assert (0 <= t * (hi - lo))%Q by (apply Qmult_le_0_compat; lra).
  assert (0 <= (1 - t) * (hi - lo))%Q by (apply Qmult_le_0_compat; lra).
  rewrite Hr. split; [split|]; [lra| |ring]. setoid_replace (lo + t * (hi - lo))%Q with (hi - (1 - t) * (hi - lo))%Q by ring. lra.
Qed.

Theorem C61_center :
  forall l, has_sites (b_dim (lt_basis l)) l ->
    exists lim r, limits l = Some lim /\ center l = Some r /\ length r = b_dim (lt_basis l) /\
      forall j, j < b_dim (lt_basis l) ->
        (nth j r 0 == (fst (nth j lim (0, 0)) + snd (nth j lim (0, 0))) / 2)%Q.
Proof.
  intros l H. destruct (C61_limits _ l H) as [lim [El [L _]]].
  destruct (relative_entries l lim (repeat (1#2)%Q (b_dim (lt_basis l))) _ El L (repeat_length _ _)) as [r [Er [Lr Hr]]].
  exists lim, r. split; [auto|]. split; [auto|]. split; [auto|]. intros j Hj. rewrite (Hr j Hj), (nth_repeat_lt _ _ _ _ Hj). field.
Qed.

(** ** Centre of gravity *)

Lemma all_some_map {A B} (f : A -> option B) (g : A -> B) l :
  (forall x, In x l -> f x = Some (g x)) -> all_some (map f l) = Some (map g l).
Proof. induction l as [|x l IH]; intro H; cbn; auto. rewrite (H x) by (left; auto). rewrite IH by (intros; apply H; right; auto). reflexivity. Qed.

Definition weighted (ms : list Q) (xs : list Q) : Q := fold_right Qplus 0%Q (map2 Qmult ms xs).

Lemma weighted_sum d ms ps j : length ms = length ps -> (forall p, In p ps -> length p = d) ->
  length (fold_right vadd (vzero d) (map2 vscale ms ps)) = d /\
  (nth j (fold_right vadd (vzero d) (map2 vscale ms ps)) 0 == weighted ms (map (fun p => nth j p 0) ps))%Q.
Proof.
  unfold weighted, vzero. revert ps. induction ms as [|m ms IH]; intros [|p ps] L Hp; cbn [map2 fold_right map length] in *; try discriminate.
  - split; [apply repeat_length|]. destruct (Nat.lt_ge_cases j d) as [Hj|Hj]; [rewrite nth_repeat_lt by auto; reflexivity|].
    rewrite nth_overflow by (rewrite repeat_length; auto). reflexivity.
  - destruct (IH ps) as [I1 I2]; [lia|intros q Hq; apply Hp; right; auto|].
    assert (length (vscale m p) = d) as Lm by (unfold vscale; rewrite map_length; apply Hp; left; auto).
    split.
    + rewrite vadd_length; unfold vec in *; congruence.
    + rewrite nth_vadd by (unfold vec in *; congruence). rewrite I2. unfold vscale.
      destruct (Nat.lt_ge_cases j (length p)) as [Hj|Hj].
      * rewrite (nth_indep _ 0%Q (m * 0)%Q) by (rewrite map_length; auto). rewrite (map_nth (Qmult m)). reflexivity.
      * rewrite nth_overflow by (rewrite map_length; auto). rewrite (nth_overflow p) by auto. ring.
Qed.

Lemma weighted_bounds ms xs lo hi : length ms = length xs -> (forall m, In m ms -> 0 < m)%Q ->
  (forall x, In x xs -> lo <= x <= hi)%Q ->
  (lo * fold_right Qplus 0 ms <= weighted ms xs)%Q /\ (weighted ms xs <= hi * fold_right Qplus 0 ms)%Q.
Proof.
  unfold weighted. revert xs. induction ms as [|m ms IH]; intros [|x xs] L Hm Hx; cbn [map2 fold_right length] in *; try discriminate.
  - split; lra.
  - destruct (IH xs) as [I1 I2]; [lia|intros; apply Hm; right; auto|intros; apply Hx; right; auto|].
    assert (0 < m)%Q as Hm0 by (apply Hm; left; auto). destruct (Hx x) as [H1 H2]; [left; auto|].
    assert (0 <= m * (x - lo))%Q by (apply Qmult_le_0_compat; lra).
    assert (0 <= m * (hi - x))%Q by (apply Qmult_le_0_compat; lra).
    split; lra.
Qed.

Lemma total_pos ms : ms <> [] -> (forall m, In m ms -> 0 < m)%Q -> (0 < fold_right Qplus 0 ms)%Q.
Proof.
  destruct ms as [|m ms]; [congruence|]. intros _ H. cbn. assert (0 < m)%Q by (apply H; left; auto).
  assert (0 <= fold_right Qplus 0 ms)%Q; [|lra]. assert (forall x, In x ms -> 0 < x)%Q as H' by (intros; apply H; right; auto).
  clear H H0. induction ms as [|x ms IH]; cbn; [lra|]. assert (0 < x)%Q by (apply H'; left; auto).
  assert (0 <= fold_right Qplus 0 ms)%Q by (apply IH; intros; apply H'; right; auto). lra.
Qed.

(** The total mass times the centre of gravity is the sum of mass times position; it lies within the limits. *)
Theorem C61_center_of_gravity :
  forall l (m : nat -> Q), has_sites (b_dim (lt_basis l)) l -> lt_num_sites l = length (lt_positions l) ->
    (* the parameter "mass" of the atoms, 1 for atoms without it *)
    (forall i, i < lt_num_sites l -> (0 < m i)%Q /\ exists a, lt_atom l i = Some a /\
       match atom_getitem a "mass" with Some v => v = VNum (m i) | None => m i = 1%Q end) ->
    let masses := map m (seq 0 (lt_num_sites l)) in
    exists lim c, limits l = Some lim /\ center_of_gravity l = Some c /\ length c = b_dim (lt_basis l) /\
      forall j, j < b_dim (lt_basis l) ->
        (fold_right Qplus 0 masses * nth j c 0 == fold_right Qplus 0 (map2 Qmult masses (coords j l)))%Q /\
        (fst (nth j lim (0, 0)) <= nth j c 0 <= snd (nth j lim (0, 0)))%Q.
Proof.
  intros l m H Hn Hmass masses.
  assert (forall i, i < lt_num_sites l -> site_mass l i = Some (m i) /\ (0 < m i)%Q) as Hm.
  { intros i Hi. destruct (Hmass i Hi) as [Hp [a [Ea H1]]]. split; auto. unfold site_mass, atom_get. rewrite Ea.
    destruct (atom_getitem a "mass") as [v|]; [rewrite H1; reflexivity|rewrite H1; reflexivity]. }
  destruct (C61_limits _ l H) as [lim [El [L Hlim]]]. exists lim.
  unfold center_of_gravity.
  rewrite (all_some_map (site_mass l) m) by (intros i Hi; apply Hm; apply in_seq in Hi; lia).
  fold masses. cbv zeta. eexists. split; [auto|]. split; [reflexivity|].
  assert (length masses = length (lt_positions l)) as Lm by (unfold masses; rewrite map_length, seq_length; auto).
  assert (forall x, In x masses -> 0 < x)%Q as Hpos.
  { intros x Hx. apply in_map_iff in Hx. destruct Hx as [i [<- Hi]]. apply in_seq in Hi. apply Hm. lia. }
  assert (0 < fold_right Qplus 0 masses)%Q as Ht.
  { apply total_pos; auto. destruct H as [Hne _]. destruct (lt_positions l); [congruence|]. destruct masses; discriminate. }
  destruct H as [Hne Hl]. split.
  - rewrite map_length. apply (weighted_sum _ masses (lt_positions l) 0 Lm Hl).
  - intros j Hj. destruct (weighted_sum _ masses (lt_positions l) j Lm Hl) as [W1 W2].
    set (sums := fold_right vadd _ _) in *. set (t := fold_right Qplus 0%Q masses) in *.
    assert (nth j (map (fun x => x / t)%Q sums) 0 == weighted masses (coords j l) / t)%Q as E.
    { rewrite (nth_indep _ 0%Q (0 / t)%Q) by (rewrite map_length; unfold vec in *; lia). rewrite (map_nth (fun x => x / t)%Q). rewrite W2. reflexivity. }
    rewrite E. destruct (Hlim j Hj) as [[_ Hmin] [_ Hmax]].
    destruct (weighted_bounds masses (coords j l) (fst (nth j lim (0, 0)%Q)) (snd (nth j lim (0, 0)%Q))) as [B1 B2]; auto.
    { unfold coords. rewrite map_length. auto. }
    fold t in B1, B2. split; [fold (weighted masses (coords j l)); field; lra|].
    split; [apply Qle_shift_div_l; auto|apply Qle_shift_div_r; auto].
Qed.

(** Without a parameter "mass" every site counts the same. *)
Example C61_example :
  has_sites 1 chain5 /\ b_dim (lt_basis chain5) = 1 /\ lt_num_sites chain5 = length (lt_positions chain5) /\
  (forall i, i < lt_num_sites chain5 -> exists a, lt_atom chain5 i = Some a /\ atom_getitem a "mass" = None) /\
  limits chain5 = Some [(0, 4)]%Q /\
  match relative_position chain5 [1#4]%Q, center chain5, center_of_gravity chain5 with
  | Some r, Some c, Some g => (nth 0 r 0 == 1 /\ nth 0 c 0 == 2 /\ nth 0 g 0 == 2)%Q
  | _, _, _ => False
  end.
Proof.
  split. { split; [discriminate|]. intros p Hp. vm_compute in Hp. intuition (subst; reflexivity). }
  split; [reflexivity|]. split; [reflexivity|]. split.
  { intros i Hi. change (lt_num_sites chain5) with 5 in Hi. do 5 (destruct i as [|i]; [eexists; split; reflexivity|]). lia. }
  split; [reflexivity|]. vm_compute. auto.
Qed.

(** Without sites there are neither limits nor positions relative to them. *)
Theorem C61_without_sites :
  forall l, lt_positions l = [] <-> limits l = None /\ center l = None /\ forall f, relative_position l f = None.
Proof.
  intro l. split.
  - intro E. assert (limits l = None) as H by (unfold limits; rewrite E; reflexivity).
    split; [exact H|]. split; [unfold center, relative_position; rewrite H; reflexivity|]. intro f. unfold relative_position. rewrite H. reflexivity.
  - intros [H _]. unfold limits in H. destruct (lt_positions l); [reflexivity|discriminate].
Qed.

Example C61_without_sites_example : lt_positions (new_lattice one_atom) = [] /\ lt_positions chain5 <> [].
Proof. split; [reflexivity|discriminate]. Qed.

Print Assumptions C61_limits.
Print Assumptions C61_relative_position.
Print Assumptions C61_center.
Print Assumptions C61_center_of_gravity.
Print Assumptions C61_without_sites.
