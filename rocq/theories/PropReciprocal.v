(** * Further properties of the reciprocal lattice (C12) *)
From Coq Require Import List ZArith QArith Qabs Bool Arith Lia Lqa.
From Verif Require Import Np NpFacts LinAlg LinFacts SpecBasis BasisModel BasisProofs NeighborCellProofs ReciprocalProofs PropBasis.
Import ListNotations.
Open Scope Q_scope.

(** The vectors in three dimensions: the lattice vectors as rows, filled up with the identity. *)
Theorem C12_vectors3d :
  forall b, square (b_dim b) (b_mat b) ->
    ((1 <= b_dim b <= 3)%nat -> exists m, vectors3d b = Some m /\ square 3 m /\
       forall i j, (i < 3)%nat -> (j < 3)%nat ->
         entry m i j = if (i <? b_dim b)%nat && (j <? b_dim b)%nat then entry (b_mat b) j i else delta i j) /\
    ((4 <= b_dim b)%nat -> vectors3d b = None).
Proof.
  intros b Hs. split.
  - intro Hd. remember (b_dim b) as d eqn:E. destruct d as [|[|[|[|d]]]]; try lia; unfold vectors3d.
    + apply square1 in Hs. destruct Hs as [a ->]. eexists. split; [reflexivity|]. split.
      * split; [reflexivity|]. intros row [<-|[<-|[<-|[]]]]; reflexivity.
      * intros [|[|[|i]]] [|[|[|j]]] Hi Hj; try lia; reflexivity.
    + apply square2 in Hs. destruct Hs as [a [c [e [f ->]]]]. eexists. split; [reflexivity|]. split.
      * split; [reflexivity|]. intros row [<-|[<-|[<-|[]]]]; reflexivity.
      * intros [|[|[|i]]] [|[|[|j]]] Hi Hj; try lia; reflexivity.
    + apply square3 in Hs. destruct Hs as [m1 [m2 [m3 [m4 [m5 [m6 [m7 [m8 [m9 ->]]]]]]]]]. eexists. split; [reflexivity|]. split.
      * split; [reflexivity|]. intros row [<-|[<-|[<-|[]]]]; reflexivity.
      * intros [|[|[|i]]] [|[|[|j]]] Hi Hj; try lia; reflexivity.
  - intro Hd. unfold vectors3d. unfold b_dim in Hd. destruct (b_mat b) as [|r0 [|r1 [|r2 [|r3 M]]]]; simpl in Hd; try lia.
    destruct r0 as [|? [|? [|? [|? ?]]]]; try reflexivity; destruct r1 as [|? [|? [|? [|? ?]]]]; try reflexivity;
    destruct r2 as [|? [|? [|? [|? ?]]]]; reflexivity.
Qed.

Example C12_vectors3d_example :
  square 2 [[1; 1#2]; [0; -1]] /\
  vectors3d (mkBasis [[1; 1#2]; [0; -1]] [[1; 1#2]; [0; -1]]) = Some [[1; 0; 0]; [1#2; -1; 0]; [0; 0; 1]] /\
  vectors3d (mkBasis [[7]] [[1#7]]) = Some [[7; 0; 0]; [0; 1; 0]; [0; 0; 1]].
Proof. split; [|split; reflexivity]. split; [reflexivity|]. intros row [<-|[<-|[]]]; reflexivity. Qed.

(** A matrix dual to the lattice vectors is 2 pi times the inverse matrix. *)
Lemma dual_inverse d V W r c : inverse_of d V W -> square d r ->
  (forall i j, (i < d)%nat -> (j < d)%nat -> sum_upto d (fun k => entry V k i * entry r j k) == c * delta i j) ->
  forall j l, (j < d)%nat -> (l < d)%nat -> entry r j l == c * entry W j l.
Proof.
  intros [HV [HW [H1 H2]]] Hr H j l Hj Hl.
  assert (sum_upto d (fun i => sum_upto d (fun k => entry V k i * entry r j k) * entry W i l) == c * entry W j l) as E1.
  { rewrite (sum_ext d _ (fun i => delta j i * (c * entry W i l))).
    - apply sum_delta. exact Hj.
    - intros i Hi. rewrite H by auto. unfold delta. rewrite (Nat.eqb_sym i j). ring. }
  rewrite <- E1.
  rewrite (sum_ext d _ (fun i => sum_upto d (fun k => entry r j k * (entry V k i * entry W i l)))).
  2:{ intros i Hi. rewrite Qmult_comm, <- sum_scale. apply sum_ext. intros. ring. }
  rewrite sum_swap.
  rewrite (sum_ext d _ (fun k => delta l k * entry r j k)).
  { symmetry. apply sum_delta. exact Hl. }
  intros k Hk. rewrite sum_scale. rewrite H1 by auto. unfold delta. rewrite (Nat.eqb_sym l k). ring.
Qed.

Theorem C12_reciprocal_is_inverse :
  forall b two_pi tol check,
    (1 <= b_dim b <= 3)%nat -> valid_basis b -> 0 < two_pi -> 0 <= tol -> tol < 2 * two_pi ->
    exists r, reciprocal_vectors two_pi tol check b = Some r /\ square (b_dim b) r /\
      forall i j, (i < b_dim b)%nat -> (j < b_dim b)%nat -> entry r i j == two_pi * entry (b_inv b) i j.
Proof.
  intros b two_pi tol check Hd Hv H0 H1 H2.
  destruct (C12_reciprocal_vectors_dual b two_pi tol check Hd Hv H0 H1 H2) as [r [Hr [Hs H]]].
  exists r. split; auto. split; auto. intros i j Hi Hj. eapply dual_inverse; eauto.
Qed.

(** What is assumed of [np.linalg.inv]. *)
Definition inverts (inv : mat -> mat) (d : nat) : Prop :=
  forall M, (exists W, inverse_of d M W) -> inverse_of d M (inv M).

Lemma transpose_square d M : square d M -> square d (transpose d M).
Proof.
  intros [L R]. unfold transpose. split; [rewrite map_length, seq_length; reflexivity|].
  intros row H. apply in_map_iff in H. destruct H as [j [<- _]]. rewrite map_length. exact L.
Qed.

Lemma entry_transpose d M i j : square d M -> (i < d)%nat -> (j < d)%nat -> entry (transpose d M) i j = entry M j i.
Proof.
  intros [L R] Hi Hj. unfold entry, transpose. rewrite (nth_indep _ [] (map (fun row => nth 0 row 0) M)) by (rewrite map_length, seq_length; auto).
  rewrite (map_nth (fun j => map (fun row => nth j row 0) M) (seq 0 d) 0%nat i). rewrite seq_nth by auto. cbn [Nat.add].
  rewrite (nth_indep _ 0 (nth i [] 0)) by (rewrite map_length; lia). apply (map_nth (fun row => nth i row 0) M [] j).
Qed.

Lemma transpose_inverse d V W : inverse_of d V W -> inverse_of d (transpose d V) (transpose d W).
Proof.
  intros [HV [HW [H1 H2]]]. repeat split; try apply transpose_square; auto.
  - intros i j Hi Hj. rewrite (sum_ext d _ (fun k => entry W j k * entry V k i)).
    + rewrite H2 by auto. unfold delta. rewrite Nat.eqb_sym. reflexivity.
    + intros k Hk. rewrite !entry_transpose by auto. ring.
  - intros i j Hi Hj. rewrite (sum_ext d _ (fun k => entry V j k * entry W k i)).
    + rewrite H1 by auto. unfold delta. rewrite Nat.eqb_sym. reflexivity.
    + intros k Hk. rewrite !entry_transpose by auto. ring.
Qed.

Lemma scale_inverse d V W r c : ~ c == 0 -> inverse_of d V W -> square d r ->
  (forall i j, (i < d)%nat -> (j < d)%nat -> entry r i j == c * entry W i j) ->
  inverse_of d r (map (map (Qmult (/ c))) V).
Proof.
  intros Hc [HV [HW [H1 H2]]] Hr H.
  assert (square d (map (map (Qmult (/ c))) V)) as Hs.
  { destruct HV as [L R]. split; [rewrite map_length; exact L|]. intros row Hin. apply in_map_iff in Hin. destruct Hin as [row' [<- Hin]].
    rewrite map_length. auto. }
  assert (forall i j, (i < d)%nat -> (j < d)%nat -> entry (map (map (Qmult (/ c))) V) i j == / c * entry V i j) as HE.
  { intros i j Hi Hj. destruct HV as [L R]. unfold entry. rewrite (nth_indep _ [] (map (Qmult (/ c)) [])) by (rewrite map_length; lia).
    rewrite (map_nth (map (Qmult (/ c)))). assert (length (nth i V []) = d) as Li by (apply R, nth_In; lia).
    rewrite (nth_indep _ 0 (/ c * 0)) by (rewrite map_length; lia). rewrite (map_nth (Qmult (/ c))). reflexivity. }
  split; [exact Hr|]. split; [exact Hs|]. split.
  - intros i j Hi Hj. rewrite <- (H2 i j Hi Hj). apply sum_ext. intros k Hk. rewrite H, HE by auto. field. exact Hc.
  - intros i j Hi Hj. rewrite <- (H1 i j Hi Hj). apply sum_ext. intros k Hk. rewrite H, HE by auto. field. exact Hc.
Qed.

(** [reciprocal_lattice]: the argument makes no difference, and the reciprocal lattice of the reciprocal lattice has the
    vectors of the lattice. *)
Theorem C12_reciprocal_lattice :
  forall inv b two_pi min_negative,
    (1 <= b_dim b <= 3)%nat -> valid_basis b -> inverts inv (b_dim b) -> 1 <= two_pi ->
    exists rb, reciprocal_lattice inv two_pi min_negative b = Some rb /\ b_dim rb = b_dim b /\ valid_basis rb /\
      (forall i j, (i < b_dim b)%nat -> (j < b_dim b)%nat ->
         sum_upto (b_dim b) (fun k => entry (b_mat b) k i * entry (b_mat rb) k j) == two_pi * delta i j) /\
      forall again, exists rrb, reciprocal_lattice inv two_pi again rb = Some rrb /\ b_dim rrb = b_dim b /\
        forall i j, (i < b_dim b)%nat -> (j < b_dim b)%nat -> entry (b_mat rrb) i j == entry (b_mat b) i j.
Proof.
  intros inv b two_pi mn Hd Hv Hinv H1. set (d := b_dim b) in *.
  assert (forall rb mn', b_dim rb = d -> valid_basis rb -> exists r, reciprocal_vectors two_pi (if mn' : bool then 1 else 0) false rb = Some r /\
    square d r /\ (forall i j, (i < d)%nat -> (j < d)%nat -> sum_upto d (fun k => entry (b_mat rb) k i * entry r j k) == two_pi * delta i j) /\
    forall i j, (i < d)%nat -> (j < d)%nat -> entry r i j == two_pi * entry (b_inv rb) i j) as HR.
  { intros rb mn' Ed Hrb. destruct (C12_reciprocal_vectors_dual rb two_pi (if mn' then 1 else 0) false) as [r [E [Hs H]]]; auto.
    - rewrite Ed. exact Hd.
    - lra.
    - destruct mn'; lra.
    - destruct mn'; lra.
    - exists r. rewrite Ed in *. split; auto. split; auto. split; auto. unfold valid_basis in Hrb. rewrite Ed in Hrb. eapply dual_inverse; eauto. }
  destruct (HR b mn eq_refl Hv) as [r [E [Hs [Hdual Hr]]]].
  assert (length r = d) as Lr by apply Hs.
  assert (~ two_pi == 0) as Hz by lra.
  pose proof (scale_inverse d _ _ r two_pi Hz Hv Hs Hr) as Hi1.
  pose proof (transpose_inverse d _ _ Hi1) as Hi2.
  set (rb := new_basis inv r).
  assert (b_mat rb = transpose d r) as Em by (unfold rb, new_basis; cbn; rewrite Lr; reflexivity).
  assert (b_dim rb = d) as Ed by (unfold b_dim; rewrite Em; apply transpose_square; auto).
  assert (valid_basis rb) as Hvb.
  { unfold valid_basis. rewrite Ed, Em. assert (b_inv rb = inv (transpose d r)) as -> by (unfold rb, new_basis; cbn; rewrite Lr; reflexivity).
    apply Hinv. eexists. exact Hi2. }
  exists rb. split; [unfold reciprocal_lattice; rewrite E; reflexivity|]. split; auto. split; auto. split.
  { intros i j Hi Hj. rewrite Em. rewrite <- (Hdual i j Hi Hj). apply sum_ext. intros k Hk. rewrite entry_transpose by auto. reflexivity. }
  intro again. destruct (HR rb again Ed Hvb) as [r2 [E2 [Hs2 [Hdual2 _]]]].
  assert (length r2 = d) as Lr2 by apply Hs2.
  exists (new_basis inv r2). split; [unfold reciprocal_lattice; rewrite E2; reflexivity|].
  assert (b_mat (new_basis inv r2) = transpose d r2) as Em2 by (unfold new_basis; cbn; rewrite Lr2; reflexivity).
  split; [unfold b_dim; rewrite Em2; apply transpose_square; auto|].
  intros i j Hi Hj. rewrite Em2, entry_transpose by auto.
  (* r2 is dual to r, whose inverse is V / two_pi *)
  rewrite (dual_inverse d _ _ r2 two_pi Hi2 Hs2) with (j := j) (l := i); auto.
  2:{ intros i' j' Hi' Hj'. rewrite <- Em. apply Hdual2; auto. }
  assert (square d (b_mat b)) as HV by apply Hv.
  rewrite entry_transpose by (auto; apply Hi1).
  assert (entry (map (map (Qmult (/ two_pi))) (b_mat b)) i j == / two_pi * entry (b_mat b) i j) as ->.
  { destruct HV as [L R]. unfold entry. rewrite (nth_indep _ [] (map (Qmult (/ two_pi)) [])) by (rewrite map_length; eapply Nat.lt_le_trans; [exact Hi|]; apply Nat.eq_le_incl; symmetry; exact L).
    rewrite (map_nth (map (Qmult (/ two_pi)))). assert (length (nth i (b_mat b) []) = d) as Li by (apply R, nth_In; eapply Nat.lt_le_trans; [exact Hi|]; apply Nat.eq_le_incl; symmetry; exact L).
    rewrite (nth_indep _ 0 (/ two_pi * 0)) by (rewrite map_length; eapply Nat.lt_le_trans; [exact Hj|]; apply Nat.eq_le_incl; symmetry; exact Li). rewrite (map_nth (Qmult (/ two_pi))). reflexivity. }
  field. exact Hz.
Qed.

(** Inverse of a 2x2 matrix, and a left-handed lattice. *)
Definition inverse22 (m : mat) : mat :=
  match m with
  | [[a; b]; [c; e]] => let D := a * e - b * c in [[e / D; - b / D]; [- c / D; a / D]]
  | _ => m
  end.

Lemma inverse22_inverts : inverts inverse22 2.
Proof.
  intros M [W H]. pose proof H as [HM [HW [H1 H2]]]. apply square2 in HM. destruct HM as [a [b [c [e ->]]]].
  apply square2 in HW. destruct HW as [w1 [w2 [w3 [w4 ->]]]].
  pose proof (H1 0%nat 0%nat ltac:(lia) ltac:(lia)) as E00. pose proof (H1 0%nat 1%nat ltac:(lia) ltac:(lia)) as E01.
  pose proof (H1 1%nat 0%nat ltac:(lia) ltac:(lia)) as E10. pose proof (H1 1%nat 1%nat ltac:(lia) ltac:(lia)) as E11.
  cbn in E00, E01, E10, E11.
  assert ((a * e - b * c) * (w1 * w4 - w2 * w3) == 1) as Hdet.
  { setoid_replace ((a * e - b * c) * (w1 * w4 - w2 * w3)) with
      ((0 + a * w1 + b * w3) * (0 + c * w2 + e * w4) - (0 + a * w2 + b * w4) * (0 + c * w1 + e * w3)) by ring.
    rewrite E00, E01, E10, E11. cbn. reflexivity. }
  assert (~ a * e - b * c == 0) as HD by (intro HD; rewrite HD in Hdet; lra).
  split; [apply H|]. split; [split; [reflexivity|intros row [<-|[<-|[]]]; reflexivity]|].
  split; intros [|[|i]] [|[|j]] Hi Hj; try lia; cbn; field; auto.
Qed.

Example C12_reciprocal_lattice_example :
  let b := mkBasis [[1; 1#2]; [0; -1]] [[1; 1#2]; [0; -1]] in
  valid_basis b /\ inverts inverse22 (b_dim b) /\
  exists rb rrb, reciprocal_lattice inverse22 6 false b = Some rb /\ Forall2 veq (b_vectors rb) [[6; 3]; [0; -6]] /\
    reciprocal_lattice inverse22 6 true rb = Some rrb /\ Forall2 veq (b_vectors rrb) [[1; 0]; [1#2; -1]].
Proof.
  split; [apply inverse2_check; reflexivity|]. split; [apply inverse22_inverts|].
  eexists _, _. split; [reflexivity|]. split; [repeat constructor|]. split; [reflexivity|]. repeat constructor.
Qed.

Print Assumptions C12_vectors3d.
Print Assumptions C12_reciprocal_is_inverse.
Print Assumptions C12_reciprocal_lattice.
