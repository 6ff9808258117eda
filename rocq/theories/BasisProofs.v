(** * Proofs about basis.py *)
From Coq Require Import List ZArith QArith Qround Qabs Qcanon Qfield Bool Arith Lia Lqa Setoid Morphisms
  Sorting.Sorted.
From Verif Require Import Np NpFacts LinAlg LinFacts BasisModel SpecBasis.
Import ListNotations.
Open Scope Q_scope.

(** The inverse stored in the object really is the inverse. *)
Definition valid_basis (b : basis) : Prop := inverse_of (b_dim b) (b_mat b) (b_inv b).

Lemma Forall2_len {A B} {R : A -> B -> Prop} {l m} : Forall2 R l m -> length l = length m.
Proof. induction 1; simpl; congruence. Qed.

Lemma Qle_bool_true x y : x <= y -> Qle_bool x y = true.
Proof. apply Qle_bool_iff. Qed.

Lemma Qle_bool_false x y : y < x -> Qle_bool x y = false.
Proof.
  intro H. destruct (Qle_bool x y) eqn:E; auto. apply Qle_bool_iff in E. lra.
Qed.

Lemma Qle_bool_false_iff x y : Qle_bool x y = false <-> y < x.
Proof.
  split; [|apply Qle_bool_false]. intro H. apply Qnot_le_lt. rewrite <- Qle_bool_iff. congruence.
Qed.

(** ** transform / itransform *)

Lemma transform_length b x : length (transform b x) = b_dim b.
Proof. apply matvec_length. Qed.

Lemma itransform_transform b x :
  valid_basis b -> length x = b_dim b -> veq (itransform b (transform b x)) x.
Proof.
  intros Hb Hx. unfold itransform, transform. apply inverse_cancel with (d := b_dim b); auto.
  apply inverse_sym. assumption.
Qed.

Lemma transform_itransform b x :
  valid_basis b -> length x = b_dim b -> veq (transform b (itransform b x)) x.
Proof. intros Hb Hx. unfold itransform, transform. apply inverse_cancel with (d := b_dim b); auto. Qed.

Lemma itransform_length b x : valid_basis b -> length (itransform b x) = b_dim b.
Proof. intros [_ [H _]]. apply matvec_len. assumption. Qed.

(** ** translate *)

Lemma translate_length b n r : length r = b_dim b -> length (translate b n r) = b_dim b.
Proof.
  intro H. unfold translate. rewrite vadd_length; auto. rewrite matvec_length. exact H.
Qed.

Lemma nth_vzero d i : nth i (vzero d) 0 = 0.
Proof. unfold vzero. revert i. induction d; intros [|i]; simpl; auto. Qed.

Lemma vzero_length d : length (vzero d) = d.
Proof. apply repeat_length. Qed.

Lemma translate_zero_l b n :
  veq (translate b n (vzero (b_dim b))) (transform b (of_Z n)).
Proof.
  unfold translate, transform. apply veq_nth. split.
  - rewrite vadd_length; rewrite ?vzero_length, ?matvec_length; reflexivity.
  - intro i. rewrite nth_vadd by (rewrite vzero_length, matvec_length; reflexivity).
    rewrite nth_vzero. ring.
Qed.

Lemma of_Z_add m n : length m = length n -> veq (of_Z (map2 Z.add m n)) (vadd (of_Z m) (of_Z n)).
Proof.
  revert n. induction m as [|x m IH]; intros [|y n] H; try discriminate; simpl; constructor.
  - rewrite inject_Z_plus. reflexivity.
  - apply IH. simpl in H. lia.
Qed.

Lemma vadd_assoc u v w : veq (vadd u (vadd v w)) (vadd (vadd u v) w).
Proof.
  revert v w. induction u as [|x u IH]; intros [|y v] [|z w]; simpl; constructor.
  - ring.
  - apply IH.
Qed.

Lemma vadd_comm u v : veq (vadd u v) (vadd v u).
Proof. revert v. induction u as [|x u IH]; intros [|y v]; simpl; constructor; [ring|apply IH]. Qed.

Lemma translate_add b m n r :
  valid_basis b -> length m = b_dim b -> length n = b_dim b ->
  veq (translate b (map2 Z.add m n) r) (translate b m (translate b n r)).
Proof.
  intros [HV _] Hm Hn. unfold translate.
  rewrite of_Z_add by congruence.
  rewrite (matvec_vadd (b_dim b)) by (auto; rewrite of_Z_length; auto).
  rewrite (vadd_comm (matvec (b_mat b) (of_Z m))). apply vadd_assoc.
Qed.

Lemma dot_zero u d : dot u (of_Z (repeat 0%Z d)) == 0.
Proof.
  revert d. induction u as [|x u IH]; intros [|d]; try reflexivity.
  simpl repeat. change (of_Z (0%Z :: repeat 0%Z d)) with (0 :: of_Z (repeat 0%Z d)).
  rewrite dot_cons, IH. ring.
Qed.

Lemma translate_zero b r :
  length r = b_dim b -> veq (translate b (repeat 0%Z (b_dim b)) r) r.
Proof.
  intro Hr. apply veq_nth. split.
  - rewrite translate_length; auto.
  - intro i. unfold translate. rewrite nth_vadd by (rewrite matvec_length; auto).
    rewrite nth_matvec, dot_zero. ring.
Qed.

Lemma vadd_cancel_l u v w :
  length u = length v -> length u = length w -> veq (vadd u v) (vadd u w) -> veq v w.
Proof.
  intros H1 H2 H. apply veq_nth in H. destruct H as [_ H]. apply veq_nth. split; [congruence|].
  intro i. specialize (H i). rewrite !nth_vadd in H by auto. lra.
Qed.

Lemma transform_inj b x y :
  valid_basis b -> length x = b_dim b -> length y = b_dim b ->
  veq (transform b x) (transform b y) -> veq x y.
Proof.
  intros Hb Hx Hy H.
  rewrite <- (itransform_transform b x Hb Hx), <- (itransform_transform b y Hb Hy).
  unfold itransform. rewrite H. reflexivity.
Qed.

Lemma translate_inj b m n r :
  valid_basis b -> length m = b_dim b -> length n = b_dim b -> length r = b_dim b ->
  veq (translate b m r) (translate b n r) -> m = n.
Proof.
  intros Hb Hm Hn Hr H. unfold translate in H. apply vadd_cancel_l in H;
    rewrite ?matvec_length; auto.
  apply of_Z_inj. apply (transform_inj b); auto; rewrite of_Z_length; auto.
Qed.

(** ** itranslate *)

Lemma vfloor_length x : length (vfloor x) = length x.
Proof. apply map_length. Qed.

Lemma nth_vfloor x i : nth i (vfloor x) 0%Z = Qfloor (nth i x 0).
Proof. unfold vfloor. change 0%Z with (Qfloor 0) at 1. apply map_nth. Qed.

Lemma itranslate_length b x :
  valid_basis b -> length x = b_dim b ->
  length (fst (itranslate b x)) = b_dim b /\ length (snd (itranslate b x)) = b_dim b.
Proof.
  intros Hb Hx. simpl. rewrite vfloor_length, itransform_length by auto. split; auto.
  rewrite vsub_length; auto. rewrite translate_length; auto. apply vzero_length.
Qed.

Lemma itranslate_offset_coords b x i :
  valid_basis b -> length x = b_dim b -> (i < b_dim b)%nat ->
  nth i (itransform b (snd (itranslate b x))) 0 ==
  nth i (itransform b x) 0 - inject_Z (Qfloor (nth i (itransform b x) 0)).
Proof.
  intros Hb Hx Hi. simpl.
  set (n := vfloor (itransform b x)).
  assert (length n = b_dim b) as Hn.
  { unfold n. rewrite vfloor_length, itransform_length; auto. }
  assert (veq (itransform b (vsub x (translate b n (vzero (b_dim b)))))
              (vsub (itransform b x) (of_Z n))) as E.
  { unfold itransform at 1.
    rewrite (matvec_vsub (b_dim b)).
    - apply vsub_proper; [reflexivity|].
      rewrite translate_zero_l. apply itransform_transform; auto. rewrite of_Z_length. auto.
    - apply Hb.
    - auto.
    - rewrite translate_length; auto. apply vzero_length. }
  apply veq_nth in E. destruct E as [_ E]. rewrite E.
  rewrite nth_vsub by (rewrite itransform_length, of_Z_length; auto).
  rewrite nth_of_Z. unfold n. rewrite nth_vfloor. reflexivity.
Qed.

Lemma itranslate_compose b x :
  valid_basis b -> length x = b_dim b ->
  veq (translate b (fst (itranslate b x)) (snd (itranslate b x))) x.
Proof.
  intros Hb Hx. simpl. set (n := vfloor (itransform b x)).
  assert (length (translate b n (vzero (b_dim b))) = b_dim b) as Hl.
  { apply translate_length. apply vzero_length. }
  apply veq_nth. split.
  - rewrite translate_length; auto. rewrite vsub_length; congruence.
  - intro i.
    change (translate b n (vsub x (translate b n (vzero (b_dim b)))))
      with (vadd (vsub x (translate b n (vzero (b_dim b)))) (matvec (b_mat b) (of_Z n))).
    rewrite nth_vadd by (rewrite vsub_length, matvec_length; unfold b_dim in *; congruence).
    rewrite nth_vsub by congruence.
    pose proof (translate_zero_l b n) as E. apply veq_nth in E. destruct E as [_ E]. rewrite E.
    unfold transform. ring.
Qed.

Lemma itranslate_unique b x n' r' :
  valid_basis b -> length x = b_dim b -> length n' = b_dim b -> length r' = b_dim b ->
  veq (translate b n' r') x ->
  (forall i, (i < b_dim b)%nat -> 0 <= nth i (itransform b r') 0 < 1) ->
  n' = fst (itranslate b x).
Proof.
  intros Hb Hx Hn Hr Heq Hfrac. simpl.
  apply nth_ext with (d := 0%Z) (d' := 0%Z).
  - rewrite vfloor_length, itransform_length; auto.
  - rewrite Hn. intros i Hi. rewrite nth_vfloor. symmetry.
    assert (veq (itransform b x) (vadd (itransform b r') (of_Z n'))) as E.
    { unfold itransform at 1. rewrite <- Heq. unfold translate.
      rewrite (matvec_vadd (b_dim b)).
      - apply vadd_proper; [reflexivity|]. apply itransform_transform; auto.
        rewrite of_Z_length; auto.
      - apply Hb.
      - auto.
      - rewrite matvec_length. reflexivity. }
    apply veq_nth in E. destruct E as [_ E]. rewrite E.
    rewrite nth_vadd by (rewrite itransform_length, of_Z_length; auto).
    rewrite nth_of_Z. specialize (Hfrac i Hi).
    apply Qfloor_unique; rewrite ?inject_Z_plus; change (inject_Z 1) with 1; lra.
Qed.

(** ** Super-index *)

Open Scope Z_scope.

Fixpoint radix (index shape : list Z) : Z :=
  match index, shape with
  | i :: is_, s :: ss => i * zprod ss + radix is_ ss
  | _, _ => 0
  end.

Lemma fold_left_acc {A} (f : A -> Z) l a :
  fold_left (fun acc d => acc + f d) l a = a + fold_left (fun acc d => acc + f d) l 0.
Proof.
  revert a. induction l as [|x l IH]; intro a; cbn [fold_left]; [lia|].
  rewrite IH, (IH (0 + f x)). lia.
Qed.

Lemma fold_left_seq_shift f n a :
  fold_left (fun acc d => acc + f d) (seq 1 n) a =
  fold_left (fun acc d => acc + f (S d)) (seq 0 n) a.
Proof.
  rewrite <- seq_shift. generalize (seq 0 n) as l. intro l. revert a.
  induction l as [|x l IH]; intro a; simpl; auto.
Qed.

Lemma superindex_radix index shape :
  length index = length shape ->
  get_cell_superindex (length shape) index shape = radix index shape.
Proof.
  unfold get_cell_superindex. revert index. induction shape as [|s ss IH]; intros [|i is_] H;
    try discriminate; auto.
  simpl in H. change (seq 0 (length (s :: ss))) with (0%nat :: seq 1 (length ss)).
  cbn [fold_left nth]. rewrite fold_left_acc.
  rewrite fold_left_seq_shift. cbn [radix]. rewrite <- IH by lia.
  replace (skipn (0 + 1) (s :: ss)) with ss by reflexivity.
  rewrite Z.add_0_l. reflexivity.
Qed.

Fixpoint unradix (si : Z) (shape : list Z) : list Z :=
  match shape with
  | [] => []
  | [s] => [si]
  | s :: ss => (si / zprod ss) :: unradix (si mod zprod ss) ss
  end.

Lemma cell_index_loop_shift ds rest s ss :
  cell_index_loop (map S ds) rest (s :: ss) = cell_index_loop ds rest ss.
Proof.
  revert rest. induction ds as [|d ds IH]; intro rest; cbn [map cell_index_loop]; auto.
  rewrite IH. reflexivity.
Qed.

Lemma cell_index_unradix si shape :
  shape <> [] -> get_cell_index (length shape) si shape = unradix si shape.
Proof.
  unfold get_cell_index. revert si. induction shape as [|s [|s' ss] IH]; intros si H.
  - congruence.
  - reflexivity.
  - replace (length (s :: s' :: ss) - 1)%nat with (S (length ss)) by (simpl; lia).
    replace (length (s' :: ss) - 1)%nat with (length ss) in IH by (simpl; lia).
    change (seq 0 (S (length ss))) with (0%nat :: seq 1 (length ss)).
    rewrite <- seq_shift. cbn [cell_index_loop]. rewrite cell_index_loop_shift.
    rewrite IH by discriminate. reflexivity.
Qed.

Lemma zprod_pos l : Forall (fun s => 0 < s) l -> 0 < zprod l.
Proof. induction 1; simpl; lia. Qed.

Lemma radix_bound index shape :
  Forall2 (fun i s => 0 <= i < s) index shape -> 0 <= radix index shape < zprod shape.
Proof.
  induction 1 as [|i s is_ ss H H' IH]; simpl; [lia|].
  fold (zprod ss). nia.
Qed.

Lemma Forall2_shape_pos index shape :
  Forall2 (fun i s => 0 <= i < s) index shape -> Forall (fun s => 0 < s) shape.
Proof. induction 1; constructor; auto. lia. Qed.

Lemma unradix_radix index shape :
  shape <> [] -> Forall2 (fun i s => 0 <= i < s) index shape ->
  unradix (radix index shape) shape = index.
Proof.
  intros Hne H. revert Hne. induction H as [|i s is_ ss H H' IH]; intro Hne; [congruence|].
  destruct ss as [|s' ss].
  - inversion H'; subst. simpl. f_equal. lia.
  - pose proof (radix_bound _ _ H') as Hb.
    change (radix (i :: is_) (s :: s' :: ss)) with (i * zprod (s' :: ss) + radix is_ (s' :: ss)).
    change (unradix ?x (s :: s' :: ss)) with
      ((x / zprod (s' :: ss)) :: unradix (x mod zprod (s' :: ss)) (s' :: ss)).
    replace ((i * zprod (s' :: ss) + radix is_ (s' :: ss)) / zprod (s' :: ss)) with i.
    2:{ apply Z.div_unique with (radix is_ (s' :: ss)); lia. }
    replace ((i * zprod (s' :: ss) + radix is_ (s' :: ss)) mod zprod (s' :: ss))
      with (radix is_ (s' :: ss)).
    2:{ apply Z.mod_unique with i; lia. }
    f_equal. apply IH. discriminate.
Qed.

Lemma radix_unradix si shape :
  Forall (fun s => 0 < s) shape -> 0 <= si < zprod shape ->
  radix (unradix si shape) shape = si /\
  Forall2 (fun i s => 0 <= i < s) (unradix si shape) shape.
Proof.
  intro H. revert si. induction H as [|s ss Hs Hss IH]; intros si Hsi.
  - simpl in *. split; [lia|constructor].
  - destruct ss as [|s' ss].
    + simpl in *. split; [lia|]. constructor; [lia|constructor].
    + pose proof (zprod_pos _ Hss) as Hp.
      change (unradix si (s :: s' :: ss)) with
        ((si / zprod (s' :: ss)) :: unradix (si mod zprod (s' :: ss)) (s' :: ss)).
      change (zprod (s :: s' :: ss)) with (s * zprod (s' :: ss)) in Hsi.
      change (radix (?x :: ?y) (s :: s' :: ss)) with (x * zprod (s' :: ss) + radix y (s' :: ss)).
      set (P := zprod (s' :: ss)) in *.
      destruct (IH (si mod P)) as [IH1 IH2].
      { apply Z.mod_pos_bound. assumption. }
      rewrite IH1. split.
      * pose proof (Z.div_mod si P). lia.
      * constructor; auto. split.
        -- apply Z.div_pos; lia.
        -- apply Z.div_lt_upper_bound; [lia|]. lia.
Qed.

Lemma radix_lex x y shape :
  Forall2 (fun i s => 0 <= i < s) x shape -> Forall2 (fun i s => 0 <= i < s) y shape ->
  lex x y -> radix x shape < radix y shape.
Proof.
  intros Hx Hy H. revert shape Hx Hy. induction H; intros shape Hx Hy;
    inversion Hx; subst; inversion Hy; subst; simpl; fold (zprod l').
  - pose proof (radix_bound _ _ H4). pose proof (radix_bound _ _ H7).
    assert (x + 1 <= y) by lia. nia.
  - specialize (IHlex _ H4 H7). lia.
Qed.

Close Scope Z_scope.

(** ** Reciprocal vectors *)

Lemma square1 M : square 1 M -> exists a, M = [[a]].
Proof.
  intros [H1 H2]. destruct M as [|r [|]]; try discriminate.
  specialize (H2 r (or_introl eq_refl)). destruct r as [|a [|]]; try discriminate. eauto.
Qed.

Lemma square2 M : square 2 M -> exists a b c d, M = [[a; b]; [c; d]].
Proof.
  intros [H1 H2]. destruct M as [|r [|s [|]]]; try discriminate.
  pose proof (H2 r (or_introl eq_refl)). pose proof (H2 s (or_intror (or_introl eq_refl))).
  destruct r as [|a [|b [|]]]; try discriminate. destruct s as [|c [|d [|]]]; try discriminate.
  eauto.
Qed.

Lemma square3 M : square 3 M -> exists a b c d e f g h i, M = [[a; b; c]; [d; e; f]; [g; h; i]].
Proof.
  intros [H1 H2]. destruct M as [|r [|s [|t [|]]]]; try discriminate.
  pose proof (H2 r (or_introl eq_refl)). pose proof (H2 s (or_intror (or_introl eq_refl))).
  pose proof (H2 t (or_intror (or_intror (or_introl eq_refl)))).
  destruct r as [|a [|b [|c [|]]]]; try discriminate.
  destruct s as [|d [|e [|f [|]]]]; try discriminate.
  destruct t as [|g [|h [|i [|]]]]; try discriminate.
  do 9 eexists. reflexivity.
Qed.

Definition dual_to (d : nat) (two_pi : Q) (vs rs : mat) : Prop :=
  square d rs /\
  forall i j, (i < d)%nat -> (j < d)%nat ->
    dot (nth i vs []) (nth j rs []) == two_pi * delta i j.

Lemma fix_signs_step two_pi tol check v r rest :
  0 < two_pi -> 0 <= tol -> tol < 2 * two_pi ->
  (dot v r == two_pi \/ dot v r == - two_pi) ->
  fix_signs two_pi tol check ((v, r) :: rest) =
  option_map (cons (if Qle_bool (dot v r) 0 then vscale (-(1)) r else r))
    (fix_signs two_pi tol check rest).
Proof.
  intros H0 H1 H2 [H|H]; cbn [fix_signs].
  - rewrite (Qle_bool_false (Qabs (dot v r + two_pi)) tol).
    2:{ rewrite H. rewrite Qabs_pos by lra. lra. }
    rewrite (Qle_bool_true (Qabs (dot v r - two_pi)) tol).
    2:{ setoid_replace (dot v r - two_pi) with 0 by lra. simpl. exact H1. }
    rewrite andb_false_r. rewrite (Qle_bool_false (dot v r) 0) by lra. reflexivity.
  - rewrite (Qle_bool_true (Qabs (dot v r + two_pi)) tol).
    2:{ setoid_replace (dot v r + two_pi) with 0 by lra. simpl. exact H1. }
    rewrite (Qle_bool_true (dot v r) 0) by lra. reflexivity.
Qed.

Ltac lt3 i := destruct i as [|[|[|i]]]; [| | |exfalso; lia].
Ltac lt2 i := destruct i as [|[|i]]; [| |exfalso; lia].

Lemma Qabs_sign x : ~ x == 0 -> (0 < x /\ Qabs x == x) \/ (x < 0 /\ Qabs x == - x).
Proof.
  intro H. destruct (Qlt_le_dec 0 x) as [Hx|Hx].
  - left. split; auto. apply Qabs_pos. lra.
  - right. split; [|apply Qabs_neg; lra]. destruct (Qle_lt_or_eq _ _ Hx); auto. contradiction.
Qed.
