(** * Properties C09-C15 and C18 (lattpy/basis.py, cell_volume of lattpy/spatial.py) *)
From Coq Require Import List ZArith QArith Qround Qabs Qcanon Bool Arith Lia Lqa.
From Verif Require Import Np NpFacts LinAlg LinFacts BasisModel SpecBasis BasisProofs ReciprocalProofs
  NeighborCellProofs VolumeProofs.
Import ListNotations.
Open Scope Q_scope.

(** The stored matrix [b_mat] has the basis vectors as columns, [valid_basis] says that the stored inverse
    is its inverse. *)

(** ** C09 *)

Theorem C09_transform_itransform_inverse :
  forall b x, valid_basis b -> length x = b_dim b ->
    same (itransform b (transform b x)) x /\
    same (transform b (itransform b x)) x /\
    forall i, (i < b_dim b)%nat ->
      nth i (transform b x) 0 == sum_upto (b_dim b) (fun k => entry (b_mat b) i k * nth k x 0).
Proof.
  intros b x Hb Hx. repeat split.
  1,2: apply same_veq, itransform_transform; assumption.
  1,2: apply same_veq, transform_itransform; assumption.
  intros i Hi. apply nth_matvec_sum; auto. apply Hb.
Qed.

(** The hexagonal-like basis (1, 0), (1/2, 1). *)
Definition skew : basis := mkBasis [[1; 1#2]; [0; 1]] [[1; -1#2]; [0; 1]].

Lemma inverse2_check a b c d a' b' c' d' :
  a * a' + b * c' == 1 -> a * b' + b * d' == 0 -> c * a' + d * c' == 0 -> c * b' + d * d' == 1 ->
  a' * a + b' * c == 1 -> a' * b + b' * d == 0 -> c' * a + d' * c == 0 -> c' * b + d' * d == 1 ->
  inverse_of 2 [[a; b]; [c; d]] [[a'; b']; [c'; d']].
Proof.
  intros. split; [|split; [|split]].
  - split; [reflexivity|]. intros r [<-|[<-|[]]]; reflexivity.
  - split; [reflexivity|]. intros r [<-|[<-|[]]]; reflexivity.
  - intros i j Hi Hj. lt2 i; lt2 j; unfold entry, delta; cbn [sum_upto nth Nat.eqb]; lra.
  - intros i j Hi Hj. lt2 i; lt2 j; unfold entry, delta; cbn [sum_upto nth Nat.eqb]; lra.
Qed.

Lemma skew_valid : valid_basis skew.
Proof. apply inverse2_check; reflexivity. Qed.

Example C09_example :
  valid_basis skew /\ same (transform skew [2; 3]) [7#2; 3] /\ same (itransform skew [7#2; 3]) [2; 3].
Proof. split; [exact skew_valid|]. split; apply same_veq; repeat constructor. Qed.

(** ** C10 *)

Theorem C10_itranslate_unique_split :
  forall b x n r, valid_basis b -> length x = b_dim b -> itranslate b x = (n, r) ->
    (length n = b_dim b /\ length r = b_dim b) /\
    same (translate b n r) x /\
    (forall i, (i < b_dim b)%nat -> 0 <= nth i (itransform b r) 0 < 1) /\
    (forall n' r', length n' = b_dim b -> length r' = b_dim b ->
       same (translate b n' r') x ->
       (forall i, (i < b_dim b)%nat -> 0 <= nth i (itransform b r') 0 < 1) -> n' = n).
Proof.
  intros b x n r Hb Hx E.
  assert (n = fst (itranslate b x)) as -> by (rewrite E; reflexivity).
  assert (r = snd (itranslate b x)) as -> by (rewrite E; reflexivity).
  split; [apply itranslate_length; assumption|].
  split; [apply same_veq, itranslate_compose; assumption|].
  split.
  - intros i Hi. rewrite itranslate_offset_coords by assumption.
    pose proof (Qfloor_le (nth i (itransform b x) 0)).
    pose proof (Qlt_floor (nth i (itransform b x) 0)) as H1. rewrite inject_Z_plus in H1.
    change (inject_Z 1) with 1 in H1. lra.
  - intros n' r' Hn Hr Hs Hf. apply (itranslate_unique b x n' r'); auto. apply same_veq. assumption.
Qed.

Example C10_example :
  fst (itranslate skew [-1#4; 5#2]) = [-2; 2]%Z /\
  same (snd (itranslate skew [-1#4; 5#2])) [3#4; 1#2].
Proof. split; [reflexivity|]. apply same_veq. repeat constructor. Qed.

(** ** C11 *)

Open Scope Z_scope.

Definition in_shape (index shape : list Z) : Prop := Forall2 (fun i s => 0 <= i < s) index shape.

Theorem C11_superindex_bijection :
  forall shape, shape <> [] -> Forall (fun s => 0 < s) shape ->
    let d := length shape in
    (forall c, in_shape c shape ->
       0 <= get_cell_superindex d c shape < fold_right Z.mul 1 shape /\
       get_cell_index d (get_cell_superindex d c shape) shape = c) /\
    (forall s, 0 <= s < fold_right Z.mul 1 shape ->
       in_shape (get_cell_index d s shape) shape /\
       get_cell_superindex d (get_cell_index d s shape) shape = s) /\
    (forall c c', in_shape c shape -> in_shape c' shape -> lex c c' ->
       get_cell_superindex d c shape < get_cell_superindex d c' shape).
Proof.
  intros shape Hne Hpos d. unfold d, in_shape. change (fold_right Z.mul 1 shape) with (zprod shape).
  split; [|split].
  - intros c Hc. pose proof (Forall2_len Hc) as Hl.
    rewrite superindex_radix, cell_index_unradix by assumption.
    split; [apply radix_bound; assumption|apply unradix_radix; assumption].
  - intros s Hs. destruct (radix_unradix s shape Hpos Hs) as [H1 H2].
    rewrite cell_index_unradix by assumption. split; auto.
    pose proof (Forall2_len H2) as Hl. rewrite superindex_radix by assumption. assumption.
  - intros c c' Hc Hc' Hlex. pose proof (Forall2_len Hc) as Hl. pose proof (Forall2_len Hc') as Hl'.
    rewrite !superindex_radix by assumption. apply radix_lex; assumption.
Qed.

Example C11_example :
  get_cell_superindex 3 [1; 0; 4] [2; 3; 5] = 19 /\ get_cell_index 3 19 [2; 3; 5] = [1; 0; 4].
Proof. split; reflexivity. Qed.

Open Scope Q_scope.

(** ** C12 *)

(** [two_pi] is any positive number standing for 2*pi. *)
Theorem C12_reciprocal_vectors_dual :
  forall b two_pi tol check,
    (1 <= b_dim b <= 3)%nat -> valid_basis b -> 0 < two_pi -> 0 <= tol -> tol < 2 * two_pi ->
    exists r, reciprocal_vectors two_pi tol check b = Some r /\
      square (b_dim b) r /\
      forall i j, (i < b_dim b)%nat -> (j < b_dim b)%nat ->
        sum_upto (b_dim b) (fun k => entry (b_mat b) k i * entry r j k) == two_pi * delta i j.
Proof.
  intros b two_pi tol check Hd Hv H0 H1 H2.
  destruct (reciprocal_dual b two_pi tol check Hd Hv H0 H1 H2) as [r [Hr [Hs Hdual]]].
  exists r. split; auto. split; auto. intros i j Hi Hj. rewrite <- (Hdual i j Hi Hj).
  rewrite (dot_sum (b_dim b)).
  - apply sum_ext. intros k Hk. rewrite nth_b_vectors by assumption. reflexivity.
  - apply length_b_vector. assumption.
  - apply (square_row (b_dim b)); assumption.
Qed.

(** More than three dimensions raise an exception. *)
Theorem C12_reciprocal_vectors_dim4 :
  forall b two_pi tol check,
    (4 <= b_dim b)%nat -> square (b_dim b) (b_mat b) -> reciprocal_vectors two_pi tol check b = None.
Proof.
  intros b two_pi tol check Hd [Hl Hr]. unfold reciprocal_vectors.
  assert (vectors3d b = None) as E.
  { unfold vectors3d. unfold b_dim in Hd. destruct (b_mat b) as [|r0 [|r1 [|r2 [|r3 M]]]]; simpl in Hd;
    try lia. destruct r0 as [|? [|? [|? [|? ?]]]]; try reflexivity;
    destruct r1 as [|? [|? [|? [|? ?]]]]; try reflexivity;
    destruct r2 as [|? [|? [|? [|? ?]]]]; reflexivity. }
  rewrite E. pose proof (b_vectors_length b) as Hb. destruct (b_vectors b) as [|v0 [|v1 vs]]; auto.
  - simpl in Hb. lia.
  - destruct v0 as [|? [|? ?]]; reflexivity.
Qed.

(** A left-handed basis: the sign of the second vector is corrected. *)
Example C12_example :
  let b := mkBasis [[1; 1#2]; [0; -1]] [[1; 1#2]; [0; -1]] in
  valid_basis b /\
  exists r, reciprocal_vectors 6 (1#100) true b = Some r /\ veq (nth 0 r []) [6; 3] /\
            veq (nth 1 r []) [0; -6].
Proof.
  split; [apply inverse2_check; reflexivity|]. eexists. split; [reflexivity|].
  split; repeat constructor.
Qed.

(** A right-handed basis: no sign is changed, and the check of the products passes. *)
Example C12_right_handed_example :
  let b := mkBasis [[1; 1#2]; [0; 1]] [[1; -(1#2)]; [0; 1]] in
  valid_basis b /\
  exists r, reciprocal_vectors 6 (1#100) true b = Some r /\ veq (nth 0 r []) [6; -(3)] /\
            veq (nth 1 r []) [0; 6].
Proof.
  split; [apply inverse2_check; reflexivity|]. eexists. split; [reflexivity|].
  split; repeat constructor.
Qed.

(** ** C13 *)

Theorem C13_is_reciprocal :
  forall b two_pi tol vecs,
    square (b_dim b) (b_mat b) -> square (b_dim b) vecs -> 0 <= tol ->
    (* it is true exactly when all diagonal products are within the tolerance *)
    (is_reciprocal two_pi tol b vecs = true <->
       forall i, (i < b_dim b)%nat ->
         Qabs (sum_upto (b_dim b) (fun k => entry (b_mat b) k i * entry vecs i k) - two_pi) <= tol) /\
    (* in particular true reciprocal vectors are accepted *)
    ((forall i j, (i < b_dim b)%nat -> (j < b_dim b)%nat ->
        sum_upto (b_dim b) (fun k => entry (b_mat b) k i * entry vecs j k) == two_pi * delta i j) ->
     is_reciprocal two_pi tol b vecs = true).
Proof.
  intros b two_pi tol vecs Hb Hv Ht.
  assert (forall i, (i < b_dim b)%nat -> dot (nth i (b_vectors b) []) (nth i vecs []) ==
            sum_upto (b_dim b) (fun k => entry (b_mat b) k i * entry vecs i k)) as E.
  { intros i Hi. rewrite (dot_sum (b_dim b)).
    - apply sum_ext. intros k Hk. rewrite nth_b_vectors by assumption. reflexivity.
    - apply length_b_vector. assumption.
    - apply (square_row (b_dim b)); assumption. }
  assert (is_reciprocal two_pi tol b vecs = true <->
       forall i, (i < b_dim b)%nat ->
         Qabs (sum_upto (b_dim b) (fun k => entry (b_mat b) k i * entry vecs i k) - two_pi) <= tol) as S.
  { rewrite is_reciprocal_spec by apply Hv. split; intros H i Hi; specialize (H i Hi);
      [rewrite <- E by assumption|rewrite E by assumption]; assumption. }
  split; auto. intro H. apply S. intros i Hi. rewrite (H i i Hi Hi).
  unfold delta. rewrite Nat.eqb_refl.
  setoid_replace (two_pi * 1 - two_pi) with 0 by ring. assumption.
Qed.

(** Vectors that are not reciprocal are accepted: off-diagonal products are not looked at. *)
Theorem C13_offdiagonal_refuted :
  exists b vecs, valid_basis b /\ square (b_dim b) vecs /\
    is_reciprocal 6 0 b vecs = true /\
    sum_upto (b_dim b) (fun k => entry (b_mat b) k 0 * entry vecs 1 k) == 1000.
Proof.
  exists (mkBasis [[1; 0]; [0; 1]] [[1; 0]; [0; 1]]), [[6; 0]; [1000; 6]].
  split; [apply inverse2_check; reflexivity|]. split.
  - split; [reflexivity|]. intros r [<-|[<-|[]]]; reflexivity.
  - split; reflexivity.
Qed.

Example C13_example :
  is_reciprocal 6 (1#10) skew [[6; -3]; [0; 6]] = true /\
  is_reciprocal 6 (1#10) skew [[5; -3]; [0; 6]] = false.
Proof. split; reflexivity. Qed.

(** ** C14 *)

(** [cmp] compares a squared distance with the squared cut-off; [Qle_bool] for [<=],
    [Qeq_bool] for the default [np.isclose] in exact arithmetic. *)
Theorem C14_neighbor_cells :
  forall b distidx inc cmp,
    valid_basis b -> (1 <= b_dim b)%nat ->
    (forall x x' y y', x == x' -> y == y' -> cmp x y = cmp x' y') ->
    exists cells cut,
      get_neighbor_cells b distidx inc cmp = Some cells /\
      (* membership *)
      (forall n, In n cells <->
         (int_box (b_dim b) (Z.of_nat distidx + 1) n /\ n <> repeat 0%Z (b_dim b) /\
          cmp (cell_sq (b_dim b) (b_mat b) n) cut = true) \/
         (inc = true /\ n = repeat 0%Z (b_dim b))) /\
      NoDup cells /\
      (forall n, In n cells -> In (map Z.opp n) cells) /\
      (* the cut-off: the distance number distidx + (number of different vector lengths) *)
      (exists smaller lengths,
         lists_values (fun q => q < cut /\ exists n,
            int_box (b_dim b) (Z.of_nat distidx + 1) n /\ cell_sq (b_dim b) (b_mat b) n == q) smaller /\
         lists_values (fun q => exists k, (k < b_dim b)%nat /\ column_sq (b_dim b) (b_mat b) k == q) lengths /\
         length smaller = (distidx + length lengths)%nat) /\
      (exists n, int_box (b_dim b) (Z.of_nat distidx + 1) n /\ cell_sq (b_dim b) (b_mat b) n == cut).
Proof.
  intros b distidx inc cmp Hv Hd Hcmp.
  destruct (get_neighbor_cells b distidx inc cmp) as [cells|] eqn:E;
    [|exfalso; eapply cells_exist; eauto].
  pose proof (proj1 Hv) as Hsq.
  destruct (cells_spec b distidx inc cmp Hsq Hcmp cells E)
    as [cut [smaller [lengths [Hcut [Hsm [Hlens [Hlen [Hnd Hin]]]]]]]].
  assert (Z.of_nat (distidx + 1) = Z.of_nat distidx + 1)%Z as Hz by lia. rewrite Hz in Hin.
  exists cells, cut. split; auto. split; auto. split; auto.
  set (vals := map (fun f => norm2 (matvec (b_mat b) (of_Z f))) (grid b distidx)) in *.
  pose proof (unique_qc_values vals) as [Hinc Hvals].
  unfold vals in Hinc, Hvals. rewrite map_map in Hinc, Hvals.
  set (U := map this (unique qc_leb (map (fun f => Q2Qc (norm2 (matvec (b_mat b) (of_Z f)))) (grid b distidx)))) in *.
  assert (forall q, (exists x, In x U /\ x == q) <->
     exists n, int_box (b_dim b) (Z.of_nat distidx + 1) n /\ cell_sq (b_dim b) (b_mat b) n == q) as HU.
  { intro q. rewrite <- Hvals. split.
    - intros [v [Hv1 Hv2]]. apply in_map_iff in Hv1. destruct Hv1 as [n [<- Hn]].
      apply In_grid in Hn. rewrite Hz in Hn. exists n. split; auto. rewrite <- cell_norm2; auto. apply Hn.
    - intros [n [Hn Hn2]]. exists (norm2 (matvec (b_mat b) (of_Z n))). split.
      + apply in_map_iff. exists n. split; auto. apply In_grid. rewrite Hz. assumption.
      + rewrite cell_norm2; auto. apply Hn. }
  split; [|split].
  - intros n Hn. apply Hin. apply Hin in Hn. destruct Hn as [[H1 [H2 H3]]|[H1 ->]].
    + left. split; [apply int_box_neg; assumption|]. split; [intro H; apply opp_zero_vec in H; auto|].
      rewrite <- H3. apply Hcmp; [apply cell_sq_neg|reflexivity].
    + right. split; auto. clear. induction (b_dim b) as [|d IH]; simpl; congruence.
  - exists smaller, lengths. split; [|split; auto].
    + split.
      * intros i j x y Hij Hx Hy. apply (Hinc i j); auto.
        -- rewrite Hsm in Hx. clear - Hx. revert Hx. generalize (length smaller) as m. intros m Hx.
           rewrite <- (firstn_skipn m U). rewrite nth_error_app1; auto.
           apply nth_error_length_lt in Hx. assumption.
        -- rewrite Hsm in Hy. clear - Hy. revert Hy. generalize (length smaller) as m. intros m Hy.
           rewrite <- (firstn_skipn m U). rewrite nth_error_app1; auto.
           apply nth_error_length_lt in Hy. assumption.
      * intro q. split.
        -- intros [Hq Hn]. apply HU in Hn. destruct Hn as [x [Hx Ex]].
           apply In_nth_error in Hx. destruct Hx as [i Hi]. exists x. split; auto.
           destruct (Nat.lt_trichotomy i (length smaller)) as [Hl|[Hl|Hl]].
           ++ rewrite Hsm. apply nth_error_In with (n := i).
              rewrite <- (firstn_skipn (length smaller) U) in Hi. rewrite nth_error_app1 in Hi; auto.
              rewrite <- Hsm. assumption.
           ++ subst i. rewrite Hcut in Hi. exfalso. injection Hi as Hi. subst. lra.
           ++ exfalso. pose proof (Hinc _ _ _ _ Hl Hcut Hi). lra.
        -- intros [x [Hx Ex]]. pose proof Hx as Hx'. rewrite Hsm in Hx.
           assert (In x U) as HxU.
           { rewrite <- (firstn_skipn (length smaller) U). apply in_or_app. auto. }
           split.
           ++ apply In_nth_error in Hx'. destruct Hx' as [i Hi].
              pose proof (nth_error_length_lt _ _ _ Hi) as Hl.
              assert (nth_error U i = Some x) as HiU.
              { rewrite <- (firstn_skipn (length smaller) U). rewrite nth_error_app1.
                - rewrite <- Hsm. assumption.
                - rewrite <- Hsm. assumption. }
              pose proof (Hinc _ _ _ _ Hl HiU Hcut). lra.
           ++ apply HU. exists x. auto.
    + rewrite Hlens. pose proof (unique_qc_values (map norm2 (b_vectors b))) as [L1 L2].
      rewrite map_map in L1, L2. split; auto. intro q. rewrite <- L2. split.
      * intros [k [Hk Hq]]. exists (norm2 (nth k (b_vectors b) [])). split.
        -- apply in_map, nth_In. rewrite b_vectors_length. assumption.
        -- rewrite vector_norm2; assumption.
      * intros [v [Hv1 Hv2]]. apply in_map_iff in Hv1. destruct Hv1 as [u [<- Hu]].
        apply In_nth with (d := []) in Hu. destruct Hu as [k [Hk <-]]. rewrite b_vectors_length in Hk.
        exists k. split; auto. rewrite <- vector_norm2; assumption.
  - apply HU. exists cut. split; [|reflexivity]. apply nth_error_In in Hcut. assumption.
Qed.

(** In the strongly skewed basis (1, 0), (10, 1) the cell (-10, 1) has distance 1 but is not found, while
    a cell at squared distance 82 is. *)
Theorem C14_skewed_refuted :
  exists b cells n far,
    valid_basis b /\ get_neighbor_cells b 0 true Qle_bool = Some cells /\
    In far cells /\ ~ In n cells /\
    cell_sq 2 (b_mat b) n == 1 /\ cell_sq 2 (b_mat b) far == 82.
Proof.
  exists (mkBasis [[1; 10]; [0; 1]] [[1; -10]; [0; 1]]). eexists.
  exists [-10; 1]%Z, [-1; 1]%Z. split; [apply inverse2_check; reflexivity|].
  split; [reflexivity|]. repeat split.
  - vm_compute. auto.
  - vm_compute. intuition discriminate.
Qed.

Example C14_example :
  get_neighbor_cells skew 0 false Qle_bool =
    Some [[-1; 0]; [-1; 1]; [0; -1]; [0; 1]; [1; -1]; [1; 0]]%Z.
Proof. vm_compute. reflexivity. Qed.

(** ** C15 *)

Theorem C15_translate_group_action :
  forall b m n r, valid_basis b ->
    length m = b_dim b -> length n = b_dim b -> length r = b_dim b ->
    same (translate b (repeat 0%Z (b_dim b)) r) r /\
    same (translate b (map2 Z.add m n) r) (translate b m (translate b n r)) /\
    (same (translate b m r) (translate b n r) -> m = n) /\
    (length (translate b n r) = b_dim b /\
     forall i, (i < b_dim b)%nat -> nth i (translate b n r) 0 ==
       nth i r 0 + sum_upto (b_dim b) (fun k => entry (b_mat b) i k * inject_Z (nth k n 0%Z))).
Proof.
  intros b m n r Hb Hm Hn Hr. split; [|split; [|split; [|split]]].
  - apply same_veq, translate_zero. assumption.
  - apply same_veq, translate_add; assumption.
  - intro H. apply same_veq in H. apply (translate_inj b m n r); assumption.
  - apply translate_length. assumption.
  - intros i Hi. unfold translate. rewrite nth_vadd by (rewrite matvec_length; exact Hr).
    rewrite (nth_matvec_sum (b_dim b)); auto; [|apply Hb|rewrite of_Z_length; assumption].
    assert (sum_upto (b_dim b) (fun k => entry (b_mat b) i k * nth k (of_Z n) 0) ==
            sum_upto (b_dim b) (fun k => entry (b_mat b) i k * inject_Z (nth k n 0%Z))) as E.
    { apply sum_ext. intros k _. rewrite nth_of_Z. reflexivity. }
    rewrite E. reflexivity.
Qed.

Example C15_example :
  same (translate skew [2; -3]%Z [1#4; 1]) [3#4; -2].
Proof. apply same_veq. repeat constructor. Qed.

(** ** C18 *)

Theorem C18_cell_volume :
  forall d M, (1 <= d <= 3)%nat -> square d M ->
    exists v, cell_volume M = Some v /\
      v == Qabs (det d M) /\ 0 <= v /\
      (v == 0 <-> dependent d M) /\
      (* swapping two vectors *)
      (forall N i j, square d N -> (i < d)%nat -> (j < d)%nat -> i <> j ->
         (forall k l, (k < d)%nat -> (l < d)%nat ->
            entry N k l == entry M (if Nat.eqb k i then j else if Nat.eqb k j then i else k) l) ->
         exists v', cell_volume N = Some v' /\ v' == v) /\
      (* flipping a sign *)
      (forall N i, (i < d)%nat -> row_replaced d i (fun k => - entry M i k) M N ->
         exists v', cell_volume N = Some v' /\ v' == v) /\
      (* adding a multiple of another vector *)
      (forall N i j c, (i < d)%nat -> (j < d)%nat -> i <> j ->
         row_replaced d i (fun k => entry M i k + c * entry M j k) M N ->
         exists v', cell_volume N = Some v' /\ v' == v).
Proof.
  intros d M Hd HM. destruct (cell_volume_det d M Hd HM) as [v [Hv E]].
  exists v. split; auto. split; auto. split; [rewrite E; apply Qabs_nonneg|].
  assert (forall N, square d N -> (det d N == det d M \/ det d N == - det d M) ->
            exists v', cell_volume N = Some v' /\ v' == v) as K.
  { intros N HN HE. destruct (cell_volume_det d N Hd HN) as [v' [Hv' E']]. exists v'. split; auto.
    rewrite E', E. destruct HE as [HE|HE]; rewrite HE; [reflexivity|apply Qabs_opp]. }
  split; [|split; [|split]].
  - rewrite <- det_zero_dependent by assumption. rewrite E. split.
    + intro H. pose proof (Qle_Qabs (det d M)). pose proof (Qle_Qabs (- det d M)) as H2.
      rewrite Qabs_opp in H2. lra.
    + intro H. rewrite H. reflexivity.
  - intros N i j HN Hi Hj Hij H. apply K; auto. right. apply (det_swap_rows d M N i j); auto.
  - intros N i Hi H. apply K; [apply H|]. right. apply (det_neg_row d M N i); auto.
  - intros N i j c Hi Hj Hij H. apply K; [apply H|]. left. apply (det_add_row d M N i j c); auto.
Qed.

Example C18_example :
  cell_volume [[1; 2; 0]; [0; 1; 1]; [3; 0; -1]] = Some (5 # 1) /\
  cell_volume [[1; 2; 0]; [0; 1; 1]; [1; 3; 1]] = Some 0.
Proof. split; reflexivity. Qed.

Print Assumptions C09_transform_itransform_inverse.
Print Assumptions C10_itranslate_unique_split.
Print Assumptions C11_superindex_bijection.
Print Assumptions C12_reciprocal_vectors_dual.
Print Assumptions C12_reciprocal_vectors_dim4.
Print Assumptions C13_is_reciprocal.
Print Assumptions C13_offdiagonal_refuted.
Print Assumptions C14_neighbor_cells.
Print Assumptions C14_skewed_refuted.
Print Assumptions C15_translate_group_action.
Print Assumptions C18_cell_volume.
