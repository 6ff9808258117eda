(** * Neighbour cells *)
From Coq Require Import List ZArith QArith Qround Qabs Qcanon Qfield Bool Arith Lia Lqa Setoid Morphisms Sorted.
From Verif Require Import Np NpFacts LinAlg LinFacts BasisModel SpecBasis BasisProofs ReciprocalProofs.
Import ListNotations.
Open Scope Q_scope.

Lemma Q2Qc_eq q : this (Q2Qc q) == q.
Proof. unfold Q2Qc. simpl. apply Qred_correct. Qed.

Lemma Q2Qc_inj p q : p == q -> Q2Qc p = Q2Qc q.
Proof. intro H. apply Qc_is_canon. rewrite !Q2Qc_eq. assumption. Qed.

Lemma qc_leb_le x y : qc_leb x y = true <-> this x <= this y.
Proof. apply Qle_bool_iff. Qed.

Lemma qc_leb_total x y : qc_leb x y = true \/ qc_leb y x = true.
Proof. rewrite !qc_leb_le. destruct (Qlt_le_dec x y); [left|right]; lra. Qed.

Lemma qc_leb_trans x y z : qc_leb x y = true -> qc_leb y z = true -> qc_leb x z = true.
Proof. rewrite !qc_leb_le. intros. lra. Qed.

Lemma qc_leb_antisym x y : qc_leb x y = true -> qc_leb y x = true -> x = y.
Proof. rewrite !qc_leb_le. intros. apply Qc_is_canon. lra. Qed.

Lemma qc_lt x y : qc_leb x y = true /\ x <> y <-> this x < this y.
Proof.
  rewrite qc_leb_le. split.
  - intros [H1 H2]. destruct (Qlt_le_dec x y) as [H|H]; auto.
    exfalso. apply H2, Qc_is_canon. lra.
  - intro H. split; [lra|]. intro E. subst. lra.
Qed.

Lemma unique_qc_values (vals : list Q) :
  lists_values (fun q => exists v, In v vals /\ v == q) (map this (unique qc_leb (map Q2Qc vals))).
Proof.
  pose proof (unique_strict qc_leb qc_leb_total qc_leb_trans qc_leb_antisym (map Q2Qc vals)) as Hs.
  split.
  - intros i j x y Hij Hx Hy. rewrite nth_error_map' in Hx, Hy.
    destruct (nth_error _ i) as [x'|] eqn:Ex; [|discriminate].
    destruct (nth_error _ j) as [y'|] eqn:Ey; [|discriminate].
    simpl in Hx, Hy. injection Hx as <-. injection Hy as <-. apply qc_lt.
    revert i j Hij Ex Ey. induction Hs as [|z l Hs IH Hf]; intros i j Hij Ex Ey.
    + destruct i; discriminate.
    + destruct j as [|j]; [lia|]. simpl in Ey. destruct i as [|i].
      * simpl in Ex. injection Ex as <-. rewrite Forall_forall in Hf. apply Hf.
        apply nth_error_In in Ey. assumption.
      * simpl in Ex. apply (IH i j); auto. lia.
  - intro q. split.
    + intros [v [Hv E]]. exists (this (Q2Qc v)). split.
      * apply in_map. apply In_unique; try exact qc_leb_total; try exact qc_leb_trans;
        try exact qc_leb_antisym. apply in_map. assumption.
      * rewrite Q2Qc_eq. assumption.
    + intros [x [Hx E]]. apply in_map_iff in Hx. destruct Hx as [c [<- Hc]].
      apply In_unique in Hc; try exact qc_leb_total; try exact qc_leb_trans;
        try exact qc_leb_antisym. apply in_map_iff in Hc. destruct Hc as [v [<- Hv]].
      exists v. split; auto. rewrite Q2Qc_eq in E. assumption.
Qed.

Lemma norm2_sq v : norm2 v == sq_len v.
Proof.
  unfold norm2, sq_len. rewrite (dot_sum (length v)) by reflexivity. reflexivity.
Qed.

Lemma cell_norm2 b n :
  square (b_dim b) (b_mat b) -> length n = b_dim b ->
  norm2 (matvec (b_mat b) (of_Z n)) == cell_sq (b_dim b) (b_mat b) n.
Proof.
  intros Hs Hn. rewrite norm2_sq. unfold sq_len, cell_sq.
  rewrite (matvec_len (b_dim b)) by assumption. apply sum_ext. intros i Hi.
  rewrite !(nth_matvec_sum (b_dim b)) by (auto; rewrite of_Z_length; assumption).
  cbv zeta.
  assert (sum_upto (b_dim b) (fun k => entry (b_mat b) i k * nth k (of_Z n) 0) ==
          sum_upto (b_dim b) (fun k => entry (b_mat b) i k * inject_Z (nth k n 0%Z))) as E.
  { apply sum_ext. intros k Hk. rewrite nth_of_Z. reflexivity. }
  rewrite E. reflexivity.
Qed.

Lemma nth_map_lt {A B} (f : A -> B) l i da db :
  (i < length l)%nat -> nth i (map f l) db = f (nth i l da).
Proof.
  intro H. rewrite nth_indep with (d' := f da) by (rewrite map_length; assumption). apply map_nth.
Qed.

Lemma nth_map_seq {A} (f : nat -> A) n i d : (i < n)%nat -> nth i (map f (seq 0 n)) d = f i.
Proof.
  intro H. rewrite (nth_map_lt f _ _ 0%nat) by (rewrite seq_length; assumption).
  rewrite seq_nth by assumption. reflexivity.
Qed.

Lemma nth_b_vectors b k i :
  (k < b_dim b)%nat -> (i < b_dim b)%nat -> nth i (nth k (b_vectors b) []) 0 = entry (b_mat b) i k.
Proof.
  intros Hk Hi. unfold b_vectors, transpose, entry.
  rewrite nth_map_seq by assumption.
  apply (nth_map_lt (fun row : list Q => nth k row 0) (b_mat b) i []). assumption.
Qed.

Lemma length_b_vector b k : (k < b_dim b)%nat -> length (nth k (b_vectors b) []) = b_dim b.
Proof.
  intros Hk. unfold b_vectors, transpose. rewrite nth_map_seq by assumption.
  apply map_length.
Qed.

Lemma vector_norm2 b k :
  (k < b_dim b)%nat -> norm2 (nth k (b_vectors b) []) == column_sq (b_dim b) (b_mat b) k.
Proof.
  intros Hk. rewrite norm2_sq. unfold sq_len, column_sq. rewrite length_b_vector by assumption.
  apply sum_ext. intros i Hi. rewrite nth_b_vectors by assumption. reflexivity.
Qed.

Lemma In_product_repeat {A} (l : list A) d v :
  In v (product (repeat l d)) <-> length v = d /\ forall x, In x v -> In x l.
Proof.
  rewrite In_product. revert d. induction v as [|x v IH]; intros [|d]; simpl.
  - split; auto. intros _. split; auto. intros x [].
  - split; [intro H; inversion H|intros [H _]; discriminate].
  - split; [intro H; inversion H|intros [H _]; discriminate].
  - split.
    + intro H. inversion H; subst. apply IH in H5. destruct H5 as [H5 H6]. split; [lia|].
      intros y [<-|Hy]; auto.
    + intros [H1 H2]. constructor; [apply H2; auto|]. apply IH. split; [lia|]. auto.
Qed.

Definition grid (b : basis) (distidx : nat) : list (list Z) :=
  product (repeat (zrange (- Z.of_nat (distidx + 1)) (Z.of_nat (distidx + 1) + 1)) (b_dim b)).

Lemma In_grid b distidx n :
  In n (grid b distidx) <-> int_box (b_dim b) (Z.of_nat (distidx + 1)) n.
Proof.
  unfold grid, int_box. rewrite In_product_repeat. split; intros [H1 H2]; (split; [assumption|]);
    intros k Hk; specialize (H2 k Hk).
  - apply In_zrange in H2. lia.
  - apply In_zrange. lia.
Qed.

Lemma NoDup_grid b distidx : NoDup (grid b distidx).
Proof.
  apply NoDup_product. apply Forall_forall. intros l Hl. apply repeat_spec in Hl. subst.
  apply NoDup_zrange.
Qed.

Definition is_zero_vec (f : list Z) (d : nat) : bool :=
  forallb (fun p => Z.eqb (fst p) (snd p)) (combine f (repeat 0%Z d)).

Lemma is_zero_vec_spec f d : length f = d -> (is_zero_vec f d = true <-> f = repeat 0%Z d).
Proof.
  intros <-. unfold is_zero_vec. induction f as [|x f IH]; simpl; [tauto|].
  rewrite andb_true_iff, IH, Z.eqb_eq. split; [intros [-> H]; congruence|].
  intro H. injection H as -> H. auto.
Qed.

Lemma delete_where {A} (p : A -> bool) l :
  delete (where_ (map p l)) l = filter (fun x => negb (p x)) l.
Proof.
  unfold delete. rewrite <- select_filter. f_equal.
  apply list_eq_nth_error. intro i. rewrite !nth_error_map'.
  destruct (nth_error l i) as [x|] eqn:E.
  - pose proof (nth_error_length_lt _ _ _ E) as Hi. rewrite nth_error_seq.
    apply Nat.ltb_lt in Hi. rewrite Hi. cbn [option_map]. f_equal. f_equal. apply eq_true_iff_eq. rewrite isin_In, In_where.
    rewrite nth_nth_error, nth_error_map'. change (0 + i)%nat with i. rewrite E. reflexivity.
  - apply nth_error_None in E. rewrite (proj2 (nth_error_None (seq 0 (length l)) i)).
    + reflexivity.
    + rewrite seq_length. assumption.
Qed.

Lemma where_empty {A} (p : A -> bool) l :
  length (where_ (map p l)) = 0%nat <-> forall x, In x l -> p x = false.
Proof.
  split.
  - intros H x Hx. destruct (p x) eqn:E; auto. exfalso.
    apply In_nth_error in Hx. destruct Hx as [i Hi].
    assert (In i (where_ (map p l))) as Hw.
    { apply In_where. rewrite nth_nth_error, nth_error_map', Hi. assumption. }
    destruct (where_ (map p l)); [contradiction|discriminate].
  - intro H. destruct (where_ (map p l)) as [|i w] eqn:E; auto. exfalso.
    assert (In i (where_ (map p l))) as Hw by (rewrite E; simpl; auto).
    apply In_where in Hw. rewrite nth_nth_error, nth_error_map' in Hw.
    destruct (nth_error l i) as [x|] eqn:Ex; [|discriminate]. apply nth_error_In in Ex.
    cbn [option_map] in Hw. rewrite (H x Ex) in Hw. discriminate.
Qed.

Section Cells.
  Variables (b : basis) (distidx : nat) (inc : bool) (cmp : Q -> Q -> bool).
  Hypothesis Hsq : square (b_dim b) (b_mat b).
  Hypothesis Hcmp : forall x x' y y', x == x' -> y == y' -> cmp x y = cmp x' y'.

  Let dists := map (fun f => Q2Qc (norm2 (matvec (b_mat b) (of_Z f)))) (grid b distidx).
  Let lens := unique qc_leb (map (fun v => Q2Qc (norm2 v)) (b_vectors b)).

  Lemma cells_unfold cut cells :
    nth_error (unique qc_leb dists) (distidx + length lens) = Some cut ->
    get_neighbor_cells b distidx inc cmp = Some cells ->
    let sel := filter (fun n => cmp (norm2 (matvec (b_mat b) (of_Z n))) cut) (grid b distidx) in
    cells = (if inc then
               if existsb (fun n => is_zero_vec n (b_dim b)) sel then sel
               else repeat 0%Z (b_dim b) :: sel
             else filter (fun n => negb (is_zero_vec n (b_dim b))) sel).
  Proof.
    intros Hcut H. unfold get_neighbor_cells in H. cbv zeta in H.
    fold (grid b distidx) in H. fold dists in H. fold lens in H. rewrite Hcut in H.
    unfold dists in H. rewrite map_map in H.
    rewrite (map_ext (fun f => cmp (Q2Qc (norm2 (matvec (b_mat b) (of_Z f)))) cut)
               (fun f => cmp (norm2 (matvec (b_mat b) (of_Z f))) cut)) in H.
    2:{ intro f. apply Hcmp; [apply Q2Qc_eq|reflexivity]. }
    rewrite select_filter in H. cbv zeta.
    set (sel := filter _ (grid b distidx)) in *.
    change (map (fun f => forallb (fun p => (fst p =? snd p)%Z) (combine f (repeat 0%Z (b_dim b)))) sel)
      with (map (fun n => is_zero_vec n (b_dim b)) sel) in H.
    destruct (length (where_ (map (fun n => is_zero_vec n (b_dim b)) sel)) =? 0)%nat eqn:E.
    - apply Nat.eqb_eq in E. rewrite where_empty in E.
      replace (existsb _ sel) with false.
      2:{ symmetry. apply not_true_is_false. intro He. apply existsb_exists in He.
          destruct He as [x [Hx Hx']]. rewrite (E x Hx) in Hx'. discriminate. }
      destruct inc; simpl in H; injection H as <-; auto.
      symmetry. clear Hcut. clearbody sel. induction sel as [|x sel IH]; simpl; auto.
      rewrite (E x) by (left; reflexivity). simpl. f_equal. apply IH. intros y Hy. apply E. right. auto.
    - replace (existsb _ sel) with true.
      2:{ symmetry. apply not_false_is_true. intro He. apply Nat.eqb_neq in E. apply E.
          apply where_empty. intros x Hx. destruct (is_zero_vec x (b_dim b)) eqn:Ez; auto.
          rewrite <- He. symmetry. apply existsb_exists. exists x. auto. }
      destruct inc; simpl in H; injection H as <-; auto.
      apply delete_where.
  Qed.

  Lemma cells_spec cells :
    get_neighbor_cells b distidx inc cmp = Some cells ->
    exists cut smaller lengths,
      nth_error (map this (unique qc_leb dists)) (length smaller) = Some cut /\
      smaller = firstn (length smaller) (map this (unique qc_leb dists)) /\
      lengths = map this lens /\
      length smaller = (distidx + length lengths)%nat /\
      NoDup cells /\
      forall n, In n cells <->
        (int_box (b_dim b) (Z.of_nat (distidx + 1)) n /\ n <> repeat 0%Z (b_dim b) /\
         cmp (cell_sq (b_dim b) (b_mat b) n) cut = true) \/
        (inc = true /\ n = repeat 0%Z (b_dim b)).
  Proof.
    intro H. pose proof H as H0. unfold get_neighbor_cells in H0. cbv zeta in H0.
    fold (grid b distidx) in H0. fold dists in H0. fold lens in H0.
    destruct (nth_error (unique qc_leb dists) (distidx + length lens)) as [cut|] eqn:Hcut;
      [|discriminate]. clear H0.
    pose proof (nth_error_length_lt _ _ _ Hcut) as Hlt.
    pose proof (cells_unfold cut cells Hcut H) as Hc. cbv zeta in Hc.
    exists (this cut), (firstn (distidx + length lens) (map this (unique qc_leb dists))), (map this lens).
    assert (length (firstn (distidx + length lens) (map this (unique qc_leb dists)))
            = (distidx + length lens)%nat) as Hlen.
    { rewrite firstn_length, map_length. lia. }
    rewrite Hlen. split.
    { rewrite nth_error_map', Hcut. reflexivity. }
    split; [reflexivity|]. split; [reflexivity|]. split; [rewrite map_length; reflexivity|].
    set (sel := filter (fun n => cmp (norm2 (matvec (b_mat b) (of_Z n))) cut) (grid b distidx)) in *.
    assert (forall n, In n sel <-> int_box (b_dim b) (Z.of_nat (distidx + 1)) n /\
              cmp (cell_sq (b_dim b) (b_mat b) n) cut = true) as Hsel.
    { intro n. unfold sel. rewrite filter_In, In_grid. split; intros [H1 H2]; split; auto;
      pose proof (proj1 H1) as Hn;
      rewrite <- H2; apply Hcmp; try reflexivity; rewrite cell_norm2 by assumption; reflexivity. }
    assert (NoDup sel) as Hnd by (apply NoDup_filter, NoDup_grid).
    assert (forall n, In n sel -> length n = b_dim b) as Hlsel.
    { intros n Hn. apply Hsel in Hn. apply Hn. }
    clearbody sel. clear H Hcut.
    destruct (list_eq_dec Z.eq_dec (repeat 0%Z (b_dim b)) (repeat 0%Z (b_dim b))) as [_|]; [|congruence].
    destruct inc.
    - destruct (existsb (fun n => is_zero_vec n (b_dim b)) sel) eqn:E; subst cells.
      + split; auto. apply existsb_exists in E. destruct E as [z [Hz Hz']].
        apply is_zero_vec_spec in Hz'; auto. subst z.
        intro n. rewrite Hsel. split.
        * intros [H1 H2]. destruct (list_eq_dec Z.eq_dec n (repeat 0%Z (b_dim b))); auto.
        * intros [[H1 [H2 H3]]|[_ ->]]; auto. apply Hsel. assumption.
      + assert (~ In (repeat 0%Z (b_dim b)) sel) as Hnz.
        { intro Hin. apply Bool.not_true_iff_false in E. apply E. apply existsb_exists.
          exists (repeat 0%Z (b_dim b)). split; auto. apply is_zero_vec_spec; auto. }
        split; [constructor; auto|]. intro n. simpl. rewrite Hsel. split.
        * intros [<-|[H1 H2]]; auto. left. split; auto. split; auto. intro Hn. subst n.
          apply Hnz, Hsel. auto.
        * intros [[H1 [H2 H3]]|[_ ->]]; auto.
    - subst cells. split; [apply NoDup_filter; assumption|]. intro n. rewrite filter_In, Hsel, negb_true_iff.
      split.
      + intros [[H1 H2] H3]. left. split; auto. split; auto. intro Hn. subst n.
        rewrite <- not_true_iff_false in H3. apply H3. apply is_zero_vec_spec; auto. apply H1.
      + intros [[H1 [H2 H3]]|[H _]]; [|discriminate]. split; auto.
        apply not_true_is_false. intro Hz. apply is_zero_vec_spec in Hz; auto. apply H1.
  Qed.
End Cells.

(** The cut-off always exists for a valid basis. *)

Lemma column_pos b k :
  valid_basis b -> (k < b_dim b)%nat -> 0 < column_sq (b_dim b) (b_mat b) k.
Proof.
  intros Hv Hk. rewrite <- vector_norm2 by assumption.
  destruct (Qlt_le_dec 0 (norm2 (nth k (b_vectors b) []))) as [H|H]; auto. exfalso.
  pose proof (norm2_nonneg (nth k (b_vectors b) [])) as H0.
  assert (norm2 (nth k (b_vectors b) []) == 0) as E by lra.
  apply norm2_zero in E. rewrite Forall_forall in E.
  destruct Hv as [_ [_ [_ H2]]]. specialize (H2 k k Hk Hk). unfold delta in H2.
  rewrite Nat.eqb_refl in H2.
  rewrite sum_zero in H2; [lra|]. intros j Hj.
  assert (entry (b_mat b) j k == 0) as Ez.
  { rewrite <- nth_b_vectors by assumption. apply E. apply nth_In.
    rewrite length_b_vector; assumption. }
  rewrite Ez. ring.
Qed.

Definition unit_mult (d k : nat) (z : Z) : list Z := map (fun i => if Nat.eqb i k then z else 0%Z) (seq 0 d).

Lemma unit_mult_box d k z m : (- m <= z <= m)%Z -> (0 <= m)%Z -> int_box d m (unit_mult d k z).
Proof.
  intros H Hm. split; [unfold unit_mult; rewrite map_length, seq_length; reflexivity|].
  intros x Hx. apply in_map_iff in Hx. destruct Hx as [i [<- _]]. destruct (i =? k)%nat; lia.
Qed.

Lemma unit_mult_sq d V k z :
  (k < d)%nat -> cell_sq d V (unit_mult d k z) == inject_Z (z * z) * column_sq d V k.
Proof.
  intro Hk. unfold cell_sq, column_sq. rewrite <- sum_scale. apply sum_ext. intros i Hi. cbv zeta.
  assert (sum_upto d (fun j => entry V i j * inject_Z (nth j (unit_mult d k z) 0%Z)) ==
          inject_Z z * entry V i k) as E.
  { rewrite <- (sum_delta d k (fun j => inject_Z z * entry V i j)) by assumption.
    apply sum_ext. intros j Hj. unfold unit_mult.
    rewrite nth_map_seq by assumption. unfold delta. rewrite (Nat.eqb_sym k j).
    destruct (j =? k)%nat; [ring|]. change (inject_Z 0) with 0. ring. }
  rewrite E. rewrite inject_Z_mult. ring.
Qed.

Lemma cells_exist b distidx inc cmp :
  valid_basis b -> (1 <= b_dim b)%nat -> get_neighbor_cells b distidx inc cmp <> None.
Proof.
  intros Hv Hd. unfold get_neighbor_cells. cbv zeta. fold (grid b distidx).
  set (dists := map (fun f => Q2Qc (norm2 (matvec (b_mat b) (of_Z f)))) (grid b distidx)).
  set (lens := unique qc_leb (map (fun v => Q2Qc (norm2 v)) (b_vectors b))).
  assert (distidx + length lens < length (unique qc_leb dists))%nat as Hlt.
  2:{ destruct (nth_error (unique qc_leb dists) (distidx + length lens)) eqn:E.
      - destruct inc; simpl; destruct (_ =? 0)%nat; simpl; discriminate.
      - apply nth_error_None in E. lia. }
  pose proof (proj1 Hv) as Hsq.
  assert (Hin : forall x, In x lens <-> exists k, (k < b_dim b)%nat /\
                 x = Q2Qc (column_sq (b_dim b) (b_mat b) k)).
  { intro x. unfold lens. rewrite In_unique by
      (try exact qc_leb_total; try exact qc_leb_trans; try exact qc_leb_antisym).
    rewrite in_map_iff. split.
    - intros [v [<- Hx]]. apply In_nth with (d := []) in Hx. destruct Hx as [k [Hk <-]].
      rewrite b_vectors_length in Hk. exists k. split; auto. apply Q2Qc_inj, vector_norm2. assumption.
    - intros [k [Hk ->]]. exists (nth k (b_vectors b) []). split.
      + apply Q2Qc_inj, vector_norm2. assumption.
      + apply nth_In. rewrite b_vectors_length. assumption. }
  assert (Hdist : forall k z, (k < b_dim b)%nat -> (Z.abs z <= Z.of_nat (distidx + 1))%Z ->
            In (Q2Qc (inject_Z (z * z) * column_sq (b_dim b) (b_mat b) k)) (unique qc_leb dists)).
  { intros k z Hk Hz. apply In_unique; try exact qc_leb_total; try exact qc_leb_trans;
      try exact qc_leb_antisym.
    apply in_map_iff. exists (unit_mult (b_dim b) k z). split.
    - apply Q2Qc_inj. rewrite cell_norm2; auto; [apply unit_mult_sq; assumption|].
      apply (unit_mult_box _ _ _ (Z.of_nat (distidx + 1))); lia.
    - apply In_grid. apply unit_mult_box; lia. }
  pose proof (unique_strict qc_leb qc_leb_total qc_leb_trans qc_leb_antisym
                (map (fun v => Q2Qc (norm2 v)) (b_vectors b))) as Hstrict. fold lens in Hstrict.
  assert (lens <> []) as Hne.
  { intro E. assert (In (Q2Qc (column_sq (b_dim b) (b_mat b) 0)) lens) as Hi.
    { apply Hin. exists 0%nat. split; auto. }
    rewrite E in Hi. contradiction. }
  destruct (exists_last Hne) as [front [mx Hlast]].
  assert (In mx lens) as Hmx by (rewrite Hlast; apply in_or_app; simpl; auto).
  apply Hin in Hmx. destruct Hmx as [kmx [Hkmx Emx]].
  set (mults := map (fun i => Q2Qc (inject_Z (Z.of_nat i * Z.of_nat i) *
                  column_sq (b_dim b) (b_mat b) kmx)) (seq 1 (distidx + 1))).
  assert (NoDup (Q2Qc 0 :: front ++ mults)) as Hnd.
  { pose proof (column_pos b kmx Hv Hkmx) as Hpos.
    assert (forall x, In x mults -> this mx <= this x) as Hge.
    { intros x Hx. unfold mults in Hx. apply in_map_iff in Hx. destruct Hx as [i [<- Hi]].
      apply in_seq in Hi. rewrite Emx, !Q2Qc_eq.
      assert (inject_Z 1 <= inject_Z (Z.of_nat i * Z.of_nat i)) as H1 by (rewrite <- Zle_Qle; nia).
      change (inject_Z 1) with 1 in H1.
      setoid_replace (column_sq (b_dim b) (b_mat b) kmx) with
        (1 * column_sq (b_dim b) (b_mat b) kmx) at 1 by ring.
      apply Qmult_le_compat_r; lra. }
    assert (forall x, In x front -> 0 < this x /\ this x < this mx) as Hfr.
    { intros x Hx. split.
      - assert (In x lens) as Hl by (rewrite Hlast; apply in_or_app; auto).
        apply Hin in Hl. destruct Hl as [k [Hk ->]]. rewrite Q2Qc_eq. apply column_pos; assumption.
      - apply qc_lt. rewrite Hlast in Hstrict. clear - Hstrict Hx.
        induction front as [|y front IH]; [contradiction|]. simpl in Hstrict.
        inversion Hstrict; subst. destruct Hx as [<-|Hx]; auto.
        rewrite Forall_forall in H2. apply H2. apply in_or_app. simpl. auto. }
    constructor.
    - intro Hz. apply in_app_or in Hz. destruct Hz as [Hz|Hz].
      + apply Hfr in Hz. rewrite Q2Qc_eq in Hz. lra.
      + apply Hge in Hz. rewrite Emx, !Q2Qc_eq in Hz. lra.
    - apply NoDup_app_intro.
      + apply strict_NoDup with (leb := qc_leb). rewrite Hlast in Hstrict. clear - Hstrict.
        induction front as [|y front IH]; constructor; simpl in Hstrict; inversion Hstrict; subst; auto.
        apply Forall_forall. intros x Hx. rewrite Forall_forall in H2. apply H2, in_or_app. auto.
      + unfold mults.
        assert (forall l, NoDup l -> (forall x y, In x l -> In y l ->
           Q2Qc (inject_Z (Z.of_nat x * Z.of_nat x) * column_sq (b_dim b) (b_mat b) kmx) =
           Q2Qc (inject_Z (Z.of_nat y * Z.of_nat y) * column_sq (b_dim b) (b_mat b) kmx) -> x = y) ->
           NoDup (map (fun i => Q2Qc (inject_Z (Z.of_nat i * Z.of_nat i) *
                  column_sq (b_dim b) (b_mat b) kmx)) l)) as Hmap.
        { intro l. induction 1 as [|x l Hx Hn IH]; intro Hinj; simpl; constructor.
          - rewrite in_map_iff. intros [y [Ey Hy]]. apply Hinj in Ey; simpl; auto. subst. contradiction.
          - apply IH. intros; apply Hinj; simpl; auto. }
        apply Hmap; [apply seq_NoDup|]. intros x y _ _ E.
        assert (this (Q2Qc (inject_Z (Z.of_nat x * Z.of_nat x) * column_sq (b_dim b) (b_mat b) kmx)) ==
                this (Q2Qc (inject_Z (Z.of_nat y * Z.of_nat y) * column_sq (b_dim b) (b_mat b) kmx))) as E'
          by (rewrite E; reflexivity).
        rewrite !Q2Qc_eq in E'. apply Qmult_inj_r in E'; [|lra].
        apply (proj1 (inject_Z_injective _ _)) in E'. nia.
      + intros x Hx Hm. apply Hfr in Hx. apply Hge in Hm. lra. }
  assert (incl (Q2Qc 0 :: front ++ mults) (unique qc_leb dists)) as Hincl.
  { intros x [<-|Hx].
    - replace (Q2Qc 0) with (Q2Qc (inject_Z (0 * 0) * column_sq (b_dim b) (b_mat b) kmx)).
      + apply Hdist; auto; simpl; lia.
      + apply Q2Qc_inj. change (inject_Z (0 * 0)) with 0. ring.
    - apply in_app_or in Hx. destruct Hx as [Hx|Hx].
      + assert (In x lens) as Hl by (rewrite Hlast; apply in_or_app; auto).
        apply Hin in Hl. destruct Hl as [k [Hk ->]].
        replace (Q2Qc (column_sq (b_dim b) (b_mat b) k)) with
          (Q2Qc (inject_Z (1 * 1) * column_sq (b_dim b) (b_mat b) k)).
        * apply Hdist; auto; simpl; lia.
        * apply Q2Qc_inj. change (inject_Z (1 * 1)) with 1. ring.
      + unfold mults in Hx. apply in_map_iff in Hx. destruct Hx as [i [<- Hi]]. apply in_seq in Hi.
        apply Hdist; auto. lia. }
  pose proof (NoDup_incl_length Hnd Hincl) as Hlen. simpl in Hlen.
  rewrite app_length in Hlen. unfold mults in Hlen. rewrite map_length, seq_length in Hlen.
  rewrite Hlast, app_length. simpl. lia.
Qed.

Lemma cell_sq_neg d V n : cell_sq d V (map Z.opp n) == cell_sq d V n.
Proof.
  unfold cell_sq. apply sum_ext. intros i Hi. cbv zeta.
  assert (sum_upto d (fun k => entry V i k * inject_Z (nth k (map Z.opp n) 0%Z)) ==
          (-(1)) * sum_upto d (fun k => entry V i k * inject_Z (nth k n 0%Z))) as E.
  { rewrite <- sum_scale. apply sum_ext. intros k Hk.
    replace (nth k (map Z.opp n) 0%Z) with (- nth k n 0)%Z.
    - rewrite inject_Z_opp. ring.
    - change 0%Z with (Z.opp 0%Z) at 2. rewrite map_nth. reflexivity. }
  rewrite E. ring.
Qed.

Lemma int_box_neg d m n : int_box d m n -> int_box d m (map Z.opp n).
Proof.
  intros [H1 H2]. split; [rewrite map_length; assumption|]. intros k Hk. apply in_map_iff in Hk.
  destruct Hk as [z [<- Hz]]. apply H2 in Hz. lia.
Qed.

Lemma opp_zero_vec n d : map Z.opp n = repeat 0%Z d -> n = repeat 0%Z d.
Proof.
  revert d. induction n as [|x n IH]; intros [|d]; simpl; try discriminate; auto.
  intro H. injection H as H1 H2. f_equal; auto. lia.
Qed.
