(** * Linear algebra lemmas on lists of rationals *)
From Coq Require Import List ZArith QArith Qround Qabs Bool Arith Lia Lqa Setoid Morphisms.
From Verif Require Import Np NpFacts LinAlg SpecBasis.
Import ListNotations.
Open Scope Q_scope.

(** ** Sums *)

Lemma sum_ext n f g : (forall k, (k < n)%nat -> f k == g k) -> sum_upto n f == sum_upto n g.
Proof.
  induction n as [|n IH]; intro H; simpl; [reflexivity|].
  rewrite IH, (H n) by (intros; try apply H; lia). reflexivity.
Qed.

Lemma sum_zero n f : (forall k, (k < n)%nat -> f k == 0) -> sum_upto n f == 0.
Proof.
  induction n as [|n IH]; intro H; simpl; [reflexivity|].
  rewrite IH, (H n) by (intros; try apply H; lia). reflexivity.
Qed.

Lemma sum_plus n f g : sum_upto n (fun k => f k + g k) == sum_upto n f + sum_upto n g.
Proof. induction n as [|n IH]; simpl; [reflexivity|]. rewrite IH. ring. Qed.

Lemma sum_scale n c f : sum_upto n (fun k => c * f k) == c * sum_upto n f.
Proof. induction n as [|n IH]; simpl; [ring|]. rewrite IH. ring. Qed.

Lemma sum_swap n m f :
  sum_upto n (fun i => sum_upto m (fun j => f i j)) ==
  sum_upto m (fun j => sum_upto n (fun i => f i j)).
Proof.
  induction n as [|n IH]; simpl.
  - symmetry. apply sum_zero. reflexivity.
  - rewrite IH, <- sum_plus. reflexivity.
Qed.

Lemma sum_delta n i f : (i < n)%nat -> sum_upto n (fun k => delta i k * f k) == f i.
Proof.
  induction n as [|n IH]; intro H; [lia|]. simpl. unfold delta at 2.
  destruct (Nat.eqb_spec i n) as [->|Hne].
  - rewrite sum_zero; [ring|]. intros k Hk. unfold delta.
    destruct (Nat.eqb_spec n k); [lia|ring].
  - rewrite IH by lia. ring.
Qed.

Lemma sum_shift n f : sum_upto (S n) f == f 0%nat + sum_upto n (fun k => f (S k)).
Proof. induction n as [|n IH]; simpl in *; [ring|]. rewrite IH. ring. Qed.

(** ** Vector equality *)

Lemma veq_refl u : veq u u.
Proof. induction u; constructor; auto. reflexivity. Qed.

Lemma veq_sym u v : veq u v -> veq v u.
Proof. induction 1; constructor; auto. symmetry. assumption. Qed.

Lemma veq_trans u v w : veq u v -> veq v w -> veq u w.
Proof.
  intro H. revert w. induction H; intros w Hw; inversion Hw; subst; constructor.
  - etransitivity; eassumption.
  - apply IHForall2. assumption.
Qed.

#[global] Instance veq_equiv : Equivalence veq.
Proof. split; [exact veq_refl|exact veq_sym|exact veq_trans]. Qed.

Lemma veq_length u v : veq u v -> length u = length v.
Proof. induction 1; simpl; auto. Qed.

Lemma veq_nth u v : veq u v <-> length u = length v /\ forall i, nth i u 0 == nth i v 0.
Proof.
  split.
  - induction 1 as [|x y u v H H' IH].
    + split; auto. intros []; reflexivity.
    + destruct IH as [IH1 IH2]. split; [simpl; auto|]. intros [|i]; simpl; auto.
  - revert v. induction u as [|x u IH]; intros [|y v] [H1 H2]; try discriminate; constructor.
    + exact (H2 0%nat).
    + apply IH. split; [simpl in H1; lia|]. intro i. exact (H2 (S i)).
Qed.

Lemma same_veq u v : same u v <-> veq u v.
Proof. unfold same. symmetry. apply veq_nth. Qed.

Lemma veq_nth_lt u v d :
  length u = d -> length v = d -> (forall i, (i < d)%nat -> nth i u 0 == nth i v 0) -> veq u v.
Proof.
  intros Hu Hv H. apply veq_nth. split; [congruence|]. intro i.
  destruct (Nat.lt_ge_cases i d) as [Hi|Hi]; auto.
  rewrite !nth_overflow by lia. reflexivity.
Qed.

Lemma veqb_veq u v : veqb u v = true <-> veq u v.
Proof.
  revert v. induction u as [|x u IH]; intros [|y v]; simpl; split; intro H;
    try discriminate; try (inversion H; fail); try constructor.
  - apply andb_prop in H. destruct H as [H _]. apply Qeq_bool_iff. assumption.
  - apply andb_prop in H. destruct H as [_ H]. apply IH. assumption.
  - inversion H; subst. apply andb_true_intro. split; [apply Qeq_bool_iff|apply IH]; assumption.
Qed.

(** ** map2 *)

Lemma map2_length {A B C} (f : A -> B -> C) l m : length (map2 f l m) = Nat.min (length l) (length m).
Proof. revert m. induction l; intros [|y m]; simpl; auto. Qed.

Lemma nth_map2 {A B C} (f : A -> B -> C) l m i da db dc :
  (i < length l)%nat -> (i < length m)%nat -> nth i (map2 f l m) dc = f (nth i l da) (nth i m db).
Proof.
  revert m i. induction l as [|x l IH]; intros [|y m] [|i] Hl Hm; simpl in *; try lia; auto.
  apply IH; lia.
Qed.

Lemma vadd_length u v : length u = length v -> length (vadd u v) = length u.
Proof. intro H. unfold vadd. rewrite map2_length. lia. Qed.

Lemma vsub_length u v : length u = length v -> length (vsub u v) = length u.
Proof. intro H. unfold vsub. rewrite map2_length. lia. Qed.

Lemma nth_vadd u v i : length u = length v -> nth i (vadd u v) 0 == nth i u 0 + nth i v 0.
Proof.
  intro H. destruct (Nat.lt_ge_cases i (length u)) as [Hi|Hi].
  - unfold vadd. rewrite (nth_map2 Qplus u v i 0 0) by lia. reflexivity.
  - rewrite !nth_overflow; [reflexivity|lia|lia|rewrite vadd_length; lia].
Qed.

Lemma nth_vsub u v i : length u = length v -> nth i (vsub u v) 0 == nth i u 0 - nth i v 0.
Proof.
  intro H. destruct (Nat.lt_ge_cases i (length u)) as [Hi|Hi].
  - unfold vsub. rewrite (nth_map2 Qminus u v i 0 0) by lia. reflexivity.
  - rewrite !nth_overflow; [reflexivity|lia|lia|rewrite vsub_length; lia].
Qed.

#[global] Instance vadd_proper : Proper (veq ==> veq ==> veq) vadd.
Proof.
  intros u u' Hu. induction Hu; intros v v' Hv; simpl; [constructor|].
  inversion Hv; subst; constructor.
  - rewrite H, H0. reflexivity.
  - apply IHHu. assumption.
Qed.

#[global] Instance vsub_proper : Proper (veq ==> veq ==> veq) vsub.
Proof.
  intros u u' Hu. induction Hu; intros v v' Hv; simpl; [constructor|].
  inversion Hv; subst; constructor.
  - rewrite H, H0. reflexivity.
  - apply IHHu. assumption.
Qed.

(** ** dot and matvec *)

Lemma dot_cons x u y v : dot (x :: u) (y :: v) = x * y + dot u v.
Proof. reflexivity. Qed.

#[global] Instance dot_proper : Proper (veq ==> veq ==> Qeq) dot.
Proof.
  intros u u' Hu. induction Hu; intros v v' Hv; [reflexivity|].
  inversion Hv; subst; [reflexivity|]. rewrite !dot_cons. rewrite H, H0.
  rewrite (IHHu _ _ H1). reflexivity.
Qed.

Lemma dot_sum n u v :
  length u = n -> length v = n -> dot u v == sum_upto n (fun k => nth k u 0 * nth k v 0).
Proof.
  revert u v. induction n as [|n IH]; intros [|x u] [|y v] Hu Hv; simpl in Hu, Hv; try lia.
  - reflexivity.
  - rewrite dot_cons, sum_shift. simpl nth. rewrite IH by lia. reflexivity.
Qed.

Lemma dot_comm u v : dot u v == dot v u.
Proof.
  revert v. induction u as [|x u IH]; intros [|y v]; try reflexivity.
  rewrite !dot_cons, IH. ring.
Qed.

Lemma dot_vadd_r w u v : length u = length v -> dot w (vadd u v) == dot w u + dot w v.
Proof.
  revert u v. induction w as [|z w IH]; intros [|x u] [|y v] H; try discriminate;
    try (unfold dot; simpl; ring).
  change (vadd (x :: u) (y :: v)) with ((x + y) :: vadd u v). rewrite !dot_cons, IH by (simpl in H; lia). ring.
Qed.

Lemma dot_vsub_r w u v : length u = length v -> dot w (vsub u v) == dot w u - dot w v.
Proof.
  revert u v. induction w as [|z w IH]; intros [|x u] [|y v] H; try discriminate;
    try (unfold dot; simpl; ring).
  change (vsub (x :: u) (y :: v)) with ((x - y) :: vsub u v). rewrite !dot_cons, IH by (simpl in H; lia). ring.
Qed.

Lemma dot_vscale_r w c v : dot w (vscale c v) == c * dot w v.
Proof.
  revert v. induction w as [|z w IH]; intros [|y v]; try (unfold dot; simpl; ring).
  change (vscale c (y :: v)) with ((c * y) :: vscale c v). rewrite !dot_cons, IH. ring.
Qed.

Lemma matvec_length M x : length (matvec M x) = length M.
Proof. apply map_length. Qed.

Lemma nth_matvec M x i : nth i (matvec M x) 0 = dot (nth i M []) x.
Proof.
  unfold matvec. revert i. induction M as [|r M IH]; intros [|i]; simpl; auto.
Qed.

#[global] Instance matvec_proper M : Proper (veq ==> veq) (matvec M).
Proof.
  intros x y H. unfold matvec. induction M; simpl; constructor; auto.
  rewrite H. reflexivity.
Qed.

Lemma square_row d M i : square d M -> (i < d)%nat -> length (nth i M []) = d.
Proof. intros [H1 H2] Hi. apply H2. apply nth_In. lia. Qed.

Lemma nth_matvec_sum d M x i :
  square d M -> length x = d -> (i < d)%nat ->
  nth i (matvec M x) 0 == sum_upto d (fun k => entry M i k * nth k x 0).
Proof.
  intros HM Hx Hi. rewrite nth_matvec, (dot_sum d); auto.
  - reflexivity.
  - apply square_row; auto.
Qed.

Lemma matvec_len d M x : square d M -> length (matvec M x) = d.
Proof. intros [H _]. rewrite matvec_length. exact H. Qed.

Lemma matvec_vadd d M x y :
  square d M -> length x = d -> length y = d ->
  veq (matvec M (vadd x y)) (vadd (matvec M x) (matvec M y)).
Proof.
  intros HM Hx Hy. unfold matvec. clear HM. induction M; simpl; constructor; auto.
  apply dot_vadd_r. congruence.
Qed.

Lemma matvec_vsub d M x y :
  square d M -> length x = d -> length y = d ->
  veq (matvec M (vsub x y)) (vsub (matvec M x) (matvec M y)).
Proof.
  intros HM Hx Hy. unfold matvec. clear HM. induction M; simpl; constructor; auto.
  apply dot_vsub_r. congruence.
Qed.

Lemma inverse_cancel d V W x :
  inverse_of d V W -> length x = d -> veq (matvec V (matvec W x)) x.
Proof.
  intros [HV [HW [H _]]] Hx. apply (veq_nth_lt _ _ d); auto.
  - apply matvec_len. assumption.
  - intros i Hi. rewrite (nth_matvec_sum d) by (auto; apply matvec_len; auto).
    rewrite (sum_ext d _ (fun k => sum_upto d (fun j => entry V i k * (entry W k j * nth j x 0)))).
    2:{ intros k Hk. rewrite (nth_matvec_sum d W x k) by auto.
        rewrite <- sum_scale. reflexivity. }
    rewrite sum_swap.
    rewrite (sum_ext d _ (fun j => delta i j * nth j x 0)).
    { apply sum_delta. assumption. }
    intros j Hj. rewrite <- (H i j Hi Hj). rewrite Qmult_comm, <- sum_scale.
    apply sum_ext. intros. ring.
Qed.

Lemma inverse_sym d V W : inverse_of d V W -> inverse_of d W V.
Proof. intros [H1 [H2 [H3 H4]]]. repeat split; auto; try apply H1; try apply H2. Qed.

Lemma of_Z_length n : length (of_Z n) = length n.
Proof. apply map_length. Qed.

Lemma nth_of_Z n i : nth i (of_Z n) 0 = inject_Z (nth i n 0%Z).
Proof. unfold of_Z. change 0 with (inject_Z 0). apply map_nth. Qed.

Lemma of_Z_inj m n : veq (of_Z m) (of_Z n) -> m = n.
Proof.
  revert n. induction m as [|x m IH]; intros [|y n] H; simpl in H; inversion H; subst; auto.
  f_equal; auto. apply inject_Z_injective. assumption.
Qed.

(** ** Floor *)

Lemma Qfloor_unique q z : inject_Z z <= q -> q < inject_Z (z + 1) -> Qfloor q = z.
Proof.
  intros H1 H2. pose proof (Qfloor_le q) as H3. pose proof (Qlt_floor q) as H4.
  assert (z < Qfloor q + 1)%Z by (rewrite Zlt_Qlt; eapply Qle_lt_trans; eauto).
  assert (Qfloor q < z + 1)%Z by (rewrite Zlt_Qlt; eapply Qle_lt_trans; eauto).
  lia.
Qed.

#[global] Instance Qfloor_proper : Proper (Qeq ==> eq) Qfloor.
Proof. intros x y H. apply Qfloor_comp. assumption. Qed.

(** ** products and ranges *)

Lemma In_product {A} (ls : list (list A)) v :
  In v (product ls) <-> Forall2 (fun x l => In x l) v ls.
Proof.
  revert v. induction ls as [|l ls IH]; intro v; simpl.
  - split.
    + intros [<-|[]]. constructor.
    + intro H. inversion H. left; reflexivity.
  - rewrite in_flat_map. split.
    + intros [x [Hx Hv]]. apply in_map_iff in Hv. destruct Hv as [w [<- Hw]].
      constructor; auto. apply IH. assumption.
    + intro H. inversion H; subst. exists x. split; auto. apply in_map. apply IH. assumption.
Qed.

Lemma NoDup_app_intro {A} (l m : list A) :
  NoDup l -> NoDup m -> (forall x, In x l -> ~ In x m) -> NoDup (l ++ m).
Proof.
  intros Hl Hm Hd. induction Hl as [|x l Hx Hl IH]; simpl; auto.
  constructor.
  - rewrite in_app_iff. intros [H|H]; [contradiction|]. exact (Hd x (or_introl eq_refl) H).
  - apply IH. intros y Hy. apply Hd. right; assumption.
Qed.

Lemma NoDup_product {A} (ls : list (list A)) : Forall (@NoDup A) ls -> NoDup (product ls).
Proof.
  induction 1 as [|l ls Hl Hls IH]; simpl.
  - repeat constructor. auto.
  - induction Hl as [|x l Hx Hl IHl]; simpl; [constructor|].
    apply NoDup_app_intro; auto.
    + apply FinFun.Injective_map_NoDup; auto. intros u v H. congruence.
    + intros v Hv Hin. apply in_map_iff in Hv. destruct Hv as [u [<- _]].
      apply in_flat_map in Hin. destruct Hin as [y [Hy Hin]].
      apply in_map_iff in Hin. destruct Hin as [w [Hw _]]. injection Hw as -> _. contradiction.
Qed.

Lemma In_zrange lo hi z : In z (zrange lo hi) <-> (lo <= z < hi)%Z.
Proof.
  unfold zrange. rewrite in_map_iff. split.
  - intros [i [<- Hi]]. apply in_seq in Hi. lia.
  - intro H. exists (Z.to_nat (z - lo)). split; [lia|]. apply in_seq. lia.
Qed.

Lemma NoDup_zrange lo hi : NoDup (zrange lo hi).
Proof.
  unfold zrange. apply FinFun.Injective_map_NoDup; [|apply seq_NoDup].
  intros x y H. lia.
Qed.

Lemma zrange_length lo hi : length (zrange lo hi) = Z.to_nat (hi - lo).
Proof. unfold zrange. rewrite map_length, seq_length. reflexivity. Qed.

(** ** Norms *)

Lemma norm2_nonneg v : 0 <= norm2 v.
Proof.
  unfold norm2. induction v as [|x v IH]; [unfold dot; simpl; lra|].
  rewrite dot_cons. nra.
Qed.

Lemma norm2_zero v : norm2 v == 0 -> Forall (fun x => x == 0) v.
Proof.
  unfold norm2. induction v as [|x v IH]; constructor.
  - rewrite dot_cons in H. pose proof (norm2_nonneg v) as Hv. unfold norm2 in Hv. nra.
  - apply IH. rewrite dot_cons in H. pose proof (norm2_nonneg v) as Hv. unfold norm2 in Hv. nra.
Qed.

#[global] Instance norm2_proper : Proper (veq ==> Qeq) norm2.
Proof. intros u v H. unfold norm2. rewrite H. reflexivity. Qed.
