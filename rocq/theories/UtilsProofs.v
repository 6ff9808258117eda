(** * Proofs about utils.py *)
From Coq Require Import String List ZArith QArith Qround Qabs Qpower Qfield Bool Arith Lia Lqa Sorting.Sorted.
From Verif Require Import Np NpFacts UtilsModel SpecUtils.
Import ListNotations.
Open Scope nat_scope.

(** ** Lookup table *)

Section Lookup.
  Context {A : Type} (leb eqb : A -> A -> bool).
  Hypothesis Hleb : total_order leb.
  Hypothesis Heqb : decides_eq eqb.

  Lemma step_fold_length array L ind :
    length (fold_left (lookup_step eqb array) L ind) = length ind.
  Proof.
    revert ind. induction L as [|[i x] L IH]; intro ind; simpl; auto.
    rewrite IH. apply assign_mask_length.
  Qed.

  Lemma step_fold_spec array L ind k a :
    length ind = length array ->
    nth_error array k = Some a ->
    NoDup (map snd L) ->
    forall i, In (i, a) L -> nth_error (fold_left (lookup_step eqb array) L ind) k = Some (i mod 256).
  Proof.
    intros Hlen Hk. induction L as [|[j x] L IH] using rev_ind; intros Hnd i Hin.
    - destruct Hin.
    - rewrite fold_left_app. simpl. rewrite nth_error_assign_mask.
      assert (k < length ind) as Hkl.
      { rewrite Hlen. eapply nth_error_length_lt; eauto. }
      destruct (nth_error_lt (fold_left (lookup_step eqb array) L ind) k) as [v Hv].
      { rewrite step_fold_length. assumption. }
      rewrite Hv. rewrite (nth_of_nth_error _ k false (eqb a x)).
      2:{ rewrite nth_error_map', Hk. reflexivity. }
      rewrite map_app in Hnd. simpl in Hnd.
      apply in_app_or in Hin. destruct Hin as [Hin|[Hin|[]]].
      + destruct (eqb a x) eqn:E.
        * apply Heqb in E. subst x. exfalso.
          apply NoDup_remove_2 in Hnd. apply Hnd. rewrite app_nil_r.
          change a with (snd (i, a)). apply in_map. exact Hin.
        * rewrite <- Hv. apply IH; auto.
          apply NoDup_remove_1 in Hnd. rewrite app_nil_r in Hnd. exact Hnd.
      + injection Hin as -> ->. replace (eqb a a) with true; auto.
        symmetry. apply Heqb. reflexivity.
  Qed.

  Lemma lookup_indices_length array :
    length (snd (create_lookup_table leb eqb array)) = length array.
  Proof.
    unfold create_lookup_table. simpl. rewrite step_fold_length.
    apply map_length.
  Qed.

  Lemma map_snd_enumerate (l : list A) : map snd (enumerate l) = l.
  Proof.
    apply list_eq_nth_error. intro i. rewrite nth_error_map', nth_error_enumerate.
    destruct (nth_error l i); reflexivity.
  Qed.

  Lemma lookup_entry array k a :
    nth_error array k = Some a ->
    exists i, nth_error (fst (create_lookup_table leb eqb array)) i = Some a /\
              nth_error (snd (create_lookup_table leb eqb array)) k = Some (i mod 256).
  Proof.
    intro Hk. unfold create_lookup_table. simpl.
    assert (In a (unique leb array)) as Hin.
    { apply In_unique; [apply Hleb|]. eapply nth_error_In; eauto. }
    apply In_nth_error in Hin. destruct Hin as [i Hi]. exists i. split; auto.
    apply step_fold_spec with (a := a); auto.
    - apply map_length.
    - rewrite map_snd_enumerate. apply unique_NoDup; apply Hleb.
    - apply In_enumerate. exact Hi.
  Qed.

  Lemma lookup_values_spec array :
    increasing leb (fst (create_lookup_table leb eqb array)) /\
    forall x, In x (fst (create_lookup_table leb eqb array)) <-> In x array.
  Proof.
    simpl. split.
    - apply unique_strict; apply Hleb.
    - intro x. apply In_unique. apply Hleb.
  Qed.

  Lemma lookup_decodes array d :
    length (fst (create_lookup_table leb eqb array)) <= 256 ->
    map (fun i => nth i (fst (create_lookup_table leb eqb array)) d)
        (snd (create_lookup_table leb eqb array)) = array.
  Proof.
    intro Hlen. apply list_eq_nth_error. intro k. rewrite nth_error_map'.
    destruct (nth_error array k) as [a|] eqn:Hk.
    - destruct (lookup_entry array k a Hk) as [i [H1 H2]]. rewrite H2. cbn [option_map].
      rewrite Nat.mod_small.
      + f_equal. apply nth_of_nth_error. exact H1.
      + apply nth_error_length_lt in H1. lia.
    - apply nth_error_None in Hk. rewrite (nth_error_ge (snd _) k); auto.
      rewrite lookup_indices_length. exact Hk.
  Qed.

  Lemma lookup_overflow array d :
    256 < length (fst (create_lookup_table leb eqb array)) ->
    map (fun i => nth i (fst (create_lookup_table leb eqb array)) d)
        (snd (create_lookup_table leb eqb array)) <> array.
  Proof.
    intros Hlen Heq.
    destruct (nth_error_lt _ _ Hlen) as [a Ha].
    destruct (lookup_values_spec array) as [Hinc Hin].
    assert (In a array) as Hina by (apply Hin; eapply nth_error_In; eauto).
    apply In_nth_error in Hina. destruct Hina as [k Hk].
    destruct (lookup_entry array k a Hk) as [i [H1 H2]].
    pose proof (strict_NoDup _ _ Hinc) as Hnd.
    assert (i = 256) as ->.
    { eapply NoDup_nth_error; eauto.
      - eapply nth_error_length_lt; eauto.
      - congruence. }
    assert (nth_error array k = Some (nth 0 (fst (create_lookup_table leb eqb array)) d)) as H3.
    { rewrite <- Heq at 1. rewrite nth_error_map', H2. reflexivity. }
    destruct (nth_error_lt (fst (create_lookup_table leb eqb array)) 0) as [b Hb]; [lia|].
    rewrite (nth_of_nth_error _ _ d _ Hb) in H3.
    assert (0 = 256); [|lia].
    eapply NoDup_nth_error; eauto; [lia|]. congruence.
  Qed.
End Lookup.

(** ** Two-dimensional lookup table *)

Lemma reshape_concat {A} (rows : list (list A)) cols :
  (forall r, In r rows -> length r = cols) -> reshape (length rows) cols (concat rows) = rows.
Proof.
  induction rows as [|r rows IH]; intro H; simpl; auto.
  assert (length r = cols) as Hr by (apply H; left; auto).
  assert (firstn cols (r ++ concat rows) = r) as ->.
  { rewrite <- Hr, firstn_app, firstn_all, Nat.sub_diag. simpl. apply app_nil_r. }
  assert (skipn cols (r ++ concat rows) = concat rows) as ->.
  { rewrite <- Hr, skipn_app, skipn_all, Nat.sub_diag. reflexivity. }
  f_equal. apply IH. intros. apply H. right; auto.
Qed.

Lemma reshape_map {A B} (f : A -> B) n c l :
  map (map f) (reshape n c l) = reshape n c (map f l).
Proof.
  revert l. induction n as [|n IH]; intro l; simpl; auto.
  rewrite IH, firstn_map, skipn_map. reflexivity.
Qed.

(** ** min_dtype *)

Open Scope Z_scope.

Lemma np_max_spec a m : np_max a = Some m -> In m a /\ forall x, In x a -> x <= m.
Proof.
  revert m. induction a as [|y a IH]; intros m H; simpl in H; [discriminate|].
  destruct (np_max a) as [m'|] eqn:E.
  - injection H as <-. destruct (IH m' eq_refl) as [H1 H2]. split.
    + destruct (Z.max_spec y m') as [[_ ->]|[_ ->]]; simpl; auto.
    + intros x [->|Hx]; [lia|]. specialize (H2 x Hx). lia.
  - injection H as <-. destruct a; [|simpl in E; destruct (np_max a); discriminate].
    split; simpl; auto. intros x [->|[]]. lia.
Qed.

Lemma np_min_spec a m : np_min a = Some m -> In m a /\ forall x, In x a -> m <= x.
Proof.
  revert m. induction a as [|y a IH]; intros m H; simpl in H; [discriminate|].
  destruct (np_min a) as [m'|] eqn:E.
  - injection H as <-. destruct (IH m' eq_refl) as [H1 H2]. split.
    + destruct (Z.min_spec y m') as [[_ ->]|[_ ->]]; simpl; auto.
    + intros x [->|Hx]; [lia|]. specialize (H2 x Hx). lia.
  - injection H as <-. destruct a; [|simpl in E; destruct (np_min a); discriminate].
    split; simpl; auto. intros x [->|[]]. lia.
Qed.

Lemma np_max_none a : np_max a = None <-> a = [].
Proof. destruct a; simpl; [tauto|]. destruct (np_max a); split; discriminate. Qed.

Lemma np_min_none a : np_min a = None <-> a = [].
Proof. destruct a; simpl; [tauto|]. destruct (np_min a); split; discriminate. Qed.

(** A value is representable in a type. *)
Definition in_type (t : ndtype) (z : Z) : Prop :=
  match t with
  | OBJ => True
  | _ => if dt_signed t then fits_signed (dt_bits t) z else fits_unsigned (dt_bits t) z
  end.

Ltac zcase :=
  repeat match goal with
  | |- context [?a <? ?b] => destruct (Z.ltb_spec a b)
  | |- context [?a <=? ?b] => destruct (Z.leb_spec a b)
  end.

Lemma min_scalar_neg z : z < 0 ->
  (forall y, z <= y -> y < - z -> in_type (min_scalar_type z) y) /\
  (dt_signed (min_scalar_type z) = true \/ min_scalar_type z = OBJ) /\
  (forall b, machine_width b -> fits_signed b z -> dt_bits (min_scalar_type z) <= b).
Proof.
  intro Hz. unfold min_scalar_type. zcase; try lia;
  (split; [intros y Hy1 Hy2; unfold in_type, fits_signed; simpl; lia|]);
  (split; [simpl; auto|]); intros b Hb Hf; unfold fits_signed in Hf;
  simpl in Hb; destruct Hb as [<-|[<-|[<-|[<-|[]]]]]; simpl in *; lia.
Qed.

Lemma min_scalar_pos z : 0 <= z ->
  (forall y, 0 <= y <= z -> in_type (min_scalar_type z) y) /\
  dt_signed (min_scalar_type z) = false /\
  (forall b, machine_width b -> fits_unsigned b z -> dt_bits (min_scalar_type z) <= b).
Proof.
  intro Hz. unfold min_scalar_type. zcase; try lia;
  (split; [intros y Hy; unfold in_type, fits_unsigned; simpl; lia|]);
  (split; [simpl; auto|]); intros b Hb Hf; unfold fits_unsigned in Hf;
  simpl in Hb; destruct Hb as [<-|[<-|[<-|[<-|[]]]]]; simpl in *; lia.
Qed.

Lemma min_dtype_empty a s : min_dtype a s = None <-> a = [].
Proof.
  unfold min_dtype. destruct s.
  - destruct (np_max (map Z.abs a)) eqn:E.
    + split; [discriminate|]. intros ->. discriminate.
    + apply np_max_none in E. destruct a; [tauto|discriminate].
  - destruct (np_min a) eqn:E1.
    + destruct (np_max a) eqn:E2.
      * split; [|intros ->; discriminate].
        destruct (z <? 0); [destruct (Z.abs z <=? z0)|]; discriminate.
      * apply np_max_none in E2. tauto.
    + apply np_min_none in E1. tauto.
Qed.

Lemma min_dtype_holds a s t x : min_dtype a s = Some t -> In x a -> in_type t x.
Proof.
  unfold min_dtype. intros H Hx. destruct s.
  - destruct (np_max (map Z.abs a)) as [m|] eqn:E; [|discriminate]. injection H as <-.
    apply np_max_spec in E. destruct E as [E1 E2].
    specialize (E2 _ (in_map Z.abs _ _ Hx)).
    apply min_scalar_neg; lia.
  - destruct (np_min a) as [mi|] eqn:E1; [|discriminate].
    destruct (np_max a) as [ma|] eqn:E2; [|discriminate].
    apply np_min_spec in E1. apply np_max_spec in E2.
    destruct E1 as [I1 E1], E2 as [I2 E2].
    specialize (E1 _ Hx). specialize (E2 _ Hx).
    destruct (Z.ltb_spec mi 0).
    + destruct (Z.leb_spec (Z.abs mi) ma); injection H as <-.
      * apply min_scalar_neg; lia.
      * apply min_scalar_neg; lia.
    + injection H as <-. apply min_scalar_pos; lia.
Qed.

Lemma min_dtype_minimal_signed a t b :
  min_dtype a true = Some t -> machine_width b ->
  (forall x, In x a -> fits_signed b x /\ fits_signed b (- x)) -> dt_bits t <= b.
Proof.
  unfold min_dtype. intros H Hb Hf.
  destruct (np_max (map Z.abs a)) as [m|] eqn:E; [|discriminate]. injection H as <-.
  apply np_max_spec in E. destruct E as [E1 E2]. apply in_map_iff in E1.
  destruct E1 as [x [E1 Hx]]. destruct (Hf x Hx) as [F1 F2].
  apply min_scalar_neg; auto; unfold fits_signed in *; lia.
Qed.

Lemma min_dtype_minimal_neg a t b :
  min_dtype a false = Some t -> machine_width b ->
  (exists x, In x a /\ x < 0) ->
  (forall x, In x a -> fits_signed b x) -> dt_bits t <= b.
Proof.
  unfold min_dtype. intros H Hb [y [Hy Hneg]] Hf.
  destruct (np_min a) as [mi|] eqn:E1; [|discriminate].
  destruct (np_max a) as [ma|] eqn:E2; [|discriminate].
  apply np_min_spec in E1. apply np_max_spec in E2.
  destruct E1 as [I1 E1], E2 as [I2 E2]. specialize (E1 _ Hy).
  destruct (Z.ltb_spec mi 0); [|lia].
  pose proof (Hf _ I1) as F1. pose proof (Hf _ I2) as F2. unfold fits_signed in *.
  destruct (Z.leb_spec (Z.abs mi) ma); injection H as <-;
  apply min_scalar_neg; auto; unfold fits_signed; lia.
Qed.

Lemma min_dtype_minimal_nonneg a t b :
  min_dtype a false = Some t -> machine_width b ->
  (forall x, In x a -> fits_unsigned b x) -> dt_bits t <= b.
Proof.
  unfold min_dtype. intros H Hb Hf.
  destruct (np_min a) as [mi|] eqn:E1; [|discriminate].
  destruct (np_max a) as [ma|] eqn:E2; [|discriminate].
  apply np_min_spec in E1. apply np_max_spec in E2.
  destruct E1 as [I1 E1], E2 as [I2 E2].
  pose proof (Hf _ I1) as F1. pose proof (Hf _ I2) as F2. unfold fits_unsigned in *.
  destruct (Z.ltb_spec mi 0); [lia|]. injection H as <-.
  apply min_scalar_pos; auto; unfold fits_unsigned; lia.
Qed.

Lemma min_dtype_sign a s t :
  min_dtype a s = Some t -> t <> OBJ ->
  (dt_signed t = true <-> s = true \/ exists x, In x a /\ x < 0).
Proof.
  unfold min_dtype. intros H Ho. destruct s.
  - destruct (np_max (map Z.abs a)) as [m|] eqn:E; [|discriminate]. injection H as <-.
    apply np_max_spec in E. destruct E as [E1 E2]. apply in_map_iff in E1.
    destruct E1 as [x [E1 _]].
    destruct (min_scalar_neg (-m-1)) as [_ [[?|?] _]]; [lia|tauto|contradiction].
  - destruct (np_min a) as [mi|] eqn:E1; [|discriminate].
    destruct (np_max a) as [ma|] eqn:E2; [|discriminate].
    apply np_min_spec in E1. apply np_max_spec in E2.
    destruct E1 as [I1 E1], E2 as [I2 E2].
    destruct (Z.ltb_spec mi 0) as [Hmi|Hmi].
    + assert (exists z, z < 0 /\ t = min_scalar_type z) as [z [Hz ->]].
      { destruct (Z.leb_spec (Z.abs mi) ma); injection H as <-;
        [exists (-ma-1)|exists mi]; split; auto; lia. }
      destruct (min_scalar_neg z) as [_ [[?|?] _]]; [lia| |contradiction].
      split; auto. intros _. right. exists mi. auto.
    + injection H as <-. destruct (min_scalar_pos ma) as [_ [-> _]].
      { specialize (E1 _ I2). lia. }
      split; [discriminate|]. intros [?|[x [Hx Hn]]]; [discriminate|].
      specialize (E1 _ Hx). lia.
Qed.

Close Scope Z_scope.

(** ** chain *)

Lemma flat_map_single {A B} (f : A -> list B) g l :
  (forall x, In x l -> f x = [g x]) -> flat_map f l = map g l.
Proof.
  induction l as [|x l IH]; intro H; simpl; auto.
  rewrite (H x) by (left; auto). simpl. f_equal. apply IH. intros. apply H. right; auto.
Qed.

Definition chain_base {A} (items : list A) : list (A * A) :=
  flat_map (fun i =>
      match nth_error items i, nth_error items (i + 1) with
      | Some a, Some b => [(a, b)]
      | _, _ => []
      end) (seq 0 (length items - 1)).

Lemma chain_base_cons {A} (a b : A) l :
  chain_base (a :: b :: l) = (a, b) :: chain_base (b :: l).
Proof.
  unfold chain_base. simpl. rewrite Nat.sub_0_r.
  change (flat_map ?f (seq 0 (S ?n))) with (f 0 ++ flat_map f (seq 1 n)). simpl. f_equal.
  rewrite <- seq_shift. rewrite !flat_map_concat_map, map_map. f_equal.
Qed.

Lemma nth_error_chain_base {A} (items : list A) i p :
  nth_error (chain_base items) i = Some p <->
  nth_error items i = Some (fst p) /\ nth_error items (S i) = Some (snd p).
Proof.
  revert i. induction items as [|a [|b l] IH]; intro i.
  - unfold chain_base. simpl. destruct i; simpl; split; try discriminate; intros [? ?]; discriminate.
  - unfold chain_base. simpl. destruct i; simpl.
    + split; [discriminate|]. intros [_ H]. discriminate.
    + split; [discriminate|]. intros [H _]. destruct i; discriminate.
  - rewrite chain_base_cons. destruct i as [|i].
    + simpl. destruct p as [x y]. simpl. split.
      * intro H. injection H as -> ->. auto.
      * intros [H1 H2]. congruence.
    + change (nth_error ((a, b) :: chain_base (b :: l)) (S i))
        with (nth_error (chain_base (b :: l)) i).
      rewrite IH. reflexivity.
Qed.

Lemma chain_base_length {A} (items : list A) : length (chain_base items) = length items - 1.
Proof.
  induction items as [|a [|b l] IH]; auto.
  rewrite chain_base_cons. simpl in *. rewrite IH. lia.
Qed.

Lemma chain_false {A} (items : list A) : chain items false = Some (chain_base items).
Proof. reflexivity. Qed.

Lemma chain_true {A} (items : list A) :
  chain items true =
  match nth_error items (length items - 1), nth_error items 0 with
  | Some l, Some f => Some (chain_base items ++ [(l, f)])
  | _, _ => None
  end.
Proof. reflexivity. Qed.

Lemma chain_true_cons {A} (x : A) l :
  chain (x :: l) true = Some (chain_base (x :: l) ++ [(last (x :: l) x, x)]).
Proof.
  rewrite chain_true. cbn [nth_error].
  assert (nth_error (x :: l) (length (x :: l) - 1) = Some (last (x :: l) x)) as ->; auto.
  assert (forall (m : list A) d, m <> [] -> nth_error m (length m - 1) = Some (last m d)) as H.
  { clear. induction m as [|y m IH]; intros d Hm; [congruence|].
    destruct m as [|z m]; auto.
    specialize (IH d ltac:(discriminate)).
    replace (length (y :: z :: m) - 1) with (S (length (z :: m) - 1)) by (simpl; lia).
    exact IH. }
  apply H. discriminate.
Qed.

(** ** frmt_num *)

Open Scope Q_scope.

Lemma frmt_num_loop_spec ps num div :
  0 < div ->
  exists k v,
    frmt_num_loop ps num div = (v, nth k (ps ++ ["Y"%string]) ""%string) /\
    (k <= length ps)%nat /\ v * Qpower div (Z.of_nat k) == num /\
    ((k < length ps)%nat -> Qabs v < div) /\
    (forall j, (j < k)%nat -> div <= Qabs (num / Qpower div (Z.of_nat j))).
Proof.
  intro Hd. revert num. induction ps as [|p ps IH]; intro num.
  - exists 0%nat, num. simpl. repeat split; auto; try lia. field.
  - simpl. destruct (Qle_bool div (Qabs num)) eqn:E; simpl.
    + apply Qle_bool_iff in E.
      destruct (IH (num / div)) as [k [v [H1 [H2 [H3 [H4 H5]]]]]].
      exists (S k), v. split; [exact H1|]. split; [simpl; lia|].
      assert (~ div == 0) as Hnz by lra.
      split; [|split].
      * rewrite Nat2Z.inj_succ, <- Z.add_1_r, Qpower_plus by assumption.
        rewrite Qmult_assoc, H3. simpl. field. assumption.
      * intro. apply H4. lia.
      * intros [|j] Hj.
        -- change (div <= Qabs (num / 1)). setoid_replace (num / 1) with num by field. assumption.
        -- change (div <= Qabs (num / Qpower div (Z.of_nat (S j)))).
           rewrite Nat2Z.inj_succ, <- Z.add_1_r, Qpower_plus by assumption.
           assert (~ Qpower div (Z.of_nat j) == 0) as Hp.
           { apply Qpower_not_0. assumption. }
           setoid_replace (num / (Qpower div (Z.of_nat j) * Qpower div 1))
             with (num / div / Qpower div (Z.of_nat j)).
           ++ apply H5. lia.
           ++ simpl. field. auto.
    + assert (~ div <= Qabs num) as H.
      { rewrite <- Qle_bool_iff. congruence. }
      exists 0%nat, num. simpl. repeat split; auto; try lia.
      * field.
      * intros _. apply Qnot_le_lt. assumption.
Qed.

(** ** frmt_time *)

Lemma divmod60_spec x n r :
  divmod60 x = (n, r) -> x == inject_Z n * (60#1) + r /\ 0 <= r /\ r < 60#1.
Proof.
  unfold divmod60. intro H. cbv zeta in H. apply pair_equal_spec in H. destruct H as [<- <-].
  set (n := Qfloor (x / (60#1))).
  assert (inject_Z n <= x / (60#1)) as H1 by apply Qfloor_le.
  assert (x / (60#1) < inject_Z (n + 1)) as H2 by apply Qlt_floor.
  rewrite inject_Z_plus in H2. change (inject_Z 1) with 1 in H2.
  setoid_replace (x / (60#1)) with (x * (1#60)) in H1 by (field).
  setoid_replace (x / (60#1)) with (x * (1#60)) in H2 by (field).
  clearbody n. generalize dependent (inject_Z n). intros y H1 H2.
  repeat split; lra.
Qed.

Lemma Qrint_inject z : Qrint (inject_Z z) = z.
Proof.
  unfold Qrint. rewrite Qfloor_Z.
  assert (inject_Z z - inject_Z z == 0) as H by ring.
  rewrite !H. reflexivity.
Qed.

Lemma Qrint_eq q z : q == inject_Z z -> Qrint q = z.
Proof.
  intro H. rewrite <- (Qrint_inject z). unfold Qrint.
  assert (Qfloor q = Qfloor (inject_Z z)) as -> by (rewrite H; auto).
  rewrite !H. reflexivity.
Qed.

Lemma divmod60_int m h r :
  divmod60 (inject_Z m) = (h, r) -> (h = m / 60 /\ Qrint r = m mod 60)%Z.
Proof.
  unfold divmod60. intro H. cbv zeta in H. apply pair_equal_spec in H. destruct H as [<- <-].
  assert (Qfloor (inject_Z m / (60#1)) = m / 60)%Z as E.
  { unfold Qfloor, Qdiv, Qmult, Qinv. simpl. rewrite Z.mul_1_r. reflexivity. }
  split; auto. apply Qrint_eq. rewrite E.
  change (60#1) with (inject_Z 60). rewrite <- inject_Z_mult. unfold Qminus. rewrite <- inject_Z_opp, <- inject_Z_plus.
  apply inject_Z_injective. pose proof (Z.div_mod m 60 ltac:(lia)). lia.
Qed.
