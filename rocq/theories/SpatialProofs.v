(** * Proofs about the spatial helpers *)
From Coq Require Import List ZArith QArith Qround Qabs Qminmax Bool Arith Lia Lqa Setoid Morphisms Permutation Sorted.
From Verif Require Import Np NpFacts LinAlg LinFacts UtilsModel SpecUtils UtilsProofs SpatialModel SpecBasis SpecSpatial
  BasisProofs NeighborCellProofs.
Import ListNotations.

(** ** interweave *)

Section Interweave.
  Context {A : Type}.
  Implicit Types arr res : list A.

  Lemma slots_from pos i n size :
    length (filter (fun p => p mod n =? i) (seq pos (S size))) =
    ((if pos mod n =? i then 1 else 0) + length (filter (fun p => p mod n =? i) (seq (S pos) size)))%nat.
  Proof. simpl. destruct (pos mod n =? i); reflexivity. Qed.

  Lemma assign_stride_length pos i n arr res : length (assign_stride pos i n arr res) = length res.
  Proof.
    revert pos arr. induction res as [|x res IH]; intros pos arr; simpl; auto.
    destruct (pos mod n =? i); [destruct arr; simpl; auto|simpl; auto].
  Qed.

  Lemma assign_stride_nth pos i n arr res k :
    (i < n)%nat -> (k < length res)%nat ->
    length arr = length (filter (fun p => p mod n =? i) (seq pos (length res))) ->
    nth_error (assign_stride pos i n arr res) k =
    if ((pos + k) mod n =? i)%nat
    then nth_error arr (length (filter (fun p => p mod n =? i) (seq pos k)))
    else nth_error res k.
  Proof.
    intro Hi. revert pos arr k. induction res as [|x res IH]; intros pos arr k Hk Hl; [simpl in Hk; lia|].
    change (length (x :: res)) with (S (length res)) in Hl. rewrite slots_from in Hl. simpl assign_stride.
    destruct (pos mod n =? i)%nat eqn:E.
    - destruct arr as [|a arr]; [simpl in Hl; lia|]. destruct k as [|k].
      + rewrite Nat.add_0_r, E. reflexivity.
      + simpl nth_error at 1. rewrite IH; [|simpl in Hk; lia|simpl in Hl; lia].
        replace (S pos + k)%nat with (pos + S k)%nat by lia.
        destruct ((pos + S k) mod n =? i)%nat; auto.
        rewrite slots_from, E. reflexivity.
    - destruct k as [|k].
      + rewrite Nat.add_0_r, E. reflexivity.
      + simpl nth_error at 1. rewrite IH; [|simpl in Hk; lia|simpl in Hl; lia].
        replace (S pos + k)%nat with (pos + S k)%nat by lia.
        destruct ((pos + S k) mod n =? i)%nat; auto.
        rewrite slots_from, E. reflexivity.
  Qed.

  Lemma seq_app_filter (f : nat -> bool) k n pos :
    filter f (seq pos (k + n)) = filter f (seq pos k) ++ filter f (seq (pos + k) n).
  Proof. rewrite seq_app, filter_app. reflexivity. Qed.

  (** In a full period each residue occurs once. *)
  Lemma slots_period i n : (i < n)%nat -> forall q, slots (q * n) i n = q.
  Proof.
    intros Hi. unfold slots.
    assert (forall a m, (m <= n)%nat -> length (filter (fun p => p mod n =? i) (seq (a * n) m)) =
              if (i <? m)%nat then 1%nat else 0%nat) as H.
    { intro a. induction m as [|m IH]; intro Hm; [reflexivity|].
      rewrite seq_S, filter_app, app_length, IH by lia. simpl.
      replace ((a * n + m) mod n)%nat with m.
      - destruct (Nat.eqb_spec m i); destruct (Nat.ltb_spec i m); destruct (Nat.ltb_spec i (S m)); simpl; lia.
      - symmetry. rewrite Nat.add_comm, Nat.mod_add by lia. apply Nat.mod_small. lia. }
    induction q as [|q IH]; [reflexivity|].
    replace (S q * n)%nat with (q * n + n)%nat by lia.
    rewrite seq_app_filter, app_length, IH. cbn [Nat.add]. rewrite H by lia.
    apply Nat.ltb_lt in Hi. rewrite Hi. lia.
  Qed.

  Lemma filter_false_all (f : nat -> bool) l : (forall p, In p l -> f p = false) -> filter f l = [].
  Proof.
    induction l as [|x l IH]; simpl; auto. intro H. rewrite (H x) by auto. apply IH. auto.
  Qed.

  Lemma slots_prefix i n k : (i < n)%nat -> (k mod n = i)%nat -> slots k i n = (k / n)%nat.
  Proof.
    intros Hi Hk. rewrite (Nat.div_mod k n) at 1 by lia. unfold slots.
    rewrite (Nat.mul_comm n), seq_app_filter, app_length.
    change (length (filter (fun p => p mod n =? i) (seq 0 (k / n * n)))) with (slots (k / n * n) i n).
    rewrite slots_period by assumption.
    replace (length _) with 0%nat; [lia|]. symmetry.
    rewrite Hk.
    replace (filter (fun p => p mod n =? i) (seq (0 + k / n * n) i)) with (@nil nat); auto.
    symmetry. apply filter_false_all.
    intros p Hp. apply in_seq in Hp. apply Nat.eqb_neq. intro E.
    assert (p = k / n * n + (p - k / n * n))%nat as Ep by lia. rewrite Ep in E.
    rewrite Nat.add_comm, Nat.mod_add in E by lia. rewrite Nat.mod_small in E; lia.
  Qed.

  Lemma assign_slice_stride_spec i n arr res res' :
    (i < n)%nat -> assign_slice_stride i n arr res = Some res' ->
    length res' = length res /\
    forall k, (k < length res)%nat ->
      nth_error res' k =
      if (k mod n =? i)%nat then nth_error arr (if (length arr =? 1)%nat then 0 else k / n)
      else nth_error res k.
  Proof.
    intros Hi H. unfold assign_slice_stride in H.
    assert (forall arr', length arr' = slots (length res) i n ->
      res' = assign_stride 0 i n arr' res -> length res' = length res /\
      forall k, (k < length res)%nat -> nth_error res' k =
        if (k mod n =? i)%nat then nth_error arr' (k / n) else nth_error res k) as K.
    { intros arr' Hl ->. split; [apply assign_stride_length|]. intros k Hk.
      rewrite assign_stride_nth; auto. simpl Nat.add.
      destruct (k mod n =? i)%nat eqn:E; auto. apply Nat.eqb_eq in E. f_equal.
      apply slots_prefix; assumption. }
    destruct arr as [|a [|a' arr]].
    - change (length (@nil A)) with 0%nat in H. destruct (0 =? slots (length res) i n)%nat eqn:E; [|discriminate].
      apply Nat.eqb_eq in E. injection H as <-. apply (K []); auto.
    - injection H as <-. destruct (K (repeat a (slots (length res) i n))) as [K1 K2]; auto.
      { apply repeat_length. }
      split; auto. intros k Hk. rewrite K2 by assumption. simpl.
      destruct (k mod n =? i)%nat eqn:E; auto. apply Nat.eqb_eq in E.
      assert (k / n < slots (length res) i n)%nat as Hlt.
      { rewrite <- (slots_prefix i n k Hi E). unfold slots.
        replace (length res) with (k + (1 + (length res - k - 1)))%nat by lia.
        rewrite !seq_app_filter, !app_length. simpl. rewrite E, Nat.eqb_refl. simpl. lia. }
      rewrite (nth_error_nth' _ a) by (rewrite repeat_length; assumption).
      rewrite nth_repeat. reflexivity.
    - destruct (length (a :: a' :: arr) =? slots (length res) i n)%nat eqn:E; [|discriminate].
      apply Nat.eqb_eq in E. injection H as <-. simpl (length (a :: a' :: arr) =? 1)%nat. apply K; auto.
  Qed.

  Lemma interweave_loop_spec n arrays : forall i res res',
    (i + length arrays <= n)%nat -> interweave_loop n i arrays res = Some res' ->
    length res' = length res /\
    forall k, (k < length res)%nat ->
      nth_error res' k =
      match nth_error arrays (k mod n - i) with
      | Some arr => if (i <=? k mod n)%nat then nth_error arr (if (length arr =? 1)%nat then 0 else k / n)
                    else nth_error res k
      | None => nth_error res k
      end.
  Proof.
    induction arrays as [|arr arrays IH]; intros i res res' Hn H.
    - simpl in H. injection H as <-. split; auto. intros k Hk. destruct (k mod n - i)%nat; reflexivity.
    - cbn [interweave_loop] in H. destruct (assign_slice_stride i n arr res) as [r|] eqn:E; [|discriminate].
      simpl in Hn. destruct (assign_slice_stride_spec i n arr res r ltac:(lia) E) as [L1 N1].
      destruct (IH (S i) r res' ltac:(lia) H) as [L2 N2]. split; [congruence|].
      intros k Hk. rewrite N2 by lia. rewrite N1 by assumption.
      destruct (lt_eq_lt_dec (k mod n) i) as [[Hlt|Heq]|Hgt].
      + replace (k mod n - S i)%nat with 0%nat by lia. replace (k mod n - i)%nat with 0%nat by lia. cbn [nth_error].
        replace (i <=? k mod n)%nat with false by (symmetry; apply Nat.leb_gt; lia).
        replace (S i <=? k mod n)%nat with false by (symmetry; apply Nat.leb_gt; lia).
        replace (k mod n =? i)%nat with false by (symmetry; apply Nat.eqb_neq; lia).
        destruct arrays; reflexivity.
      + rewrite Heq. replace (i - S i)%nat with 0%nat by lia. rewrite Nat.sub_diag, Nat.eqb_refl, Nat.leb_refl. cbn [nth_error].
        replace (S i <=? i)%nat with false by (symmetry; apply Nat.leb_gt; lia).
        destruct arrays; reflexivity.
      + replace (k mod n - i)%nat with (S (k mod n - S i)) by lia. simpl nth_error.
        replace (k mod n =? i)%nat with false by (symmetry; apply Nat.eqb_neq; lia).
        replace (i <=? k mod n)%nat with true by (symmetry; apply Nat.leb_le; lia).
        replace (S i <=? k mod n)%nat with true by (symmetry; apply Nat.leb_le; lia). reflexivity.
  Qed.

  Lemma interweave_loop_defined n m arrays : forall i res,
    (i + length arrays <= n)%nat -> length res = (m * n)%nat ->
    (forall arr, In arr arrays -> length arr = m) -> interweave_loop n i arrays res <> None.
  Proof.
    induction arrays as [|arr arrays IH]; intros i res Hn Hl Ha; cbn [interweave_loop]; [discriminate|].
    simpl in Hn.
    destruct (assign_slice_stride i n arr res) as [r|] eqn:E.
    - apply IH; [lia| |intros; apply Ha; simpl; auto].
      destruct (assign_slice_stride_spec i n arr res r ltac:(lia) E). congruence.
    - exfalso. unfold assign_slice_stride in E. rewrite Hl, slots_period in E by lia.
      assert (length arr = m) as La by (apply Ha; simpl; auto).
      apply Nat.eqb_eq in La. rewrite La in E. destruct arr as [|? [|? ?]]; discriminate.
  Qed.
End Interweave.

(** ** vindices *)

Open Scope Z_scope.

Lemma np_max_is_max l m : np_max l = Some m -> In m l /\ forall x, In x l -> x <= m.
Proof.
  revert m. induction l as [|x l IH]; intros m H; simpl in H; [discriminate|].
  destruct (np_max l) as [m'|] eqn:E.
  - injection H as <-. destruct (IH m' eq_refl) as [H1 H2]. split.
    + destruct (Z.max_spec x m') as [[_ ->]|[_ ->]]; simpl; auto.
    + intros y [<-|Hy]; [lia|]. specialize (H2 y Hy). lia.
  - injection H as <-. destruct l as [|y l]; [|simpl in E; destruct (np_max l); discriminate].
    split; simpl; auto. intros y [<-|[]]. lia.
Qed.

Lemma min_dtype_width bounds w :
  bounds <> [] -> width_of bounds w ->
  exists t, min_dtype bounds true = Some t /\ dt_signed t = true /\ dt_bits t = w.
Proof.
  intros Hne [Hw [Hfit Hmin]]. unfold min_dtype.
  destruct (np_max (map Z.abs bounds)) as [m|] eqn:E.
  2:{ destruct bounds as [|b bounds]; [congruence|]. simpl in E. destruct (np_max _); discriminate. }
  apply np_max_is_max in E. destruct E as [Hin Hle].
  apply in_map_iff in Hin. destruct Hin as [b [Hb Hbin]].
  assert (forall w', machine_width w' -> (forall x, In x bounds -> fits_signed w' x /\ fits_signed w' (- x))
            <-> m <= 2 ^ (w' - 1) - 1) as Hiff.
  { intros w' Hw'. split.
    - intro H. destruct (H b Hbin) as [H1 H2]. unfold fits_signed in *. lia.
    - intros H x Hx. specialize (Hle (Z.abs x) (in_map _ _ _ Hx)).
      unfold fits_signed. lia. }
  assert (m <= 2 ^ (w - 1) - 1) as Hmw by (apply Hiff; auto).
  assert (0 <= m) by lia.
  exists (min_scalar_type (- m - 1)). split; [reflexivity|].
  unfold min_scalar_type. replace (0 <=? - m - 1) with false by (symmetry; apply Z.leb_gt; lia).
  assert (forall w', machine_width w' -> m <= 2 ^ (w' - 1) - 1 -> w <= w') as Hm.
  { intros w' Hw' H'. apply Hmin; auto. apply Hiff; auto. }
  change (2 ^ 7) with (2 ^ (8 - 1)). change (2 ^ 15) with (2 ^ (16 - 1)).
  change (2 ^ 31) with (2 ^ (32 - 1)). change (2 ^ 63) with (2 ^ (64 - 1)).
  unfold machine_width in *. simpl in Hw.
  assert (2 ^ (8 - 1) < 2 ^ (16 - 1) < 2 ^ (32 - 1)) by (split; reflexivity).
  assert (2 ^ (32 - 1) < 2 ^ (64 - 1)) by reflexivity.
  set (p8 := 2 ^ (8 - 1)) in *. set (p16 := 2 ^ (16 - 1)) in *. set (p32 := 2 ^ (32 - 1)) in *.
  set (p64 := 2 ^ (64 - 1)) in *.
  destruct (Z.leb_spec (- p8) (- m - 1)).
  { split; [reflexivity|]. assert (w <= 8) by (apply Hm; simpl; auto; fold p8; lia). simpl. lia. }
  destruct (Z.leb_spec (- p16) (- m - 1)).
  { split; [reflexivity|]. assert (w <= 16) by (apply Hm; simpl; auto; fold p16; lia). simpl.
    destruct Hw as [<-|[<-|[<-|[<-|[]]]]]; try lia; fold p8 in Hmw; lia. }
  destruct (Z.leb_spec (- p32) (- m - 1)).
  { split; [reflexivity|]. assert (w <= 32) by (apply Hm; simpl; auto; fold p32; lia). simpl.
    destruct Hw as [<-|[<-|[<-|[<-|[]]]]]; try lia; fold p8 p16 in Hmw; lia. }
  destruct (Z.leb_spec (- p64) (- m - 1)).
  { split; [reflexivity|]. simpl.
    destruct Hw as [<-|[<-|[<-|[<-|[]]]]]; try lia; fold p8 p16 p32 in Hmw; lia. }
  exfalso. destruct Hw as [<-|[<-|[<-|[<-|[]]]]]; fold p8 p16 p32 p64 in Hmw; lia.
Qed.

Lemma wrap_signed_id w i : 0 < w -> 0 <= i < 2 ^ (w - 1) -> wrap_signed w i = i.
Proof.
  intros Hw Hi. unfold wrap_signed. assert (2 ^ w = 2 * 2 ^ (w - 1)) as E.
  { rewrite <- Z.pow_succ_r by lia. f_equal. lia. }
  rewrite Z.mod_small; lia.
Qed.

Lemma wrap_signed_range w i : 0 < w -> - 2 ^ (w - 1) <= wrap_signed w i < 2 ^ (w - 1).
Proof.
  intros Hw. unfold wrap_signed. assert (2 ^ w = 2 * 2 ^ (w - 1)) as E.
  { rewrite <- Z.pow_succ_r by lia. f_equal. lia. }
  pose proof (Z.mod_pos_bound (i + 2 ^ (w - 1)) (2 ^ w)). lia.
Qed.

Lemma wrap_signed_top w : 0 < w -> wrap_signed w (2 ^ (w - 1)) = - 2 ^ (w - 1).
Proof.
  intros Hw. unfold wrap_signed. assert (2 ^ w = 2 * 2 ^ (w - 1)) as E.
  { rewrite <- Z.pow_succ_r by lia. f_equal. lia. }
  replace (2 ^ (w - 1) + 2 ^ (w - 1)) with (1 * 2 ^ w) by lia.
  rewrite Z.mod_mul; lia.
Qed.

(** The values of one axis. *)
Definition axis_values (w : Z) (l : Z * Z) : list Z :=
  map (fun i => wrap_signed w i + fst l) (zrange 0 (snd l - fst l)).

Lemma axis_values_fit w l :
  0 < w -> snd l - fst l <= 2 ^ (w - 1) -> axis_values w l = zrange (fst l) (snd l).
Proof.
  intros Hw Hl. unfold axis_values, zrange. rewrite map_map. rewrite Z.sub_0_r.
  apply map_ext_in. intros i Hi. apply in_seq in Hi. rewrite wrap_signed_id; lia.
Qed.

Definition bounds_of (limits : list (Z * Z)) : list Z := flat_map (fun l => [fst l; snd l]) limits.

Lemma vindices_unfold limits axis w :
  limits <> [] -> width_of (bounds_of limits) w ->
  (forall l, In l limits -> fst l <= snd l) ->
  (forall a, axis = Some a -> (a < length limits)%nat) ->
  vindices limits axis =
    Some (match axis with
          | None => product (map (axis_values w) limits)
          | Some a => sort_stable (axis_leb a) (product (map (axis_values w) limits))
          end).
Proof.
  intros Hne Hw Hle Hax. unfold vindices.
  destruct (min_dtype_width (bounds_of limits) w) as [t [Ht [Hs Hb]]]; auto.
  { destruct limits as [|[lo hi] ls]; [congruence|discriminate]. }
  unfold bounds_of in Ht. rewrite Ht.
  assert (existsb (fun l => snd l - fst l <? 0) limits = false) as E.
  { apply not_true_is_false. intro He. apply existsb_exists in He. destruct He as [l [Hl H]].
    apply Z.ltb_lt in H. specialize (Hle l Hl). lia. }
  rewrite E. cbv zeta.
  assert (map (fun l => map (fun i => wrap_dtype t i + fst l) (zrange 0 (snd l - fst l))) limits =
          map (axis_values w) limits) as Em.
  { apply map_ext. intro l. unfold axis_values. apply map_ext. intro i. f_equal.
    unfold wrap_dtype. rewrite Hs, Hb. destruct t; try discriminate; reflexivity. }
  rewrite Em. destruct axis as [a|]; auto.
  rewrite (proj2 (Nat.ltb_lt _ _)) by (apply Hax; reflexivity). reflexivity.
Qed.

Lemma axis_leb_total a u v : axis_leb a u v = true \/ axis_leb a v u = true.
Proof. unfold axis_leb. rewrite !Z.leb_le. lia. Qed.

Lemma axis_leb_trans a u v x :
  axis_leb a u v = true -> axis_leb a v x = true -> axis_leb a u x = true.
Proof. unfold axis_leb. rewrite !Z.leb_le. lia. Qed.

Lemma In_product_values (f : Z * Z -> list Z) limits v :
  In v (product (map f limits)) <-> Forall2 (fun l x => In x (f l)) limits v.
Proof.
  rewrite In_product. split; intro H.
  - remember (map f limits) as ls. revert limits Heqls.
    induction H as [|x l v ls Hx H IH]; intros [|l' limits] E; simpl in E; try discriminate; constructor.
    + injection E as -> _. assumption.
    + injection E as _ E. apply IH. assumption.
  - induction H; simpl; constructor; auto.
Qed.

Close Scope Z_scope.

(** ** cell_size *)

Open Scope Q_scope.

Lemma qmax_list_is_max x l : is_max (x :: l) (qmax_list x l).
Proof.
  unfold qmax_list. revert x. induction l as [|y l IH]; intro x; simpl.
  - split; [exists x; split; [left; reflexivity|reflexivity]|]. intros z [<-|[]]. lra.
  - destruct (IH (Qmax x y)) as [[z [Hz Ez]] H]. split.
    + destruct Hz as [Hz|Hz].
      * destruct (Q.max_spec x y) as [[_ E]|[_ E]].
        -- exists y. split; [right; left; reflexivity|]. rewrite <- Ez, <- Hz. symmetry. assumption.
        -- exists x. split; [left; reflexivity|]. rewrite <- Ez, <- Hz. symmetry. assumption.
      * exists z. simpl. auto.
    + pose proof (H (Qmax x y) (or_introl eq_refl)) as H0.
      pose proof (Q.le_max_l x y). pose proof (Q.le_max_r x y).
      intros z' [<-|[<-|Hz']]; [lra|lra|]. apply H. right. assumption.
Qed.

Lemma qmin_list_is_min x l : is_min (x :: l) (qmin_list x l).
Proof.
  unfold qmin_list. revert x. induction l as [|y l IH]; intro x; simpl.
  - split; [exists x; split; [left; reflexivity|reflexivity]|]. intros z [<-|[]]. lra.
  - destruct (IH (Qmin x y)) as [[z [Hz Ez]] H]. split.
    + destruct Hz as [Hz|Hz].
      * destruct (Q.min_spec x y) as [[_ E]|[_ E]].
        -- exists x. split; [left; reflexivity|]. rewrite <- Ez, <- Hz. symmetry. assumption.
        -- exists y. split; [right; left; reflexivity|]. rewrite <- Ez, <- Hz. symmetry. assumption.
      * exists z. simpl. auto.
    + pose proof (H (Qmin x y) (or_introl eq_refl)) as H0.
      pose proof (Q.le_min_l x y). pose proof (Q.le_min_r x y).
      intros z' [<-|[<-|Hz']]; [lra|lra|]. apply H. right. assumption.
Qed.

Definition column (vectors : list (list Q)) (j : nat) : list Q := map (fun v => nth j v 0) vectors.

Lemma cell_size_entry v0 rest j :
  (j < length v0)%nat ->
  exists mx mn, is_max (column (v0 :: rest) j) mx /\ is_min (column (v0 :: rest) j) mn /\
    nth j (cell_size (v0 :: rest)) 0 = mx - (if Qle_bool mn 0 then mn else 0).
Proof.
  intro Hj. unfold cell_size. rewrite nth_map_seq by assumption.
  exists (qmax_list (nth j v0 0) (column rest j)), (qmin_list (nth j v0 0) (column rest j)).
  split; [apply qmax_list_is_max|]. split; [apply qmin_list_is_min|]. reflexivity.
Qed.


Lemma abs_sum_nonneg l : 0 <= abs_sum l.
Proof. induction l as [|x l IH]; cbn [abs_sum]; [lra|]. pose proof (Qabs_nonneg x). lra. Qed.

Lemma abs_sum_in l x : In x l -> Qabs x <= abs_sum l.
Proof.
  induction l as [|y l IH]; [intros []|]. intros [<-|H]; cbn [abs_sum].
  - pose proof (abs_sum_nonneg l). lra.
  - specialize (IH H). pose proof (Qabs_nonneg y). lra.
Qed.

Lemma abs_sum_two l x y : In x l -> In y l -> 0 <= x -> y <= 0 -> x - y <= abs_sum l.
Proof.
  induction l as [|z l IH]; [intros []|]. intros Hx Hy H0 H1. cbn [abs_sum].
  pose proof (abs_sum_nonneg l) as Hn. pose proof (Qle_Qabs z) as Hz.
  pose proof (Qle_Qabs (- z)) as Hz'. rewrite Qabs_opp in Hz'.
  destruct Hx as [Hx|Hx], Hy as [Hy|Hy].
  - subst x. subst y. assert (z == 0) by lra. lra.
  - subst z. pose proof (abs_sum_in l y Hy) as H. pose proof (Qle_Qabs (- y)) as H'.
    rewrite Qabs_opp in H'. lra.
  - subst z. pose proof (abs_sum_in l x Hx) as H. pose proof (Qle_Qabs x). lra.
  - specialize (IH Hx Hy H0 H1). lra.
Qed.
