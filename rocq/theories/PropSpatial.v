(** * Properties C16, C17, C19 and C22 (lattpy/spatial.py) *)
From Coq Require Import List ZArith QArith Qround Qabs Bool Arith Lia Lqa Sorted Permutation.
From Verif Require Import Np NpFacts LinAlg LinFacts UtilsModel SpatialModel SpecUtils SpecBasis SpecSpatial
  BasisProofs NeighborCellProofs SpatialProofs KDProofs.
Import ListNotations.

(** ** C16 *)

Lemma product_values_exact w limits :
  (0 < w)%Z -> (forall l, In l limits -> (snd l - fst l <= 2 ^ (w - 1))%Z) ->
  NoDup (product (map (axis_values w) limits)) /\
  forall v, In v (product (map (axis_values w) limits)) <-> in_limits limits v.
Proof.
  intros Hw Hl. split.
  - apply NoDup_product. apply Forall_forall. intros vs Hvs. apply in_map_iff in Hvs.
    destruct Hvs as [l [<- Hin]]. rewrite axis_values_fit by auto. apply NoDup_zrange.
  - intro v. rewrite In_product_values. unfold in_limits. revert v. induction limits as [|l ls IH]; intro v.
    + split; intro H; inversion H; constructor.
    + split; intro H; inversion H; subst; constructor.
      * rewrite axis_values_fit in * by (simpl in *; auto). apply In_zrange. assumption.
      * apply IH; auto. intros; apply Hl; simpl; auto.
      * rewrite axis_values_fit by (simpl in *; auto). apply In_zrange. assumption.
      * apply IH; auto. intros; apply Hl; simpl; auto.
Qed.

Definition lex_sorted (axis : nat) (vs : list (list Z)) : Prop :=
  StronglySorted (fun u v => (nth axis u 0 <= nth axis v 0)%Z) vs.

Theorem C16_vindices_enumerates_the_grid :
  forall limits axis w,
    limits <> [] -> (forall l, In l limits -> (fst l <= snd l)%Z) ->
    (forall a, axis = Some a -> (a < length limits)%nat) ->
    width_of (flat_map (fun l => [fst l; snd l]) limits) w ->
    (forall l, In l limits -> (snd l - fst l <= 2 ^ (w - 1))%Z) ->
    exists vs, vindices limits axis = Some vs /\
      NoDup vs /\ (forall v, In v vs <-> in_limits limits v) /\
      (forall a, axis = Some a -> lex_sorted a vs).
Proof.
  intros limits axis w Hne Hle Hax Hw Hext.
  assert (0 < w)%Z as Hw0.
  { destruct Hw as [Hm _]. unfold machine_width in Hm. simpl in Hm. lia. }
  destruct (product_values_exact w limits Hw0 Hext) as [Hnd Hin].
  rewrite (vindices_unfold limits axis w) by assumption.
  eexists. split; [reflexivity|]. destruct axis as [a|].
  - split; [|split].
    + eapply Permutation_NoDup; [symmetry; apply sort_stable_perm|assumption].
    + intro v. rewrite In_sort_stable. apply Hin.
    + intros a' E. injection E as <-.
      pose proof (sort_stable_sorted (axis_leb a) (axis_leb_total a) (axis_leb_trans a)
        (product (map (axis_values w) limits))) as H.
      unfold lex_sorted. induction H as [|u l H IH Hf]; constructor; auto.
      eapply Forall_impl; [|exact Hf]. intros v Hv. apply Z.leb_le. exact Hv.
  - split; [assumption|]. split; [assumption|]. discriminate.
Qed.

(** Limits that do not change sign always fit. *)
Corollary C16_one_sided_limits_fit :
  forall limits axis w,
    limits <> [] -> (forall l, In l limits -> (fst l <= snd l)%Z) ->
    (forall a, axis = Some a -> (a < length limits)%nat) ->
    width_of (flat_map (fun l => [fst l; snd l]) limits) w ->
    (forall l, In l limits -> (0 <= fst l)%Z \/ (snd l <= 0)%Z) ->
    exists vs, vindices limits axis = Some vs /\
      NoDup vs /\ (forall v, In v vs <-> in_limits limits v) /\
      (forall a, axis = Some a -> lex_sorted a vs).
Proof.
  intros limits axis w Hne Hle Hax Hw Hs. apply (C16_vindices_enumerates_the_grid limits axis w); auto.
  intros l Hl. destruct Hw as [_ [Hf _]].
  assert (forall x, x = fst l \/ x = snd l -> fits_signed w x /\ fits_signed w (- x)) as Hb.
  { intros x Hx. apply Hf. apply in_flat_map. exists l. split; auto. simpl. intuition auto. }
  destruct (Hb (fst l)) as [H1 H2]; auto. destruct (Hb (snd l)) as [H3 H4]; auto.
  unfold fits_signed in *. specialize (Hs l Hl). lia.
Qed.

(** As soon as one extent does not fit, a vector of the box is missing and one outside of it is returned. *)
Theorem C16_wide_limits_wrap :
  forall limits axis w k l,
    (forall l, In l limits -> (fst l < snd l)%Z) ->
    (forall a, axis = Some a -> (a < length limits)%nat) ->
    width_of (flat_map (fun l => [fst l; snd l]) limits) w ->
    nth_error limits k = Some l -> (2 ^ (w - 1) < snd l - fst l)%Z ->
    exists vs v v', vindices limits axis = Some vs /\
      in_limits limits v /\ ~ In v vs /\ ~ in_limits limits v' /\ In v' vs.
Proof.
  intros limits axis w k l Hle Hax Hw Hk Hext.
  assert (0 < w)%Z as Hw0.
  { destruct Hw as [Hm _]. unfold machine_width in Hm. simpl in Hm. lia. }
  assert (limits <> []) as Hne by (intros ->; destruct k; discriminate).
  rewrite (vindices_unfold limits axis w); auto.
  2:{ intros l' Hl'. specialize (Hle l' Hl'). lia. }
  set (grid := product (map (axis_values w) limits)).
  set (vs := match axis with None => grid | Some a => sort_stable (axis_leb a) grid end).
  assert (forall v, In v vs <-> In v grid) as Hvs.
  { intro v. unfold vs. destruct axis; [apply In_sort_stable|reflexivity]. }
  pose proof (Z.pow_pos_nonneg 2 (w - 1) ltac:(lia) ltac:(lia)) as Hp.
  set (at_k := fun x : Z => set_nth k x (map fst limits)).
  assert (forall x, In (at_k x) grid <-> In x (axis_values w l)) as Hgrid.
  { intro x. unfold grid, at_k. rewrite In_product_values. clear vs Hvs grid at_k Hw Hax Hne.
    revert k Hk. induction limits as [|l0 ls IH]; intros [|k] Hk; simpl in Hk; try discriminate.
    - injection Hk as ->. simpl. split; intro H.
      + inversion H; subst. assumption.
      + constructor; auto. assert (forall l', In l' ls -> (fst l' < snd l')%Z) as Hls by (intros; apply Hle; simpl; auto).
        clear - Hls Hw0. induction ls as [|l0 ls IH]; simpl; constructor.
        * specialize (Hls l0 (or_introl eq_refl)). unfold axis_values. apply in_map_iff. exists 0%Z.
          split; [rewrite wrap_signed_id; lia|]. apply In_zrange. lia.
        * apply IH. intros; apply Hls; simpl; auto.
    - simpl. split; intro H.
      + inversion H; subst. apply IH in H5; auto. intros; apply Hle; simpl; auto.
      + constructor; [|apply IH; auto; intros; apply Hle; simpl; auto].
        specialize (Hle l0 (or_introl eq_refl)). unfold axis_values. apply in_map_iff. exists 0%Z.
        split; [rewrite wrap_signed_id; lia|]. apply In_zrange. lia. }
  assert (forall x, in_limits limits (at_k x) <-> (fst l <= x < snd l)%Z) as Hlim.
  { intro x. unfold in_limits, at_k. clear vs Hvs grid Hgrid at_k Hw Hax Hne.
    revert k Hk. induction limits as [|l0 ls IH]; intros [|k] Hk; simpl in Hk; try discriminate.
    - injection Hk as ->. simpl. split; intro H.
      + inversion H; subst. assumption.
      + constructor; auto. assert (forall l', In l' ls -> (fst l' < snd l')%Z) as Hls by (intros; apply Hle; simpl; auto).
        clear - Hls. induction ls as [|l0 ls IH]; simpl; constructor.
        * specialize (Hls l0 (or_introl eq_refl)). lia.
        * apply IH. intros; apply Hls; simpl; auto.
    - simpl. split; intro H.
      + inversion H; subst. apply IH in H5; auto. intros; apply Hle; simpl; auto.
      + constructor; [|apply IH; auto; intros; apply Hle; simpl; auto].
        specialize (Hle l0 (or_introl eq_refl)). lia. }
  exists vs, (at_k (fst l + 2 ^ (w - 1))%Z), (at_k (fst l - 2 ^ (w - 1))%Z).
  split; [reflexivity|]. rewrite !Hvs, !Hgrid, !Hlim. split; [lia|]. split; [|split; [lia|]].
  - intro H. unfold axis_values in H. apply in_map_iff in H. destruct H as [i [Hi _]].
    pose proof (wrap_signed_range w i Hw0). lia.
  - unfold axis_values. apply in_map_iff. exists (2 ^ (w - 1))%Z. split.
    + rewrite wrap_signed_top by assumption. lia.
    + apply In_zrange. lia.
Qed.

(** No result for an empty limit list or a negative extent. *)
Theorem C16_bad_limits_raise :
  forall limits axis, limits = [] \/ (exists l, In l limits /\ (snd l < fst l)%Z) -> vindices limits axis = None.
Proof.
  intros limits axis [->|[l [Hl Hlt]]]; [reflexivity|]. unfold vindices.
  destruct (min_dtype _ true); auto.
  replace (existsb (fun l0 => (snd l0 - fst l0 <? 0)%Z) limits) with true; auto.
  symmetry. apply existsb_exists. exists l. split; auto. apply Z.ltb_lt. lia.
Qed.

(** No result for a sort axis that does not exist. *)
Theorem C16_bad_axis_raises :
  forall limits a, (length limits <= a)%nat -> vindices limits (Some a) = None.
Proof.
  intros limits a Ha. unfold vindices. destruct (min_dtype _ true); auto. destruct (existsb _ limits); auto. cbv zeta.
  destruct (Nat.ltb_spec a (length limits)); auto. lia.
Qed.

Example C16_bad_axis_example :
  (length [(-1, 2); (0, 2)]%Z <= 2)%nat /\ vindices [(-1, 2); (0, 2)]%Z (Some 2%nat) = None /\ vindices [(-1, 2); (0, 2)]%Z (Some 1%nat) <> None.
Proof. split; [cbn; lia|]. split; [reflexivity|]. discriminate. Qed.

Lemma width8 bounds : (forall x, In x bounds -> (-127 <= x <= 127)%Z) -> width_of bounds 8.
Proof.
  intro H. split; [left; reflexivity|]. split.
  - intros x Hx. specialize (H x Hx). unfold fits_signed. simpl. lia.
  - intros w Hw _. unfold machine_width in Hw. simpl in Hw. lia.
Qed.

Example C16_example :
  width_of (flat_map (fun l => [fst l; snd l]) [(-1, 2); (0, 2)]%Z) 8 /\
  vindices [(-1, 2); (0, 2)]%Z (Some 1%nat) = Some [[-1; 0]; [0; 0]; [1; 0]; [-1; 1]; [0; 1]; [1; 1]]%Z.
Proof.
  split; [|reflexivity]. apply width8. simpl. intuition lia.
Qed.

Example C16_wrap_example :
  width_of (flat_map (fun l => [fst l; snd l]) [(-100, 100)]%Z) 8 /\ (2 ^ (8 - 1) < 100 - -100)%Z /\
  option_map (fun vs => (existsb (fun v => Z.eqb (nth 0 v 0%Z) 28) vs,
                         existsb (fun v => Z.eqb (nth 0 v 0%Z) (-228)) vs)) (vindices [(-100, 100)]%Z None)
  = Some (false, true).
Proof.
  split; [|split; reflexivity]. apply width8. simpl. intuition lia.
Qed.

(** ** C17 *)

Theorem C17_interweave_alternates :
  forall (A : Type) (arrays : list (list A)) (init res : list A),
    interweave arrays init = Some res ->
    length res = length init /\
    forall k, (k < length init)%nat ->
      exists arr, nth_error arrays (k mod length arrays) = Some arr /\
        nth_error res k = nth_error arr (if (length arr =? 1)%nat then 0 else k / length arrays)%nat.
Proof.
  intros A arrays init res H. unfold interweave in H. destruct arrays as [|a0 arrays0] eqn:E; [discriminate|].
  rewrite <- E in H |- *. destruct (interweave_loop_spec (length arrays) arrays 0 init res) as [H1 H2]; auto.
  split; auto. intros k Hk. specialize (H2 k Hk). rewrite Nat.sub_0_r in H2.
  assert (k mod length arrays < length arrays)%nat as Hm by (apply Nat.mod_upper_bound; subst; discriminate).
  destruct (nth_error_lt arrays _ Hm) as [arr Ha]. exists arr. split; auto. rewrite Ha in H2. exact H2.
Qed.

Theorem C17_interweave_equal_lengths :
  forall (A : Type) (arrays : list (list A)) (init : list A) m,
    arrays <> [] -> (forall arr, In arr arrays -> length arr = m) ->
    length init = (m * length arrays)%nat ->
    exists res, interweave arrays init = Some res /\ length res = (m * length arrays)%nat /\
      forall i k arr, nth_error arrays i = Some arr -> (k < m)%nat ->
        nth_error res (k * length arrays + i) = nth_error arr k.
Proof.
  intros A arrays init m Hne Hm Hl.
  destruct (interweave arrays init) as [res|] eqn:E.
  - exists res. split; auto. destruct (C17_interweave_alternates A arrays init res E) as [H1 H2].
    split; [lia|]. intros i k arr Hi Hk. pose proof (nth_error_length_lt _ _ _ Hi) as Hlt.
    destruct (H2 (k * length arrays + i)%nat) as [arr' [Ha He]]; [nia|].
    rewrite Nat.add_comm, Nat.mod_add, Nat.mod_small in Ha by lia.
    rewrite Hi in Ha. injection Ha as <-. rewrite He. f_equal.
    assert (length arr = m) as Hlen by (apply Hm; apply nth_error_In in Hi; assumption).
    rewrite Nat.add_comm, Nat.div_add, Nat.div_small by lia.
    destruct (Nat.eqb_spec (length arr) 1); lia.
  - exfalso. unfold interweave in E. destruct arrays as [|a0 arrays0] eqn:Ea; [congruence|].
    rewrite <- Ea in E, Hl, Hm. eapply interweave_loop_defined in E; eauto.
Qed.

Example C17_example :
  interweave [[1; 2; 3]; [10; 20; 30]]%nat (repeat 0 6)%nat = Some [1; 10; 2; 20; 3; 30]%nat /\
  interweave [[1; 2]; [10; 20; 30]]%nat (repeat 0 6)%nat = None.
Proof. split; reflexivity. Qed.

(** ** C19 *)

(** Query of all points of the tree: [raw] is the answer of scipy.  In the result row [i] lists points other than
    [i], padded to the common length [M]; every column holds at least one point.  If a nearer point is missing,
    the row holds [k - 1] points already. *)
Theorem C19_self_query :
  forall d P k r2 raw,
    distinct_points d P -> (2 <= k)%nat ->
    match r2 with Some r => (0 < r)%Q | None => True end ->
    nearest_rows P P k r2 raw ->
    let out := kd_query (length P) r2 false true raw in
    length out = length P /\
    exists M, (M <= k - 1)%nat /\
      (forall i x row, nth_error P i = Some x -> nth_error out i = Some row ->
         nearest_row (fun j => j <> i) P x M (k - 1) r2 row) /\
      (forall c, (c < M)%nat -> exists i row j q,
         nth_error out i = Some row /\ nth_error row c = Some (j, Some q)).
Proof. intros. eapply self_query_rows; eassumption. Qed.

(** What this means for one entry: a point is listed exactly when it is another point near enough, unless the
    row is full. *)
Corollary C19_neighbours_are_the_points_in_range :
  forall d P k r raw i x row,
    distinct_points d P -> (2 <= k)%nat -> (0 < r)%Q -> nearest_rows P P k (Some r) raw ->
    nth_error P i = Some x -> nth_error (kd_query (length P) (Some r) false true raw) i = Some row ->
    (forall c j q, nth_error row c = Some (j, Some q) ->
       j <> i /\ exists p, nth_error P j = Some p /\ (q == sqdist x p)%Q /\ (q <= r)%Q) /\
    ((exists c, nth_error row c = Some (length P, None)) \/ (length row < k - 1)%nat ->
     forall j p, j <> i -> nth_error P j = Some p -> (sqdist x p < r)%Q ->
       exists c q, nth_error row c = Some (j, Some q)).
Proof.
  intros d P k r raw i x row Hd Hk Hr Hraw Hx Hrow.
  destruct (C19_self_query d P k (Some r) raw Hd Hk Hr Hraw) as [_ [M [HM [Hn _]]]].
  specialize (Hn i x row Hx Hrow). destruct Hn as [Hl [m [Hm [H1 [H2 [H3 [H4 H5]]]]]]]. split.
  - intros c j q E. destruct (Nat.lt_ge_cases c m) as [Hc|Hc].
    + destruct (H1 c j (Some q) Hc E) as [Hj [p [q' [Hp [Eq [Hq Hle]]]]]]. injection Eq as <-.
      split; auto. exists p. auto.
    + pose proof (nth_error_length_lt _ _ _ E). rewrite H2 in E by lia. discriminate.
  - intros Hnf j p Hj Hp Hlt. destruct (H5 j p Hj Hp Hlt) as [[c [dd [Hc E]]]|[Hmk _]].
    + destruct (H1 c j dd Hc E) as [_ [p' [q [_ [-> _]]]]]. exists c, q. assumption.
    + exfalso. destruct Hnf as [[c E]|Hnf]; [|lia]. pose proof (nth_error_length_lt _ _ _ E).
      destruct (H1 c (length P) None ltac:(lia) E) as [_ [p' [q [_ [Eq _]]]]]. discriminate.
Qed.

(** Three points of a chain, bound 3/2 (squared 9/4), k = 3. *)
Definition kd_points : list (list Q) := [[0]; [1]; [3]].
Definition kd_raw : list (list (nat * option Q)) :=
  [[(0%nat, Some 0); (1%nat, Some 1); (3%nat, None)];
   [(1%nat, Some 0); (0%nat, Some 1); (3%nat, None)];
   [(2%nat, Some 0); (3%nat, None); (3%nat, None)]].

Lemma nearest_row_intro keep P x len k r2 row m :
  length row = len -> (m <= len)%nat ->
  (forall c j d, (c < m)%nat -> nth_error row c = Some (j, d) ->
       keep j /\
       exists p q, nth_error P j = Some p /\ d = Some q /\ (q == sqdist x p)%Q /\
                   match r2 with Some r => (q <= r)%Q | None => True end) ->
  (forall c, (m <= c < len)%nat -> nth_error row c = Some (length P, None)) ->
  (forall c c' j d d', (c < m)%nat -> (c' < m)%nat ->
       nth_error row c = Some (j, d) -> nth_error row c' = Some (j, d') -> c = c') ->
  (forall c c' j j' d d', (c < c' < m)%nat ->
       nth_error row c = Some (j, Some d) -> nth_error row c' = Some (j', Some d') -> (d <= d')%Q) ->
  (forall j p, keep j -> nth_error P j = Some p ->
       match r2 with Some r => (sqdist x p < r)%Q | None => True end ->
       (exists c d, (c < m)%nat /\ nth_error row c = Some (j, d)) \/
       (m = k%nat /\ forall c j' d, nth_error row c = Some (j', Some d) -> (d <= sqdist x p)%Q)) ->
  nearest_row keep P x len k r2 row.
Proof. intros. split; auto. exists m. tauto. Qed.

Lemma kd_distinct : distinct_points 1 kd_points.
Proof.
  split; [intros p [<-|[<-|[<-|[]]]]; reflexivity|].
  intros i j p q Hi Hj E. specialize (E 0%nat).
  destruct i as [|[|[|i]]], j as [|[|[|j]]]; simpl in Hi, Hj; try reflexivity; try (destruct i; discriminate);
    try (destruct j; discriminate); injection Hi as <-; injection Hj as <-; simpl in E; discriminate E.
Qed.

Ltac small c n := match n with
  | O => exfalso; lia
  | S ?n' => destruct c as [|c]; [|small c n'] end.

Lemma kd_raw_nearest : nearest_rows kd_points kd_points 3 (Some (9#4)) kd_raw.
Proof.
  unfold nearest_rows, kd_points, kd_raw.
  constructor; [|constructor; [|constructor; [|constructor]]].
  - apply nearest_row_intro with (m := 2%nat); [reflexivity|lia| | | | |].
    + intros c j d Hc. small c 2%nat; intro E; injection E as <- <-; split; auto; eexists; eexists;
        (split; [reflexivity|split; [reflexivity|split; [reflexivity|discriminate]]]).
    + intros c Hc. small c 3%nat; try lia; reflexivity.
    + intros c c' j d d' Hc Hc'. small c 2%nat; small c' 2%nat; intros E E'; try reflexivity; exfalso;
        injection E as <- <-; discriminate E'.
    + intros c c' j j' d d' Hc. small c' 2%nat; [lia|]. small c 1%nat. intros E E'. injection E as <- <-.
      injection E' as <- <-. discriminate.
    + intros j p _ Hj. destruct j as [|[|[|j]]]; try (injection Hj as <-); intro Hlt.
      * left. exists 0%nat. eexists. split; [lia|reflexivity].
      * left. exists 1%nat. eexists. split; [lia|reflexivity].
      * vm_compute in Hlt. discriminate.
      * destruct j; discriminate.
  - apply nearest_row_intro with (m := 2%nat); [reflexivity|lia| | | | |].
    + intros c j d Hc. small c 2%nat; intro E; injection E as <- <-; split; auto; eexists; eexists;
        (split; [reflexivity|split; [reflexivity|split; [reflexivity|discriminate]]]).
    + intros c Hc. small c 3%nat; try lia; reflexivity.
    + intros c c' j d d' Hc Hc'. small c 2%nat; small c' 2%nat; intros E E'; try reflexivity; exfalso;
        injection E as <- <-; discriminate E'.
    + intros c c' j j' d d' Hc. small c' 2%nat; [lia|]. small c 1%nat. intros E E'. injection E as <- <-.
      injection E' as <- <-. discriminate.
    + intros j p _ Hj. destruct j as [|[|[|j]]]; try (injection Hj as <-); intro Hlt.
      * left. exists 1%nat. eexists. split; [lia|reflexivity].
      * left. exists 0%nat. eexists. split; [lia|reflexivity].
      * vm_compute in Hlt. discriminate.
      * destruct j; discriminate.
  - apply nearest_row_intro with (m := 1%nat); [reflexivity|lia| | | | |].
    + intros c j d Hc. small c 1%nat; intro E; injection E as <- <-; split; auto; eexists; eexists;
        (split; [reflexivity|split; [reflexivity|split; [reflexivity|discriminate]]]).
    + intros c Hc. small c 3%nat; try lia; reflexivity.
    + intros c c' j d d' Hc Hc'. lia.
    + intros c c' j j' d d' Hc. lia.
    + intros j p _ Hj. destruct j as [|[|[|j]]]; try (injection Hj as <-); intro Hlt.
      * vm_compute in Hlt. discriminate.
      * vm_compute in Hlt. discriminate.
      * left. exists 0%nat. eexists. split; [lia|reflexivity].
      * destruct j; discriminate.
Qed.

Example C19_example :
  distinct_points 1 kd_points /\ nearest_rows kd_points kd_points 3 (Some (9#4)%Q) kd_raw /\
  kd_query 3 (Some (9#4)%Q) false true kd_raw =
    [[(1%nat, Some 1%Q)]; [(0%nat, Some 1%Q)]; [(3%nat, None)]].
Proof. split; [exact kd_distinct|]. split; [exact kd_raw_nearest|reflexivity]. Qed.

(** ** C22 *)

Open Scope Q_scope.

(** Along each axis: with the largest and smallest component [mx], [mn] of the vectors, the size is the extent
    of {0} and the components if [mx] is not negative, and too small otherwise. *)
Theorem C22_cell_size_extent :
  forall vectors j, vectors <> [] -> (j < length (nth 0 vectors []))%nat ->
    exists mx mn,
      is_max (map (fun v => nth j v 0) vectors) mx /\ is_min (map (fun v => nth j v 0) vectors) mn /\
      (0 <= mx -> exists hi lo, is_max (0 :: map (fun v => nth j v 0) vectors) hi /\
                                is_min (0 :: map (fun v => nth j v 0) vectors) lo /\
                                nth j (cell_size vectors) 0 == hi - lo) /\
      (mx < 0 -> nth j (cell_size vectors) 0 < - mn) /\
      0 <= nth j (cell_size vectors) 0 <= abs_sum (map (fun v => nth j v 0) vectors).
Proof.
  intros [|v0 rest] j Hne Hj; [congruence|]. cbn [nth] in Hj.
  destruct (cell_size_entry v0 rest j Hj) as [mx [mn [Hmx [Hmn E]]]]. unfold column in *.
  set (col := map (fun v => nth j v 0) (v0 :: rest)) in *.
  exists mx, mn. split; auto. split; auto.
  assert (mn <= mx) as Hle.
  { destruct Hmn as [[x [Hx Ex]] _]. destruct Hmx as [_ H]. specialize (H x Hx). lra. }
  rewrite E. clear E. destruct (Qlt_le_dec 0 mn) as [Hp|Hp].
  - rewrite Qle_bool_false by assumption. split; [|split].
    + intro H0. exists mx, 0. split; [|split].
      * destruct Hmx as [[x [Hx Ex]] Hm]. split; [exists x; simpl; auto|].
        intros y [<-|Hy]; [lra|auto].
      * split; [exists 0; split; [left; reflexivity|reflexivity]|].
        destruct Hmn as [_ Hm]. intros y [<-|Hy]; [lra|]. specialize (Hm y Hy). lra.
      * reflexivity.
    + intro; lra.
    + split; [lra|]. destruct Hmx as [[x [Hx Ex]] Hm]. pose proof (abs_sum_in col x Hx) as Ha.
      pose proof (Qle_Qabs x). lra.
  - rewrite Qle_bool_true by assumption. split; [|split].
    + intro H0. exists mx, mn. split; [|split].
      * destruct Hmx as [[x [Hx Ex]] Hm]. split; [exists x; simpl; auto|].
        intros y [<-|Hy]; [lra|auto].
      * destruct Hmn as [[x [Hx Ex]] Hm]. split; [exists x; simpl; auto|].
        intros y [<-|Hy]; [lra|auto].
      * reflexivity.
    + intro; lra.
    + split; [lra|]. destruct Hmx as [[x [Hx Ex]] Hm]. destruct Hmn as [[y [Hy Ey]] Hm'].
      destruct (Qlt_le_dec x 0) as [Hn|Hn].
      * pose proof (abs_sum_in col y Hy) as Ha. pose proof (Qle_Qabs (- y)) as Hq. rewrite Qabs_opp in Hq. lra.
      * pose proof (abs_sum_two col x y Hx Hy Hn ltac:(lra)). lra.
Qed.

(** The extent of the parallelepiped spanned by the vectors is the largest difference of two sums of vectors. *)
Example C22_example :
  cell_size [[1; -2]; [3; -1]] = [3 - 0; -1 - -2] /\
  is_max (map (fun v => nth 1 v 0) [[1; -2]; [3; -1]]) (-1) /\
  nth 1 (cell_size [[1; -2]; [3; -1]]) 0 == 1 /\ 1 < - (-2).
Proof.
  split; [reflexivity|]. split; [|split; reflexivity].
  split; [exists (-1); split; [simpl; auto|reflexivity]|].
  intros x [<-|[<-|[]]]; discriminate.
Qed.

Print Assumptions C16_vindices_enumerates_the_grid.
Print Assumptions C16_bad_axis_raises.
Print Assumptions C16_one_sided_limits_fit.
Print Assumptions C16_wide_limits_wrap.
Print Assumptions C16_bad_limits_raise.
Print Assumptions C17_interweave_alternates.
Print Assumptions C17_interweave_equal_lengths.
Print Assumptions C19_self_query.
Print Assumptions C19_neighbours_are_the_points_in_range.
Print Assumptions C22_cell_size_extent.
