(** * Property C82 (lattpy/spatial.py: vrange) *)
From Coq Require Import List ZArith QArith Qround Bool Arith Lia Lqa Sorted Permutation.
From Verif Require Import Np NpFacts LinAlg LinFacts SpecBasis SpatialModel UtilsModel VoronoiModel.
From Verif Require KDBrute PropPreset PropVoronoi.
Import ListNotations.
Open Scope nat_scope.
Open Scope list_scope.

(** ** Specification *)

(** [x] is one of the values from [start] in steps, before [stop]. *)
Definition range_value (start stop step x : Q) : Prop :=
  exists k : nat, (x == start + inject_Z (Z.of_nat k) * step)%Q /\ ((0 < step)%Q -> (x < stop)%Q) /\ ((step < 0)%Q -> (stop < x)%Q).

(** In the first coordinate that differs, [u] is earlier than [v] in the direction of the step. *)
Definition earlier (step u v : list Q) : Prop :=
  exists k, k < length step /\ (forall l, l < k -> (nth l u 0 == nth l v 0)%Q) /\
    ((0 < nth k step 0)%Q -> (nth k u 0 < nth k v 0)%Q) /\ ((nth k step 0 < 0)%Q -> (nth k v 0 < nth k u 0)%Q).

(** The order of the rows: by the given axis, then by all axes. *)
Definition row_order (axis : option nat) (step u v : list Q) : Prop :=
  match axis with
  | None => earlier step u v
  | Some a => (nth a u 0 < nth a v 0)%Q \/ ((nth a u 0 == nth a v 0)%Q /\ earlier step u v)
  end.

(** The values of one axis can be counted: the step is not zero and the end is not further back than one step. *)
Definition countable (start stop step : Q) : Prop :=
  ((0 < step)%Q /\ (start - step < stop)%Q) \/ ((step < 0)%Q /\ (stop < start - step)%Q).

(** ** Proofs *)

Lemma sort_stable_ties {A} (leb : A -> A -> bool) (R : A -> A -> Prop) l :
  (forall x y, leb x y = true \/ leb y x = true) ->
  (forall x y z, leb x y = true -> leb y z = true -> leb x z = true) ->
  StronglySorted R l ->
  StronglySorted (fun a b => leb a b = true /\ (leb b a = true -> R a b)) (sort_stable leb l).
Proof.
  intros Ht Htr Hs. induction Hs as [|x l Hs IH Hf]; cbn [sort_stable]; [constructor|].
  assert (Forall (R x) (sort_stable leb l)) as Hf'.
  { rewrite Forall_forall in *. intros y Hy. apply Hf. apply In_sort_stable in Hy. exact Hy. }
  clear Hf Hs. revert Hf'. induction IH as [|y m Hm IHm Hy]; intro Hf; cbn [insert_stable].
  - repeat constructor.
  - inversion Hf as [|? ? Hxy Hfm]; subst. destruct (leb x y) eqn:E.
    + constructor; [constructor; auto|]. constructor; [auto|]. rewrite Forall_forall in *. intros z Hz. split; [|auto].
      apply (Htr x y z E). apply (Hy z Hz).
    + constructor; [apply IHm; exact Hfm|]. rewrite Forall_forall in *. intros z Hz.
      apply (Permutation_in _ (insert_stable_perm leb x m)) in Hz. destruct Hz as [<-|Hz]; [|apply Hy; exact Hz].
      split; [destruct (Ht x y); congruence|]. congruence.
Qed.

Lemma ss_app {A} (R : A -> A -> Prop) l m :
  StronglySorted R l -> StronglySorted R m -> (forall x y, In x l -> In y m -> R x y) -> StronglySorted R (l ++ m).
Proof.
  intros Hl Hm H. induction Hl as [|x l Hl IH Hf]; cbn [app]; [exact Hm|]. constructor.
  - apply IH. intros a c Ha Hc. apply H; [right|]; assumption.
  - apply Forall_app. split; [exact Hf|]. rewrite Forall_forall. intros y Hy. apply H; [left; reflexivity|exact Hy].
Qed.

Lemma ss_map {A B} (f : A -> B) (R : B -> B -> Prop) l : StronglySorted (fun x y => R (f x) (f y)) l -> StronglySorted R (map f l).
Proof.
  induction 1 as [|x l Hs IH Hf]; cbn [map]; constructor; auto. rewrite Forall_forall in *. intros y Hy.
  apply in_map_iff in Hy. destruct Hy as [z [<- Hz]]. auto.
Qed.

Lemma ss_impl {A} (R S : A -> A -> Prop) l : (forall x y, In x l -> In y l -> R x y -> S x y) -> StronglySorted R l -> StronglySorted S l.
Proof.
  intros H Hs. induction Hs as [|x l Hs IH Hf]; constructor.
  - apply IH. intros a c Ha Hc. apply H; right; assumption.
  - rewrite Forall_forall in *. intros y Hy. apply H; [left; reflexivity|right; exact Hy|auto].
Qed.

Lemma ss_seq s n : StronglySorted lt (seq s n).
Proof.
  revert s. induction n as [|n IH]; intro s; cbn [seq]; constructor; auto. rewrite Forall_forall. intros y Hy. apply in_seq in Hy. lia.
Qed.

(** Values of one axis in the direction of the step. *)
Definition ahead (s x y : Q) : Prop := ((0 < s)%Q -> (x < y)%Q) /\ ((s < 0)%Q -> (y < x)%Q).

Lemma steps_ahead lo s n : StronglySorted (ahead s) (steps_from lo s n).
Proof.
  unfold steps_from, zrange. rewrite map_map. apply ss_map. apply (ss_impl lt); [|apply ss_seq].
  intros i j _ _ Hij. assert (inject_Z (0 + Z.of_nat i) < inject_Z (0 + Z.of_nat j))%Q as H by (rewrite <- Zlt_Qlt; lia).
  unfold ahead. split; intro Hs; nra.
Qed.

Lemma num_steps_neg lo hi s : num_steps (- lo) (- hi) (- s) = num_steps lo hi s.
Proof.
  unfold num_steps. apply Qceiling_comp. destruct (Qeq_dec s 0) as [E|E].
  - unfold Qdiv. assert (/ - s == / s)%Q as -> by (rewrite E; reflexivity). assert (/ s == 0)%Q as -> by (rewrite E; reflexivity). ring.
  - field. exact E.
Qed.

Lemma steps_range lo hi s x : ~ (s == 0)%Q ->
  (exists y, In y (steps_from lo s (num_steps lo hi s)) /\ (y == x)%Q) <-> range_value lo hi s x.
Proof.
  intro Hs. destruct (Qlt_le_dec 0 s) as [H|H].
  - rewrite PropVoronoi.steps_in by exact H. unfold range_value. split; intros [k [E Hk]]; exists k.
    + split; [exact E|]. split; [auto|intro; lra].
    + split; [exact E|]. apply Hk. exact H.
  - assert (s < 0)%Q as Hn by (apply Qle_lt_or_eq in H; destruct H as [H|H]; [exact H|contradiction]).
    pose proof (PropVoronoi.steps_in (- lo) (- hi) (- s) (- x)) as G. rewrite num_steps_neg in G.
    assert (0 < - s)%Q as Hp by lra. specialize (G Hp).
    assert ((exists y, In y (steps_from lo s (num_steps lo hi s)) /\ (y == x)%Q) <->
            (exists y, In y (steps_from (- lo) (- s) (num_steps lo hi s)) /\ (y == - x)%Q)) as G'.
    { unfold steps_from. split; intros [y [Hy E]]; apply in_map_iff in Hy; destruct Hy as [k [<- Hk]].
      - exists (- lo + inject_Z k * - s)%Q. split; [apply in_map_iff; exists k; auto|]. rewrite <- E. ring.
      - exists (lo + inject_Z k * s)%Q. split; [apply in_map_iff; exists k; auto|].
        setoid_replace x with (- - x)%Q by ring. rewrite <- E. ring. }
    rewrite G', G. unfold range_value. split; intros [k [E Hk]]; exists k.
    + split; [|split; [intro; lra|intros _; lra]]. lra.
    + split; [lra|]. destruct Hk as [_ Hk]. specialize (Hk Hn). lra.
Qed.

Lemma num_steps_neg_iff lo hi s : ~ (s == 0)%Q -> ((num_steps lo hi s <? 0)%Z = false <-> countable lo hi s).
Proof.
  intro Hs. rewrite Z.ltb_ge. unfold num_steps.
  assert ((0 <= Qceiling ((hi - lo) / s))%Z <-> (-(1) < (hi - lo) / s)%Q) as E.
  { split; intro H.
    - apply Qnot_le_lt. intro G. apply Qceiling_resp_le in G. change (- (1))%Q with (inject_Z (-1)) in G. rewrite Qceiling_Z in G. lia.
    - pose proof (Qle_ceiling ((hi - lo) / s)) as C. assert (inject_Z (-1) < inject_Z (Qceiling ((hi - lo) / s)))%Q as G by (change (inject_Z (-1)) with (-(1))%Q; lra).
      rewrite <- Zlt_Qlt in G. lia. }
  rewrite E. assert (hi - lo == (hi - lo) / s * s)%Q as D by (field; auto). set (q := ((hi - lo) / s)%Q) in *. clearbody q. unfold countable.
  destruct (Qlt_le_dec 0 s) as [H|H].
  - split; intro G; [left; split; [exact H|nra]|]. destruct G as [[_ G]|[G _]]; [nra|lra].
  - assert (s < 0)%Q as Hn by (apply Qle_lt_or_eq in H; destruct H as [H|H]; [exact H|contradiction]).
    split; intro G; [right; split; [exact Hn|nra]|]. destruct G as [[G _]|[_ G]]; [lra|nra].
Qed.

(** The product of the axes is ordered by [earlier]. *)
Lemma product_earlier (axes : list (list Q)) (step : list Q) :
  Forall2 (fun s l => StronglySorted (ahead s) l) step axes -> StronglySorted (earlier step) (product axes).
Proof.
  induction 1 as [|s l step axes Hl Hr IH]; cbn [product]; [repeat constructor|].
  induction Hl as [|x l Hl IHl Hf]; cbn [flat_map]; [constructor|]. apply ss_app; [|exact IHl|].
  - apply ss_map. apply (ss_impl (earlier step)); [|exact IH]. intros u v _ _ [k [Hk [He Ha]]]. exists (S k). cbn [length nth]. split; [lia|].
    split; [|exact Ha]. intros [|j] Hj; cbn [nth]; [reflexivity|]. apply He. lia.
  - intros u v Hu Hv. apply in_map_iff in Hu. destruct Hu as [u' [<- _]]. apply in_flat_map in Hv. destruct Hv as [y [Hy Hv]].
    apply in_map_iff in Hv. destruct Hv as [v' [<- _]]. rewrite Forall_forall in Hf. specialize (Hf y Hy).
    exists 0. cbn [length nth]. split; [lia|]. split; [intros; lia|]. exact Hf.
Qed.

Local Notation slices start stop step := (combine (combine start stop) step).
Definition slice_values (s : Q * Q * Q) : list Q := steps_from (fst (fst s)) (snd s) (num_steps (fst (fst s)) (snd (fst s)) (snd s)).

Lemma axes_ahead start : forall stop step, length stop = length start -> length step = length start ->
  Forall2 (fun s l => StronglySorted (ahead s) l) step (map slice_values (slices start stop step)).
Proof.
  induction start as [|a start IH]; intros [|b stop] [|s step] H1 H2; cbn in *; try discriminate; constructor.
  - apply steps_ahead.
  - apply IH; lia.
Qed.

Lemma axes_values start : forall stop step x, length stop = length start -> length step = length start ->
  (forall s, In s step -> ~ (s == 0)%Q) ->
  (exists v, In v (product (map slice_values (slices start stop step))) /\ same v x) <->
  (length x = length start /\ forall i, i < length start -> range_value (nth i start 0%Q) (nth i stop 0%Q) (nth i step 0%Q) (nth i x 0%Q)).
Proof.
  induction start as [|a start IH]; intros [|b stop] [|s step] x H1 H2 Hz; cbn [length] in *; try discriminate.
  - cbn. split.
    + intros [v [[<-|[]] H]]. destruct H as [H _]. split; [symmetry; exact H|intros; lia].
    + intros [H _]. exists []. split; [auto|]. destruct x; [apply PropPreset.same_nil|discriminate].
  - assert (length stop = length start /\ length step = length start) as [E1 E2] by lia.
    cbn [combine map product]. split.
    + intros [v [Hv Hs]]. apply in_flat_map in Hv. destruct Hv as [y [Hy Hv]]. apply in_map_iff in Hv. destruct Hv as [w [<- Hw]].
      destruct x as [|x0 x]; [destruct Hs; discriminate|]. apply PropPreset.same_cons in Hs. destruct Hs as [Hx Hs].
      destruct (proj1 (IH stop step x E1 E2 (fun z H => Hz z (or_intror H)))) as [Hl Hi]; [exists w; auto|]. split; [cbn [length]; lia|].
      intros [|i] H; cbn [nth]; [|apply Hi; lia]. apply steps_range; [apply Hz; left; reflexivity|]. exists y. split; [exact Hy|exact Hx].
    + intros [Hl Hi]. destruct x as [|x0 x]; [discriminate|]. cbn [length] in Hl.
      destruct (proj2 (steps_range a b s x0 (Hz s (or_introl eq_refl))) (Hi 0 ltac:(lia))) as [y [Hy Ey]].
      destruct (proj2 (IH stop step x E1 E2 (fun z H => Hz z (or_intror H)))) as [w [Hw Hs]].
      { split; [lia|]. intros i H. apply (Hi (S i)). lia. }
      exists (y :: w). split; [|apply PropPreset.same_cons; auto]. apply in_flat_map. exists y. split; [exact Hy|]. apply in_map. exact Hw.
Qed.

Lemma slices_length (start stop step : list Q) : length (slices start stop step) = Nat.min (Nat.min (length start) (length stop)) (length step).
Proof. rewrite !combine_length. reflexivity. Qed.

Lemma slice_exists (P : Q -> Q -> Q -> bool) start : forall stop step, length stop = length start -> length step = length start ->
  existsb (fun s => P (fst (fst s)) (snd (fst s)) (snd s)) (slices start stop step) = true <->
  exists i, i < length start /\ P (nth i start 0%Q) (nth i stop 0%Q) (nth i step 0%Q) = true.
Proof.
  induction start as [|a start IH]; intros [|b stop] [|s step] H1 H2; cbn [length combine existsb fst snd] in *; try discriminate.
  - split; [discriminate|intros [i [H _]]; lia].
  - rewrite orb_true_iff, IH by lia. split.
    + intros [H|[i [Hi H]]]; [exists 0|exists (S i)]; (split; [lia|exact H]).
    + intros [[|i] [Hi H]]; [left; exact H|right; exists i; split; [lia|exact H]].
Qed.

Lemma product_row_length {A} (axes : list (list A)) v : In v (product axes) -> length v = length axes.
Proof. intro H. apply In_product in H. induction H; cbn [length]; auto. Qed.

Lemma qaxis_leb_total a u v : qaxis_leb a u v = true \/ qaxis_leb a v u = true.
Proof. unfold qaxis_leb. rewrite !Qle_bool_iff. destruct (Qlt_le_dec (nth a u 0%Q) (nth a v 0%Q)); [left|right]; lra. Qed.

Lemma qaxis_leb_trans a u v w : qaxis_leb a u v = true -> qaxis_leb a v w = true -> qaxis_leb a u w = true.
Proof. unfold qaxis_leb. rewrite !Qle_bool_iff. intros. lra. Qed.

(** ** Theorems *)

(** [vrange] succeeds exactly for at least one axis, steps that are not zero, ends not behind the start and an existing
    sort axis.  Its rows are then exactly the vectors whose coordinates are values of the ranges, each once, in the
    order of the sort axis; rows with the same value there keep the order of the axes. *)
Theorem C82_vrange :
  forall start stop step axis,
    length stop = length start -> length step = length start ->
    ((exists rows, vrange start stop (Some (Each step)) axis = Some rows) <->
       (1 <= length start /\
        (forall i, i < length start -> countable (nth i start 0%Q) (nth i stop 0%Q) (nth i step 0%Q)) /\
        (forall a, axis = Some a -> a < length start))) /\
    forall rows, vrange start stop (Some (Each step)) axis = Some rows ->
      (forall v, In v rows -> length v = length start) /\
      (forall x, length x = length start ->
         (exists v, In v rows /\ same v x) <->
         (forall i, i < length start -> range_value (nth i start 0%Q) (nth i stop 0%Q) (nth i step 0%Q) (nth i x 0%Q))) /\
      (forall i j u v, i < j -> nth_error rows i = Some u -> nth_error rows j = Some v ->
         row_order axis step u v /\ ~ same u v).
Proof.
  intros start stop step axis H1 H2.
  assert (length (slices start stop step) = length start) as Hlen by (rewrite slices_length; lia).
  assert (forall v, existsb (fun s => Qeq_bool (snd s) 0) (slices start stop step) = v <->
          (if v then exists i, i < length start /\ (nth i step 0 == 0)%Q else forall i, i < length start -> ~ (nth i step 0 == 0)%Q)) as Hzero.
  { pose proof (slice_exists (fun _ _ s => Qeq_bool s 0) start stop step H1 H2) as G.
    assert ((exists i, i < length start /\ Qeq_bool (nth i step 0%Q) 0 = true) <-> exists i, i < length start /\ (nth i step 0 == 0)%Q) as G'.
    { split; intros [i [Hi H]]; exists i; (split; [exact Hi|apply Qeq_bool_iff; exact H]). }
    rewrite G' in G. clear G'. cbv beta in G. intros [|]; [exact G|]. rewrite <- not_true_iff_false, G. split; [|intros H [i [Hi E]]; exact (H i Hi E)].
    intros H i Hi E. apply H. exists i. auto. }
  assert ((forall i, i < length start -> ~ (nth i step 0 == 0)%Q) -> forall v, existsb (fun s => (num_steps (fst (fst s)) (snd (fst s)) (snd s) <? 0)%Z) (slices start stop step) = v <->
          (if v then exists i, i < length start /\ ~ countable (nth i start 0%Q) (nth i stop 0%Q) (nth i step 0%Q)
           else forall i, i < length start -> countable (nth i start 0%Q) (nth i stop 0%Q) (nth i step 0%Q))) as Hcount.
  { intro Hnz. pose proof (slice_exists (fun a b s => (num_steps a b s <? 0)%Z) start stop step H1 H2) as G. cbv beta in G.
    assert ((exists i, i < length start /\ (num_steps (nth i start 0%Q) (nth i stop 0%Q) (nth i step 0%Q) <? 0)%Z = true) <->
            exists i, i < length start /\ ~ countable (nth i start 0%Q) (nth i stop 0%Q) (nth i step 0%Q)) as G'.
    { split; intros [i [Hi H]]; exists i; (split; [exact Hi|]).
      - rewrite <- num_steps_neg_iff by (apply Hnz; exact Hi). congruence.
      - rewrite <- num_steps_neg_iff in H by (apply Hnz; exact Hi). destruct (num_steps _ _ _ <? 0)%Z; [reflexivity|]. exfalso. auto. }
    rewrite G' in G. clear G'. intros [|]; [exact G|]. rewrite <- not_true_iff_false, G. split; [|intros H [i [Hi E]]; exact (E (H i Hi))].
    intros H i Hi. rewrite <- num_steps_neg_iff by (apply Hnz; exact Hi). destruct (num_steps _ _ _ <? 0)%Z eqn:E; [|reflexivity].
    exfalso. apply H. exists i. split; [exact Hi|]. rewrite <- num_steps_neg_iff by (apply Hnz; exact Hi). congruence. }
  set (array := product (map slice_values (slices start stop step))).
  assert (forall r, vrange start stop (Some (Each step)) axis = Some r <->
    (1 <= length start /\ (forall i, i < length start -> countable (nth i start 0%Q) (nth i stop 0%Q) (nth i step 0%Q)) /\
     (forall a, axis = Some a -> a < length start) /\ r = match axis with None => array | Some a => sort_stable (qaxis_leb a) array end)) as Hv.
  { intro r. unfold vrange. cbn [spread].
    change (map (fun s => steps_from (fst (fst s)) (snd s) (num_steps (fst (fst s)) (snd (fst s)) (snd s))) (slices start stop step)) with (map slice_values (slices start stop step)).
    fold array. rewrite Hlen.
    pose proof (proj1 (Hzero _) eq_refl) as Ez. clear Hzero.
    destruct (existsb (fun s => Qeq_bool (snd s) 0) (slices start stop step)).
    { split; [discriminate|]. intros [_ [H _]]. exfalso. destruct Ez as [i [Hi E]]. destruct (H i Hi) as [[G _]|[G _]]; lra. }
    pose proof (proj1 (Hcount Ez _) eq_refl) as Ec. clear Hcount.
    destruct (existsb (fun s => (num_steps (fst (fst s)) (snd (fst s)) (snd s) <? 0)%Z) (slices start stop step)).
    { split; [discriminate|]. intros [_ [H _]]. exfalso. destruct Ec as [i [Hi E]]. exact (E (H i Hi)). }
    destruct (Nat.eqb_spec (length start) 0) as [E0|E0].
    { split; [discriminate|]. intros [H _]. exfalso. lia. }
    destruct axis as [a|].
    - destruct (Nat.ltb_spec a (length start)) as [Ea|Ea].
      + split; [intro E; injection E as <-; split; [lia|split; [exact Ec|split; [intros b Eb; injection Eb as <-; exact Ea|reflexivity]]]|intros [_ [_ [_ ->]]]; reflexivity].
      + split; [discriminate|]. intros [_ [_ [H _]]]. specialize (H a eq_refl). lia.
    - split; [intro E; injection E as <-; split; [lia|split; [exact Ec|split; [discriminate|reflexivity]]]|intros [_ [_ [_ ->]]]; reflexivity]. }
  split.
  { split; [intros [r H]; apply Hv in H; tauto|]. intros [Ha [Hb Hc]]. eexists. apply Hv. split; [exact Ha|]. split; [exact Hb|]. split; [exact Hc|reflexivity]. }
  intros rows Hr. apply Hv in Hr. destruct Hr as [Hd [Hc [Ha ->]]]. set (rows := match axis with None => array | Some a => sort_stable (qaxis_leb a) array end).
  assert (forall v, In v rows <-> In v array) as Hin.
  { intro v. unfold rows. destruct axis; [apply In_sort_stable|reflexivity]. }
  assert (forall v, In v array -> length v = length start) as Hlr.
  { intros v H. apply product_row_length in H. rewrite map_length, Hlen in H. exact H. }
  split; [intros v H; apply Hlr, Hin; exact H|]. split.
  - intros x Hx. pose proof (axes_values start stop step x H1 H2) as G. destruct G as [G1 G2].
    { intros z Hs. apply (In_nth _ _ 0%Q) in Hs. destruct Hs as [i [Hi <-]]. rewrite H2 in Hi. intro E. destruct (Hc i Hi) as [[F _]|[F _]]; lra. }
    split.
    + intros [v [Hv' Hs]]. apply G1. exists v. split; [apply Hin; exact Hv'|exact Hs].
    + intro H. destruct G2 as [v [Hv' Hs]]; [split; assumption|]. exists v. split; [apply Hin; exact Hv'|exact Hs].
  - assert (StronglySorted (row_order axis step) rows) as Hs.
    { pose proof (product_earlier _ _ (axes_ahead start stop step H1 H2)) as G. fold array in G. unfold rows, row_order. destruct axis as [a|]; [|exact G].
      eapply ss_impl; [|apply (sort_stable_ties (qaxis_leb a) (earlier step) array (qaxis_leb_total a) (qaxis_leb_trans a) G)].
      intros u v _ _ [Hle Htie]. unfold qaxis_leb in *. rewrite !Qle_bool_iff in *.
      destruct (Qlt_le_dec (nth a u 0%Q) (nth a v 0%Q)) as [F|F]; [left; exact F|]. right. split; [lra|]. apply Htie. exact F. }
    intros i j u v Hij Hu Hv'. pose proof (KDBrute.StronglySorted_nth _ _ i j u v Hs Hij Hu Hv') as Ho. split; [exact Ho|]. intros [_ Es].
    assert (earlier step u v -> False) as Hno.
    { intros [k [Hk [_ [Hp Hn]]]]. rewrite H2 in Hk. specialize (Es k). destruct (Hc k Hk) as [[F _]|[F _]]; [specialize (Hp F)|specialize (Hn F)]; lra. }
    unfold row_order in Ho. destruct axis as [a|]; [|auto]. destruct Ho as [Ho|[_ Ho]]; [|auto]. specialize (Es a). lra.
Qed.

(** The number of rows. *)
Theorem C82_count :
  forall start stop step axis rows,
    length stop = length start -> length step = length start ->
    vrange start stop (Some (Each step)) axis = Some rows ->
    Z.of_nat (length rows) =
      fold_right Z.mul 1%Z (map (fun i => Qceiling ((nth i stop 0 - nth i start 0) / nth i step 0)%Q) (seq 0 (length start))).
Proof.
  intros start stop step axis rows H1 H2 Hr.
  assert (length rows = length (product (map slice_values (slices start stop step))) /\
          existsb (fun s => (num_steps (fst (fst s)) (snd (fst s)) (snd s) <? 0)%Z) (slices start stop step) = false) as [-> Hc].
  { unfold vrange in Hr. cbn [spread] in Hr.
    change (map (fun s => steps_from (fst (fst s)) (snd s) (num_steps (fst (fst s)) (snd (fst s)) (snd s))) (slices start stop step)) with (map slice_values (slices start stop step)) in Hr.
    destruct (existsb (fun s => Qeq_bool (snd s) 0) (slices start stop step)); [discriminate|].
    destruct (existsb (fun s => (num_steps (fst (fst s)) (snd (fst s)) (snd s) <? 0)%Z) (slices start stop step)); [discriminate|].
    destruct (length (slices start stop step) =? 0); [discriminate|]. destruct axis as [a|].
    - destruct (a <? length (slices start stop step)); [|discriminate]. injection Hr as <-. split; [apply sort_stable_length|reflexivity].
    - injection Hr as <-. split; reflexivity. }
  clear Hr. revert stop step H1 H2 Hc. induction start as [|a start IH]; intros [|b stop] [|s step] H1 H2 Hc; cbn [length] in *; try discriminate; [reflexivity|].
  cbn [combine existsb fst snd] in Hc. apply orb_false_iff in Hc. destruct Hc as [Hc0 Hc]. apply Z.ltb_ge in Hc0.
  cbn [combine map seq fold_right nth]. rewrite <- seq_shift, map_map. cbn [nth].
  rewrite PropVoronoi.product_count. cbn [map fold_right]. rewrite <- PropVoronoi.product_count. rewrite Nat2Z.inj_mul.
  rewrite (IH stop step) by (assumption || lia). f_equal. unfold slice_values. cbn [fst snd]. unfold steps_from. rewrite map_length, zrange_length.
  unfold num_steps in *. lia.
Qed.

(** The ways to call it: a single argument is the end, ranges start at zero then; a missing step, [None] and a number
    stand for the same step along all axes; a number instead of a sequence is one axis; a keyword next to a third
    argument is ignored; more arguments raise; coordinates that start, stop or step have in excess are dropped. *)
Theorem C82_arguments :
  forall first start stop step s kw axis,
    vrange_call first [] kw axis = vrange_call (Each (repeat 0%Q (length (at_least_1d first)))) [Some first] kw axis /\
    vrange_call first [Some stop] None axis = vrange_call first [Some stop; None] kw axis /\
    vrange_call first [Some stop] (Some None) axis = vrange_call first [Some stop; None] kw axis /\
    vrange_call first [Some stop] (Some (Some step)) axis = vrange_call first [Some stop; Some step] kw axis /\
    vrange_call (Each start) [Some stop; None] kw axis = vrange_call (Each start) [Some stop; Some (Each (repeat 1%Q (length start)))] kw axis /\
    vrange_call (Each start) [Some stop; Some (Same s)] kw axis = vrange_call (Each start) [Some stop; Some (Each (repeat s (length start)))] kw axis /\
    vrange_call (Same s) [Some stop; Some step] kw axis = vrange_call (Each [s]) [Some stop; Some step] kw axis /\
    vrange_call first [Some (Same s); Some step] kw axis = vrange_call first [Some (Each [s]); Some step] kw axis /\
    (forall x y z l, vrange_call first (x :: y :: z :: l) kw axis = None) /\
    (forall st sp m, m = Nat.min (Nat.min (length start) (length st)) (length sp) ->
       vrange_call (Each start) [Some (Each st); Some (Each sp)] kw axis =
       vrange_call (Each (firstn m start)) [Some (Each (firstn m st)); Some (Each (firstn m sp))] kw axis).
Proof.
  intros first start stop step s kw axis.
  assert (forall {A} (l : list A), map (fun _ => 0%Q) l = repeat 0%Q (length l)) as Hrep by (intros A l; induction l; cbn; congruence).
  repeat split; try reflexivity.
  - unfold vrange_call. rewrite Hrep. reflexivity.
  - intros [x|] [y|] z l; reflexivity.
  - intros st sp m ->. cbn [vrange_call at_least_1d]. unfold vrange. cbn [spread].
    assert (forall {A B} (a : list A) (b : list B) n, Nat.min (length a) (length b) <= n -> combine (firstn n a) (firstn n b) = combine a b) as Hcomb.
    { intros A B a. induction a as [|x a IH]; intros [|y b] [|n] H; cbn in *; try reflexivity; try lia.
      f_equal. apply IH. lia. }
    assert (forall {A B} (a : list A) (b : list B) n, combine (firstn n a) (firstn n b) = firstn n (combine a b)) as Hfc.
    { intros A B a. induction a as [|x a IH]; intros [|y b] [|n]; cbn; try reflexivity. f_equal. apply IH. }
    rewrite Hfc. set (c := combine start st). replace (Nat.min (Nat.min (length start) (length st)) (length sp)) with (Nat.min (length c) (length sp)) by (unfold c; rewrite combine_length; reflexivity).
    rewrite Hcomb by lia. reflexivity.
Qed.

(** Both directions, a sort axis that is not the first one, and rows with ties. *)
Example C82_example :
  vrange_call (Each [0; 1]%Q) [Some (Each [3; -1]%Q); Some (Each [2; -1]%Q)] None (Some 1) =
    Some [[0; 0]; [2; 0]; [0; 1]; [2; 1]]%Q /\
  vrange_call (Each [2; 2]%Q) [] None (Some 0) = Some [[0; 0]; [0; 1]; [1; 0]; [1; 1]]%Q /\
  vrange_call (Each [1; 1]%Q) [] (Some (Some (Same (1 # 2)))) None <> None /\
  vrange_call (Each [-2]%Q) [] None None = None /\
  vrange_call (Each [2]%Q) [] (Some (Some (Same 0%Q))) None = None.
Proof. repeat split; try reflexivity; vm_compute; discriminate. Qed.

Example C82_example_guard :
  countable 0 3 2 /\ countable 1 (-1) (-1) /\ range_value 1 (-1) (-1) 0 /\ ~ countable 0 (-2) 1.
Proof.
  split; [left; split; reflexivity|]. split; [right; split; reflexivity|]. split; [exists 1; split; [reflexivity|split; intro; [discriminate|reflexivity]]|].
  intros [[_ H]|[H _]]; vm_compute in H; discriminate.
Qed.

Print Assumptions C82_vrange.
Print Assumptions C82_count.
Print Assumptions C82_arguments.
