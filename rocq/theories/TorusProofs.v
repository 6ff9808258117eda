(** * Periodic boxes of cells *)
From Coq Require Import String List ZArith QArith Qabs Qround Bool Arith Lia Lqa Permutation Sorting.Sorted.
From Verif Require Import Np NpFacts LinAlg LinFacts SpecUtils SpecBasis BasisModel BasisProofs PropBasis SpatialModel SpecSpatial SpatialProofs SpecStructure StructureModel RoundFacts StructureFacts
  AnalyzeProofs SpecNeighbors SpecLattice DataModel SpecData DataFacts DataProofs DataAppend LatticeModel SpecGrid GridProofs TranslationFacts PropMinDist RepeatProofs SpecSeam PropSeam SpecJoin JoinProofs BoxProofs RangeProofs SpecTorus.
Import ListNotations.
Open Scope nat_scope.
Open Scope list_scope.

(** The first and the last cell along a periodic axis. *)
Definition wrap_step (d : nat) (L : list Z) (axes : list nat) (n m : list Z) : Prop :=
  exists k, k < d /\ In k axes /\ Z.abs (nth k n 0 - nth k m 0)%Z = (nth k L 0 - 1)%Z /\ forall b, b < d -> b <> k -> nth b n 0%Z = nth b m 0%Z.

Section Torus.
  Variables (d : nat) (o L : list Z) (axes : list nat).
  Hypothesis H3 : forall k, In k axes -> (3 <= nth k L 0)%Z.

  Lemma torus_cases n m : box d o L n -> box d o L m -> torus_step d L axes n m <-> unit_step d n m \/ wrap_step d L axes n m.
  Proof.
    intros Hn Hm. split.
    - intros [k [s [Hk [Hs [[H|[Hin [q Hq]]] Ho]]]]]; [left; exists k; split; [auto|]; split; [lia|auto]|].
      specialize (Hn k Hk). specialize (Hm k Hk). specialize (H3 k Hin).
      destruct (Z.eq_dec q 0) as [->|Hq0]; [left; exists k; split; [auto|]; split; [lia|auto]|].
      right. exists k. split; auto. split; auto. split; auto.
      assert (q = 1 \/ q = -1)%Z as [->| ->] by nia; lia.
    - intros [[k [Hk [H Ho]]]|[k [Hk [Hin [H Ho]]]]].
      + exists k, (nth k m 0 - nth k n 0)%Z. split; auto. split; [lia|]. split; auto. left. lia.
      + destruct (Z_le_gt_dec (nth k n 0%Z) (nth k m 0%Z)).
        * exists k, (-1)%Z. split; auto. split; auto. split; auto. right. split; auto. exists 1%Z. lia.
        * exists k, 1%Z. split; auto. split; auto. split; auto. right. split; auto. exists (-1)%Z. lia.
  Qed.

  Lemma wrap_not_unit n m : wrap_step d L axes n m -> ~ unit_step d n m.
  Proof.
    intros [k [Hk [Hin [H Ho]]]] [k' [Hk' [H' Ho']]]. specialize (H3 k Hin). destruct (Nat.eq_dec k k') as [->|E]; [lia|].
    rewrite (Ho' k) in H by auto. lia.
  Qed.

  Lemma wrap_sym n m : wrap_step d L axes n m -> wrap_step d L axes m n.
  Proof. intros [k [Hk [Hin [H Ho]]]]. exists k. split; auto. split; auto. split; [lia|]. intros; symmetry; auto. Qed.

  Lemma wrap_ext n m n' m' : (forall k, k < d -> nth k n 0%Z = nth k n' 0%Z) -> (forall k, k < d -> nth k m 0%Z = nth k m' 0%Z) ->
    wrap_step d L axes n m -> wrap_step d L axes n' m'.
  Proof.
    intros E1 E2 [k [Hk [Hin [H Ho]]]]. exists k. split; auto. split; auto. rewrite <- E1, <- E2 by auto. split; auto.
    intros b Hb Hbk. rewrite <- E1, <- E2 by auto. auto.
  Qed.

  Lemma torus_ext n m n' m' : (forall k, k < d -> nth k n 0%Z = nth k n' 0%Z) -> (forall k, k < d -> nth k m 0%Z = nth k m' 0%Z) ->
    torus_step d L axes n m -> torus_step d L axes n' m'.
  Proof.
    intros E1 E2 [k [s [Hk [Hs [H Ho]]]]]. exists k, s. split; auto. split; auto. rewrite <- E1, <- E2 by auto. split; auto.
    intros b Hb Hbk. rewrite <- E1, <- E2 by auto. auto.
  Qed.

  (** The neighbours in the periodic box. *)
  Definition ring_at (n : list Z) (k : nat) : list (list Z) :=
    (if up o L n k then [step_to d n k 1] else if isin axes k then [step_to d n k (1 - nth k L 0)%Z] else []) ++
    (if down o n k then [step_to d n k (-1)] else if isin axes k then [step_to d n k (nth k L 0 - 1)%Z] else []).
  Definition ring (n : list Z) : list (list Z) := flat_map (ring_at n) (seq 0 d).

  Lemma In_ring_at n k m : box d o L n -> k < d -> In m (ring_at n k) <->
    exists s, m = step_to d n k s /\ (nth k o 0 <= nth k n 0 + s < nth k o 0 + nth k L 0)%Z /\
      (Z.abs s = 1%Z \/ (In k axes /\ Z.abs s = (nth k L 0 - 1)%Z)).
  Proof.
    intros Hn Hk. pose proof (Hn k Hk) as Hnk. unfold ring_at. rewrite in_app_iff. split.
    - intros [H|H].
      + unfold up in H. destruct (Z.ltb_spec (nth k n 0 + 1)%Z (nth k o 0 + nth k L 0)%Z) as [E|E].
        * destruct H as [<-|[]]. exists 1%Z. split; auto. split; [lia|]. auto.
        * destruct (isin axes k) eqn:Ei; [|destruct H]. apply isin_In in Ei. destruct H as [<-|[]]. exists (1 - nth k L 0)%Z. split; auto.
          specialize (H3 k Ei). split; [lia|]. right. split; auto. lia.
      + unfold down in H. destruct (Z.ltb_spec (nth k o 0)%Z (nth k n 0)%Z) as [E|E].
        * destruct H as [<-|[]]. exists (-1)%Z. split; auto. split; [lia|]. auto.
        * destruct (isin axes k) eqn:Ei; [|destruct H]. apply isin_In in Ei. destruct H as [<-|[]]. exists (nth k L 0 - 1)%Z. split; auto.
          specialize (H3 k Ei). split; [lia|]. right. split; auto. lia.
    - intros [s [-> [Hr [Hs|[Hin Hs]]]]].
      + assert (s = 1 \/ s = -1)%Z as [->| ->] by lia.
        * left. unfold up. rewrite (proj2 (Z.ltb_lt _ _)) by lia. left. auto.
        * right. unfold down. rewrite (proj2 (Z.ltb_lt _ _)) by lia. left. auto.
      + rewrite (proj2 (isin_In _ _) Hin). specialize (H3 k Hin). assert (s = nth k L 0 - 1 \/ s = 1 - nth k L 0)%Z as [->| ->] by lia.
        * right. unfold down. rewrite (proj2 (Z.ltb_ge _ _)) by lia. left. auto.
        * left. unfold up. rewrite (proj2 (Z.ltb_ge _ _)) by lia. left. auto.
  Qed.

  Lemma In_ring n m : length m = d -> box d o L n -> In m (ring n) <-> box d o L m /\ torus_step d L axes n m.
  Proof.
    intros Lm Hn. unfold ring. rewrite in_flat_map. split.
    - intros [k [Hk H]]. apply in_seq in Hk. apply In_ring_at in H; auto; [|lia]. destruct H as [s [-> [Hr Hs]]].
      assert (box d o L (step_to d n k s)) as Hb.
      { intros i Hi. rewrite nth_step_to by auto. destruct (Nat.eqb_spec i k) as [->|]; auto. }
      split; auto. apply torus_cases; auto.
      assert (nth k (step_to d n k s) 0%Z = (nth k n 0 + s)%Z) as E by (rewrite nth_step_to, Nat.eqb_refl by lia; auto).
      assert (forall b, b < d -> b <> k -> nth b n 0%Z = nth b (step_to d n k s) 0%Z) as Eo.
      { intros b Hb' Hbk. rewrite nth_step_to by auto. rewrite (proj2 (Nat.eqb_neq _ _) Hbk). auto. }
      destruct Hs as [Hs|[Hin Hs]]; [left; exists k; split; [lia|]; split; [lia|auto]|]. right. exists k. split; [lia|]. split; auto. split; [lia|auto].
    - intros [Hm H]. apply torus_cases in H; auto.
      assert (exists k, k < d /\ (Z.abs (nth k n 0 - nth k m 0)%Z = 1%Z \/ (In k axes /\ Z.abs (nth k n 0 - nth k m 0)%Z = (nth k L 0 - 1)%Z)) /\
        forall b, b < d -> b <> k -> nth b n 0%Z = nth b m 0%Z) as [k [Hk [Hs Ho]]].
      { destruct H as [[k [Hk [H Ho]]]|[k [Hk [Hin [H Ho]]]]]; exists k; auto. }
      exists k. split; [apply in_seq; lia|]. apply In_ring_at; auto. exists (nth k m 0 - nth k n 0)%Z. specialize (Hm k Hk). split; [|split; [lia|]].
      + apply (list_eq_nth _ _ 0%Z); [rewrite step_to_length; auto|]. intros i Hi. rewrite nth_step_to by lia.
        destruct (Nat.eqb_spec i k) as [->|E]; [lia|]. symmetry. apply Ho; auto. lia.
      + destruct Hs as [Hs|[Hin Hs]]; [left|right; split; auto]; lia.
  Qed.

  Lemma ring_NoDup n : box d o L n -> NoDup (ring n).
  Proof.
    intro Hn. unfold ring. apply NoDup_flat_map; [apply seq_NoDup| |].
    - intros k Hk. apply in_seq in Hk. pose proof (Hn k ltac:(lia)) as Hnk.
      assert (forall s s', s <> s' -> step_to d n k s <> step_to d n k s') as H.
      { intros s s' Hs E. apply (f_equal (fun v => nth k v 0%Z)) in E. rewrite !nth_step_to, Nat.eqb_refl in E by lia. lia. }
      unfold ring_at. destruct (isin axes k) eqn:Ei.
      + apply isin_In in Ei. specialize (H3 k Ei).
        destruct (up o L n k) eqn:Eu, (down o n k) eqn:Ed; cbn [app]; (constructor; [|constructor; [intros []|constructor]]); intros [E|[]]; symmetry in E; revert E; apply H; try lia.
        all: unfold up, down in *; rewrite ?Z.ltb_lt, ?Z.ltb_ge in *; lia.
      + destruct (up o L n k), (down o n k); cbn [app]; repeat constructor; auto. intros [E|[]]. symmetry in E. revert E. apply H. lia.
    - intros k k' v Hk Hk' Hv Hv'. apply in_seq in Hk. apply in_seq in Hk'. apply In_ring_at in Hv; auto; [|lia]. apply In_ring_at in Hv'; auto; [|lia].
      destruct Hv as [s [-> [Hr Hs]]]. destruct Hv' as [s' [E [Hr' Hs']]].
      destruct (Nat.eq_dec k k') as [|Hne]; auto. exfalso. apply (f_equal (fun v => nth k v 0%Z)) in E. rewrite !nth_step_to, Nat.eqb_refl in E by lia.
      rewrite (proj2 (Nat.eqb_neq _ _) Hne) in E. destruct Hs as [Hs|[Hin Hs]]; [lia|]. specialize (H3 k Hin). lia.
  Qed.

  Lemma ring_length n : length (ring n) = list_sum (map (fun k => length (ring_at n k)) (seq 0 d)).
  Proof. unfold ring. induction (seq 0 d) as [|k q IH]; cbn [flat_map map list_sum fold_right]; auto. rewrite app_length, IH. unfold list_sum. reflexivity. Qed.

  Lemma ring_degree n : box d o L n -> length (ring n) <= box_degree d L.
  Proof.
    intro Hn. rewrite ring_length. apply list_sum_le. intros k Hk. apply in_seq in Hk. specialize (Hn k ltac:(lia)). unfold ring_at. destruct (isin axes k) eqn:Ei.
    - apply isin_In in Ei. specialize (H3 k Ei). destruct (up o L n k), (down o n k); cbn [app length]; lia.
    - unfold up, down. destruct (Z.ltb_spec (nth k n 0 + 1)%Z (nth k o 0 + nth k L 0)%Z), (Z.ltb_spec (nth k o 0)%Z (nth k n 0)%Z); cbn [app length]; lia.
  Qed.

  Lemma ring_full n : (forall k, k < d -> In k axes) -> length (ring n) = 2 * d.
  Proof.
    intro H. rewrite ring_length. assert (forall q, (forall k, In k q -> In k axes) -> list_sum (map (fun k => length (ring_at n k)) q) = 2 * length q) as E.
    { induction q as [|k q IH]; intro Hq; cbn [map list_sum fold_right length]; auto. unfold list_sum in IH |- *. cbn [fold_right]. rewrite IH by (intros; apply Hq; right; auto).
      unfold ring_at. rewrite (proj2 (isin_In _ _) (Hq k (or_introl eq_refl))). destruct (up o L n k), (down o n k); cbn [app length]; lia. }
    rewrite E, seq_length; auto. intros k Hk. apply in_seq in Hk. apply H. lia.
  Qed.

  (** A translation by whole numbers of boxes. *)
  Definition wrapping (n : list Z) : Prop :=
    (exists k, k < d /\ nth k n 0%Z <> 0%Z) /\ forall k, k < d -> nth k n 0%Z = 0%Z \/ (In k axes /\ Z.abs (nth k n 0%Z) = nth k L 0%Z).

  Lemma wrapping_opp n : wrapping n -> wrapping (map Z.opp n).
  Proof.
    assert (forall k, nth k (map Z.opp n) 0%Z = (- nth k n 0)%Z) as E by (intro k; apply (map_nth Z.opp n 0%Z k)).
    intros [[k [Hk H]] Ha]. split; [exists k; split; auto; rewrite E; lia|]. intros i Hi. rewrite E. destruct (Ha i Hi) as [->|[H1 H2]]; [left; lia|right; split; auto; lia].
  Qed.

  (** A translated cell lies outside of the box and has at most one neighbour in it. *)
  Lemma wrapped_neighbour n I J : box d o L I -> box d o L J -> wrapping n -> (zs d (fun k => nth k J 0 - nth k I 0 - nth k n 0)%Z <= 1)%Z ->
    exists k, k < d /\ In k axes /\ nth k n 0%Z <> 0%Z /\ (forall b, b < d -> b <> k -> nth b n 0%Z = 0%Z /\ nth b I 0%Z = nth b J 0%Z) /\
      Z.abs (nth k n 0%Z) = nth k L 0%Z /\ Z.abs (nth k I 0 - nth k J 0)%Z = (nth k L 0 - 1)%Z /\
      nth k J 0%Z = (nth k I 0 + nth k n 0 - Z.sgn (nth k n 0%Z))%Z.
  Proof.
    intros HI HJ [[k [Hk Hn]] Ha] H.
    assert (forall b, b < d -> nth b n 0%Z <> 0%Z -> (nth b J 0 - nth b I 0 - nth b n 0 <> 0)%Z) as Hout.
    { intros b Hb Hb0. destruct (Ha b Hb) as [E|[_ E]]; [lia|]. specialize (HI b Hb). specialize (HJ b Hb). lia. }
    destruct (zs_one _ _ H) as [Z0|[a [Had [Hu Hz]]]]; [exfalso; apply (Hout k Hk Hn); apply Z0; auto|].
    assert (a = k) as ->. { destruct (Nat.eq_dec k a) as [|E]; auto. exfalso. apply (Hout k Hk Hn). apply Hz; auto. }
    cbv beta in Hu. exists k. destruct (Ha k Hk) as [E|[Hin E]]; [lia|]. split; auto. split; auto. split; auto.
    assert (forall b, b < d -> b <> k -> nth b n 0%Z = 0%Z) as Hz0.
    { intros b Hb Hbk. destruct (Z.eq_dec (nth b n 0%Z) 0) as [|Hne]; auto. exfalso. apply (Hout b Hb Hne). apply Hz; auto. }
    pose proof (HI k Hk) as HIk. pose proof (HJ k Hk) as HJk. specialize (H3 k Hin).
    split. { intros b Hb Hbk. split; auto. specialize (Hz b Hb Hbk). cbv beta in Hz. rewrite (Hz0 b Hb Hbk) in Hz. lia. }
    split; auto. split; lia.
  Qed.

  (** The other way round. *)
  Lemma wrap_translation k n I J : k < d -> nth k n 0%Z = nth k L 0%Z -> (forall b, b < d -> b <> k -> nth b n 0%Z = 0%Z) ->
    nth k J 0%Z = (nth k I 0 + nth k L 0 - 1)%Z -> (forall b, b < d -> b <> k -> nth b I 0%Z = nth b J 0%Z) ->
    zs d (fun k => nth k J 0 - nth k I 0 - nth k n 0)%Z = 1%Z.
  Proof.
    intros Hk E1 E2 E3 E4. apply (zs_unit d _ k); auto; [lia|]. intros b Hb Hbk. rewrite (E2 b Hb Hbk), (E4 b Hb Hbk). lia.
  Qed.
End Torus.

(** The translation vectors of a box. *)
Lemma In_pairs_diag {A} (l : list A) x : In x l -> In (x, x) (pairs_with_replacement l).
Proof.
  induction l as [|y l IH]; cbn; [tauto|]. intros [->|H]; auto. right. apply in_or_app. right. auto.
Qed.

Lemma all_some_pick {A B} (f : A -> option B) l ys x : all_some (map f l) = Some ys -> In x l -> exists y, f x = Some y /\ In y ys.
Proof.
  revert ys. induction l as [|z l IH]; intros ys H Hx; [destruct Hx|]. cbn in H. destruct (f z) as [y|] eqn:E; [|discriminate].
  destruct (all_some (map f l)) as [ys'|]; [|discriminate]. injection H as <-. destruct Hx as [->|Hx]; [exists y; split; auto; left; auto|].
  destruct (IH _ eq_refl Hx) as [y' [E1 E2]]. exists y'. split; auto. right. auto.
Qed.

Lemma all_some_from {A B} (f : A -> option B) l ys y : all_some (map f l) = Some ys -> In y ys -> exists x, In x l /\ f x = Some y.
Proof.
  revert ys. induction l as [|z l IH]; intros ys H Hy; cbn in H; [injection H as <-; destruct Hy|]. destruct (f z) as [y'|] eqn:E; [|discriminate].
  destruct (all_some (map f l)) as [ys'|]; [|discriminate]. injection H as <-. destruct Hy as [<-|Hy]; [exists z; split; auto; left; auto|].
  destruct (IH _ eq_refl Hy) as [x [E1 E2]]. exists x. split; auto. right. auto.
Qed.

Lemma nth_flip_tail v k : Z.abs (nth k (flip_tail v) 0%Z) = Z.abs (nth k v 0%Z).
Proof. destruct v as [|x v]; auto. destruct k as [|k]; cbn; auto. rewrite (map_nth Z.opp v 0%Z k : nth k (map Z.opp v) 0%Z = _). lia. Qed.

Lemma NoDup_below d l : NoDup l -> (forall a, In a l -> a < d) -> length l <= d.
Proof.
  intros H1 H2. rewrite <- (seq_length d 0). apply NoDup_incl_length; auto. intros x Hx. apply in_seq. specialize (H2 x Hx). lia.
Qed.

Lemma box_items d l L axes items : built d l -> lt_indices l <> [] -> (lt_primitive l = Some true \/ axis_aligned d (b_mat (lt_basis l))) ->
  (forall a, In a axes -> a < d) -> NoDup axes -> (forall a, In a axes -> (1 <= nth a L 0)%Z) -> (forall a, In a axes -> extent (lt_indices l) a (nth a L 0%Z)) ->
  periodic_translation_vectors (lt_basis l) (is_primitive l) (lt_indices l) axes = Some items ->
  (forall ax n, In (ax, n) items -> length n = d /\ length ax <= d /\ wrapping d L axes n /\ forall k, k < d -> nth k n 0%Z <> 0%Z <-> In k ax) /\
  (forall ax n, In (ax, n) items -> forall k, In k ax -> k < d) /\
  forall k, In k axes -> exists ax n, In (ax, n) items /\ nth k n 0%Z = nth k L 0%Z /\ forall b, b < d -> b <> k -> nth b n 0%Z = 0%Z.
Proof.
  intros B Hne Hpa Ha HN H3 Hext E.
  assert (forall ax v, (forall x, In x ax -> In x axes) -> ax <> [] -> translation_vector (lt_basis l) ax (is_primitive l) (lt_indices l) = Some v ->
    length v = d /\ (forall k, k < d -> nth k v 0%Z = if isin ax k then nth k L 0%Z else 0%Z)) as Hv.
  { intros ax v Hax Hax0 Ev. destruct (wraps_translation d l ax B Hne Hpa) as [v' [Ev' [Lv W]]]; [intros; apply Ha; auto|].
    rewrite Ev in Ev'. injection Ev' as <-. split; auto. intros k Hk. destruct (W k Hk) as [W1 W2]. destruct (isin ax k) eqn:Ei.
    - apply isin_In in Ei. eapply extent_unique; [apply W1; auto|]. apply Hext. auto.
    - apply isin_false in Ei. auto. }
  assert (forall ax v n, (forall x, In x ax -> In x axes) -> ax <> [] -> length ax <= d -> translation_vector (lt_basis l) ax (is_primitive l) (lt_indices l) = Some v ->
    n = v \/ n = flip_tail v -> (length n = d /\ length ax <= d /\ wrapping d L axes n /\ forall k, k < d -> nth k n 0%Z <> 0%Z <-> In k ax)) as Hw.
  { intros ax v n Hax Hax0 Lax Ev Hn. destruct (Hv ax v Hax Hax0 Ev) as [Lv Hk].
    assert (length n = d) as Ln by (destruct Hn as [->| ->]; rewrite ?flip_tail_length; auto).
    assert (forall k, k < d -> Z.abs (nth k n 0%Z) = if isin ax k then nth k L 0%Z else 0%Z) as Hk'.
    { intros k Hkd. replace (Z.abs (nth k n 0%Z)) with (Z.abs (nth k v 0%Z)) by (destruct Hn as [->| ->]; rewrite ?nth_flip_tail; auto).
      rewrite Hk by auto. destruct (isin ax k) eqn:Ei; auto. apply isin_In in Ei. specialize (H3 k (Hax k Ei)). lia. }
    assert (forall k, k < d -> nth k n 0%Z <> 0%Z <-> In k ax) as Hiff.
    { intros k Hkd. specialize (Hk' k Hkd). destruct (isin ax k) eqn:Ei.
      - apply isin_In in Ei. specialize (H3 k (Hax k Ei)). split; auto. intros _. lia.
      - apply isin_false in Ei. split; [lia|tauto]. }
    split; auto. split; auto. split; auto. split.
    - destruct ax as [|x ax]; [congruence|]. assert (x < d) as Hx by (apply Ha, Hax; left; auto). exists x. split; auto. apply Hiff; auto. left; auto.
    - intros k Hkd. specialize (Hk' k Hkd). destruct (isin ax k) eqn:Ei; [|left; lia]. apply isin_In in Ei. right. split; auto. }
  unfold periodic_translation_vectors in E.
  assert (forall a, axes = [a] -> option_map (fun v => [([a], v)]) (translation_vector (lt_basis l) [a] (is_primitive l) (lt_indices l)) = Some items ->
    (forall ax n, In (ax, n) items -> length n = d /\ length ax <= d /\ wrapping d L axes n /\ forall k, k < d -> nth k n 0%Z <> 0%Z <-> In k ax) /\
    (forall ax n, In (ax, n) items -> forall k, In k ax -> k < d) /\
    forall k, In k axes -> exists ax n, In (ax, n) items /\ nth k n 0%Z = nth k L 0%Z /\ forall b, b < d -> b <> k -> nth b n 0%Z = 0%Z) as K1.
  { intros a Ea E1. destruct (translation_vector (lt_basis l) [a] (is_primitive l) (lt_indices l)) as [v|] eqn:Ev; [|discriminate]. injection E1 as <-.
    assert (In a axes) as Hin by (rewrite Ea; left; auto).
    assert (forall x, In x [a] -> In x axes) as Hsub by (intros x [<-|[]]; auto).
    split; [|split].
    - intros ax n [H|[]]. injection H as <- <-. apply (Hw [a] v); auto; [discriminate|]. cbn. specialize (Ha a Hin). lia.
    - intros ax n [H|[]]. injection H as <- <-. intros k [<-|[]]. auto.
    - intros k Hk. rewrite Ea in Hk. destruct Hk as [<-|[]]. exists [a], v. split; [left; auto|].
      destruct (Hv [a] v Hsub ltac:(discriminate) Ev) as [Lv Hk']. split.
      + rewrite Hk' by auto. unfold isin. cbn. rewrite Nat.eqb_refl. auto.
      + intros b Hb Hba. rewrite Hk' by auto. unfold isin. cbn. rewrite (proj2 (Nat.eqb_neq _ _) Hba). auto. }
  assert (length axes <> 1 -> option_map (@concat _)
      (all_some (map (fun p : nat * nat =>
        let ax := [fst p; snd p] in
        option_map (fun v =>
          if forallb (Nat.eqb (nth 0 axes 0)) ax then [(ax, v)] else [(ax, v); (ax, flip_tail v)])
          (translation_vector (lt_basis l) ax (is_primitive l) (lt_indices l))) (pairs_with_replacement axes))) = Some items ->
    (forall ax n, In (ax, n) items -> length n = d /\ length ax <= d /\ wrapping d L axes n /\ forall k, k < d -> nth k n 0%Z <> 0%Z <-> In k ax) /\
    (forall ax n, In (ax, n) items -> forall k, In k ax -> k < d) /\
    forall k, In k axes -> exists ax n, In (ax, n) items /\ nth k n 0%Z = nth k L 0%Z /\ forall b, b < d -> b <> k -> nth b n 0%Z = 0%Z) as K2.
  { intros Hlen E2. destruct (all_some _) as [ys|] eqn:Eys; [|discriminate]. injection E2 as <-.
    assert (forall ax n, In (ax, n) (concat ys) -> exists a a' v, In a axes /\ In a' axes /\ ax = [a; a'] /\
      translation_vector (lt_basis l) [a; a'] (is_primitive l) (lt_indices l) = Some v /\ (n = v \/ n = flip_tail v)) as Hfrom.
    { intros ax n H. apply in_concat in H. destruct H as [its [H1 H2]]. destruct (all_some_from _ _ _ _ Eys H1) as [[a a'] [Hp Ef]]. cbn [fst snd] in Ef. cbv zeta in Ef.
      apply In_pairs_with_replacement in Hp. destruct (translation_vector (lt_basis l) [a; a'] _ _) as [v|] eqn:Ev; [|discriminate].
      cbn [option_map] in Ef. injection Ef as <-. exists a, a', v. split; [apply Hp|]. split; [apply Hp|].
      match type of H2 with context [if ?c then _ else _] => destruct c end; cbn in H2; [destruct H2 as [H2|[]]|destruct H2 as [H2|[H2|[]]]]; injection H2 as <- <-; auto. }
    split; [|split].
    - intros ax n H. destruct (Hfrom ax n H) as [a [a' [v [Hin [Hin' [-> [Ev Hn]]]]]]]. apply (Hw [a; a'] v); auto; [intros x [<-|[<-|[]]]; auto|discriminate|].
      pose proof (NoDup_below d axes HN Ha). cbn. destruct axes as [|x [|y r]]; [destruct Hin|cbn in Hlen; lia|cbn in *; lia].
    - intros ax n H. destruct (Hfrom ax n H) as [a [a' [v [Hin [Hin' [-> [Ev Hn]]]]]]]. intros k [<-|[<-|[]]]; auto.
    - intros k Hk. destruct (all_some_pick _ _ _ (k, k) Eys (In_pairs_diag _ _ Hk)) as [its [Ef Hits]]. cbn [fst snd] in Ef. cbv zeta in Ef.
      destruct (translation_vector (lt_basis l) [k; k] _ _) as [v|] eqn:Ev; [|discriminate]. cbn [option_map] in Ef. injection Ef as <-.
      exists [k; k], v. split.
      { apply in_concat. eexists. split; [exact Hits|]. match goal with |- context [if ?c then _ else _] => destruct c end; left; auto. }
      destruct (Hv [k; k] v ltac:(intros x [<-|[<-|[]]]; auto) ltac:(discriminate) Ev) as [Lv Hk']. split.
      + rewrite Hk' by auto. unfold isin. cbn. rewrite Nat.eqb_refl. auto.
      + intros b Hb Hba. rewrite Hk' by auto. unfold isin. cbn. rewrite (proj2 (Nat.eqb_neq _ _) Hba). auto. }
  destruct axes as [|a [|a' r]]; [apply K2; [cbn; lia|exact E]| |apply K2; [cbn; lia|exact E]]. apply (K1 a); auto.
Qed.
