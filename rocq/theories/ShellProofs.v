(** * Proofs about the shells of neighbours of the infinite lattice. *)
From Coq Require Import String List ZArith QArith Qabs Bool Arith Lia Lqa Permutation Sorting.Sorted.
From Verif Require Import Np NpFacts LinAlg LinFacts SpecUtils UtilsModel UtilsProofs SpecBasis AtomModel BasisModel BasisProofs
  NeighborCellProofs PropBasis SpecSpatial KDProofs SpecStructure StructureModel KDBrute RoundFacts StructureFacts
  AnalyzeProofs StructureProofs PropStructure PropAnalyze SpecShell.
Import ListNotations.
Open Scope nat_scope.
Open Scope list_scope.

(** ** Counting different rational numbers *)

Definition spread (l : list Q) : Prop := forall i j x y, i < j -> nth_error l i = Some x -> nth_error l j = Some y -> (x < y)%Q.

Lemma spread_NoDup l : spread l -> NoDup (map Qred l).
Proof.
  intro H. apply NoDup_nth_error. intros i j Hi E. rewrite map_length in Hi.
  destruct (nth_error_lt l i Hi) as [x Hx]. rewrite !nth_error_map, Hx in E. cbn in E.
  destruct (nth_error l j) as [y|] eqn:Hy; [|discriminate]. cbn in E. injection E as E.
  assert (x == y)%Q as E' by (rewrite <- (Qred_correct x), <- (Qred_correct y), E; reflexivity).
  destruct (Nat.lt_trichotomy i j) as [L|[L|L]]; auto; exfalso.
  - specialize (H i j x y L Hx Hy). lra.
  - specialize (H j i y x L Hy Hx). lra.
Qed.

Lemma spread_le l l' : spread l -> (forall x, In x l -> exists y, In y l' /\ (y == x)%Q) -> length l <= length l'.
Proof.
  intros H Hin. rewrite <- (map_length Qred l), <- (map_length Qred l'). apply NoDup_incl_length; [apply spread_NoDup; auto|].
  intros v Hv. apply in_map_iff in Hv. destruct Hv as [x [<- Hx]]. destruct (Hin x Hx) as [y [Hy E]].
  rewrite <- (Qred_complete _ _ E). apply in_map. auto.
Qed.

Lemma lists_values_length P l l' : lists_values P l -> lists_values P l' -> length l = length l'.
Proof.
  intros [H1 H2] [H1' H2']. apply Nat.le_antisymm; apply spread_le; try assumption; intros x Hx.
  - apply (proj1 (H2' x)), (proj2 (H2 x)). exists x. split; [auto|reflexivity].
  - apply (proj1 (H2 x)), (proj2 (H2' x)). exists x. split; [auto|reflexivity].
Qed.

Lemma spread_snoc l c : spread l -> (forall x, In x l -> (x < c)%Q) -> spread (l ++ [c]).
Proof.
  intros H Hc i j x y Hij Hx Hy. destruct (lt_dec j (length l)) as [Hj|Hj].
  - rewrite nth_error_app1 in Hx, Hy by lia. exact (H i j x y Hij Hx Hy).
  - pose proof (nth_error_length_lt _ _ _ Hy) as Hl. rewrite app_length in Hl. cbn in Hl. assert (j = length l) as -> by lia.
    rewrite nth_error_app2, Nat.sub_diag in Hy by lia. cbn in Hy. injection Hy as <-.
    rewrite nth_error_app1 in Hx by lia. apply Hc. eapply nth_error_In; eauto.
Qed.

Lemma filter_none {A} (p : A -> bool) l : (forall x, In x l -> p x = false) -> filter p l = [].
Proof. induction l as [|y l IH]; intro H; auto. cbn. rewrite (H y) by (left; auto). apply IH. intros x Hx. apply H. right. auto. Qed.

Lemma filter_weaker {A} (p p' : A -> bool) l : (forall x, p x = true -> p' x = true) -> length (filter p l) <= length (filter p' l).
Proof.
  intro H. induction l as [|y l IH]; auto. cbn. destruct (p y) eqn:E; [rewrite (H y E); cbn; lia|]. destruct (p' y); cbn; lia.
Qed.

(** ** The searched cells *)

Lemma in_box_zero d m : (0 <= m)%Z -> int_box d m (repeat 0%Z d).
Proof. intro. split; [apply repeat_length|]. intros k Hk. apply repeat_spec in Hk. lia. Qed.

Lemma cell_sq_nonneg d V n : (0 <= cell_sq d V n)%Q.
Proof. unfold cell_sq. apply sum_nonneg. intros. cbv zeta. nra. Qed.

Lemma reach_cells b m cells : valid_basis b -> 1 <= b_dim b -> get_neighbor_cells b (2 * m) true Qle_bool = Some cells ->
  forall n, In n cells <-> in_reach (b_dim b) (b_mat b) m n.
Proof.
  intros Hb Hd Ecells n.
  assert (forall x x' y y' : Q, (x == x' -> y == y' -> Qle_bool x y = Qle_bool x' y')%Q) as Hcmp.
  { intros x x' y y' E E'. apply eq_true_iff_eq. rewrite !Qle_bool_iff, E, E'. reflexivity. }
  destruct (C14_neighbor_cells b (2 * m) true Qle_bool Hb Hd Hcmp) as [cells' [cut [E [Hin [_ [_ [[smaller [lengths [Hsm [Hlen Hnum]]]] [nc [Hnc Ecut]]]]]]]]].
  rewrite Ecells in E. injection E as <-. replace (Z.of_nat (2 * m) + 1)%Z with (2 * Z.of_nat m + 1)%Z in * by lia.
  set (d := b_dim b) in *. set (V := b_mat b) in *. rewrite Hin. split.
  - intro H. assert (int_box d (2 * Z.of_nat m + 1) n /\ (cell_sq d V n <= cut)%Q) as [Hbox Hle].
    { destruct H as [[H1 [_ H2]]|[_ ->]]; [split; auto; apply Qle_bool_iff; auto|]. split; [apply in_box_zero; lia|].
      assert (cell_sq d V (repeat 0%Z d) == 0)%Q as ->; [|rewrite <- Ecut; apply cell_sq_nonneg].
      unfold cell_sq. apply sum_zero. intros i Hi. cbv zeta.
      assert (sum_upto d (fun k => entry V i k * inject_Z (nth k (repeat 0%Z d) 0%Z)) == 0)%Q as ->; [|ring].
      apply sum_zero. intros k Hk. rewrite nth_repeat. change (inject_Z 0) with 0%Q. ring. }
    split; auto. exists lengths. split; auto. intros l Hl Hsmall. rewrite <- Hnum. apply spread_le; auto.
    intros x Hx. destruct (Hsmall x Hx) as [n' [H1 [H2 H3]]]. apply Hsm. split; [lra|]. exists n'. auto.
  - intros [Hbox [lengths' [Hlen' Hfew]]]. rewrite (lists_values_length _ _ _ Hlen' Hlen), <- Hnum in Hfew.
    destruct (list_eq_dec Z.eq_dec n (repeat 0%Z d)) as [->|Hne]; [right; auto|]. left. split; auto. split; auto.
    apply Qle_bool_iff. apply Qnot_lt_le. intro Hlt. destruct Hsm as [Hsm1 Hsm2].
    assert (forall x, In x smaller -> (x < cut)%Q /\ exists n', int_box d (2 * Z.of_nat m + 1) n' /\ (cell_sq d V n' == x)%Q) as Hx.
    { intros x Hx. apply Hsm2. exists x. split; auto. reflexivity. }
    specialize (Hfew (smaller ++ [cut])). rewrite app_length in Hfew. cbn in Hfew.
    assert (length smaller + 1 <= length smaller); [|lia]. apply Hfew.
    + apply spread_snoc; auto. intros x Hxs. apply Hx. auto.
    + intros x Hxs. apply in_app_or in Hxs. destruct Hxs as [Hxs|[<-|[]]].
      * destruct (Hx x Hxs) as [H1 [n' [H2 H3]]]. exists n'. split; auto. split; auto. lra.
      * exists nc. auto.
Qed.

(** ** The first distances among the searched cells and anywhere *)

Section Truth.
  Variables (query : kd_tree) (b : basis) (R : list vec) (m : nat).
  Hypothesis Hq : correct_tree query.
  Hypothesis Hb : valid_basis b.
  Hypothesis Hd : 1 <= b_dim b.
  Hypothesis HR : forall r, In r R -> length r = b_dim b.
  Variable cells : list (list Z).
  Hypothesis Ecells : get_neighbor_cells b (2 * m) true Qle_bool = Some cells.
  Let d := b_dim b.
  Let V := b_mat b.

  Lemma cell_length n : In n cells -> length n = d.
  Proof. intro H. apply (reach_cells b m cells Hb Hd Ecells) in H. apply H. Qed.

  Lemma occurs_between a c z : occurs d V R cells a c (Fin z) -> distance_between d V R a c z.
  Proof.
    intros [H [n [Hn [z' [E Hz]]]]]. injection E as <-. split; [intros ->; apply H; auto|]. exists n. split; auto. apply cell_length. auto.
  Qed.

  Lemma occurs_listed a c : a < length R -> c < length R ->
    exists L, increasing dleb L /\ (forall x, In x L <-> occurs d V R cells a c x).
  Proof. intros Ha Hc. destruct (full_keys query b R m Hq Hb Hd HR cells Ecells a c Ha Hc) as [H1 H2]. eauto. Qed.

  Variables (a c k : nat).
  Hypothesis Ha : a < length R.
  Hypothesis Hc : c < length R.
  Hypothesis Hreach : forall n z i, away d V R a c n z -> i < k -> ranked (distance_between d V R a c) i z -> In n cells.

  Definition below (z : Z) (x : dist) : bool := match x with Fin y => (y <? z)%Z | Inf => false end.
  Definition micro (x : dist) : Z := match x with Fin y => y | Inf => 0%Z end.

  (** In an increasing list the number of entries below the [i]-th is [i]. *)
  Lemma below_nth L i z : increasing dleb L -> nth_error L i = Some (Fin z) -> filter (below z) L = firstn i L.
  Proof.
    unfold increasing. intro H. revert i. induction H as [|y L Hs IH Hf]; intros i E; [destruct i; discriminate|].
    rewrite Forall_forall in Hf. destruct i as [|i].
    - cbn in E. injection E as ->. cbn [firstn filter below]. rewrite Z.ltb_irrefl.
      apply filter_none. intros x Hx. destruct (Hf x Hx) as [H1 H2]. destruct x as [y|]; auto. cbn in H1 |- *. apply Z.leb_le in H1. apply Z.ltb_ge. auto.
    - cbn in E. pose proof (nth_error_In _ _ E) as Hin. destruct (Hf _ Hin) as [H1 H2]. cbn [firstn filter].
      destruct y as [y|]; [|discriminate]. cbn [below]. cbn in H1. apply Z.leb_le in H1.
      assert (y < z)%Z as Hlt by (assert (y <> z) by congruence; lia). apply Z.ltb_lt in Hlt. rewrite Hlt. f_equal. apply IH. auto.
  Qed.

  Lemma occurs_fin x : occurs d V R cells a c x -> exists z, x = Fin z.
  Proof. intros [_ [n [_ [z [-> _]]]]]. eauto. Qed.

  (** The values below [z] as numbers. *)
  Lemma below_list L z : increasing dleb L -> (forall x, In x L <-> occurs d V R cells a c x) ->
    NoDup (map micro (filter (below z) L)) /\
    forall y, In y (map micro (filter (below z) L)) <-> occurs d V R cells a c (Fin y) /\ (y < z)%Z.
  Proof.
    intros Hinc HL. split.
    - apply NoDup_map_in.
      + intros x y Hx Hy E. apply filter_In in Hx. apply filter_In in Hy. destruct Hx as [_ Hx], Hy as [_ Hy]. destruct x, y; try discriminate. cbn in E. congruence.
      + apply NoDup_filter. eapply increasing_NoDup; eauto.
    - intro y. rewrite in_map_iff. split.
      + intros [x [<- Hx]]. apply filter_In in Hx. destruct Hx as [Hx Hb']. destruct x as [x|]; [|discriminate]. cbn in *. split; [apply HL; auto|apply Z.ltb_lt; auto].
      + intros [Hy Hlt]. exists (Fin y). split; auto. apply filter_In. split; [apply HL; auto|apply Z.ltb_lt; auto].
  Qed.


  (** As long as fewer than [k] distances are found, all distances are found. *)
  Lemma all_found L : increasing dleb L -> (forall x, In x L <-> occurs d V R cells a c x) ->
    forall z, length (filter (below z) L) < k ->
      forall y, (y <= z)%Z -> distance_between d V R a c y -> occurs d V R cells a c (Fin y).
  Proof.
    intros Hinc HL z Hk.
    assert (forall y, distance_between d V R a c y -> (0 < y)%Z) as Hpos.
    { intros y [Hne [n [_ [H _]]]]. lia. }
    assert (forall t, (0 <= t)%Z -> forall y, (y <= t)%Z -> (y <= z)%Z -> distance_between d V R a c y -> occurs d V R cells a c (Fin y)) as H.
    2:{ intros y Hy Hdb. apply (H y); auto; try lia. specialize (Hpos y Hdb). lia. }
    intros t Ht. pattern t. apply natlike_ind; auto; clear t Ht.
    - intros y Hy _ Hdb. specialize (Hpos y Hdb). lia.
    - intros t Ht IH y Hyt Hyz Hdb. destruct (Z.le_gt_cases y t) as [C|C]; [apply IH; auto|].
      destruct (below_list L y Hinc HL) as [N1 N2]. pose proof Hdb as [Hne [n Hn]].
      assert (In n cells) as Hin.
      { apply (Hreach n y (length (map micro (filter (below y) L))) Hn).
        - rewrite map_length. eapply Nat.le_lt_trans; [|exact Hk]. apply filter_weaker. intros x Hx. destruct x as [x|]; [|discriminate].
          cbn in *. apply Z.ltb_lt in Hx. apply Z.ltb_lt. lia.
        - split; auto. eexists. split; [exact N1|]. split; auto. intro x. rewrite N2. split.
          + intros [Ho Hx]. split; auto. apply occurs_between. auto.
          + intros [Ho Hx]. split; auto. apply IH; auto; lia. }
      split; [congruence|]. exists n. split; auto. exists y. split; auto. apply Hn.
  Qed.

  Lemma first_distances z : among_first k (occurs d V R cells a c) (Fin z) <->
    exists i, i < k /\ ranked (distance_between d V R a c) i z.
  Proof.
    destruct (occurs_listed a c Ha Hc) as [L [Hinc HL]]. split.
    - intros [L' [Hinc' [HL' [i [Hi E]]]]].
      assert (L' = L) as -> by (eapply (strict_unique dleb); eauto using dleb_antisym; intro y; rewrite HL, HL'; reflexivity).
      pose proof (below_nth L i z Hinc E) as Ef. pose proof (nth_error_length_lt _ _ _ E) as Hl.
      assert (length (filter (below z) L) = i) as En by (rewrite Ef, firstn_length; lia).
      exists i. split; auto. split; [apply occurs_between, HL; eapply nth_error_In; eauto|].
      destruct (below_list L z Hinc HL) as [N1 N2]. eexists. split; [exact N1|]. split; [|rewrite map_length; auto].
      intro y. rewrite N2. split; intros [Ho Hy]; split; auto; [apply occurs_between; auto|].
      apply (all_found L Hinc HL z); auto; lia.
    - intros [i [Hi Hr]]. pose proof Hr as [[Hne [n Hn]] [Ls [N1 [N2 N3]]]].
      assert (In n cells) as Hin by (eapply Hreach; eauto).
      assert (In (Fin z) L) as HzL by (apply HL; split; [congruence|]; exists n; split; auto; exists z; split; auto; apply Hn).
      apply In_nth_error in HzL. destruct HzL as [j Hj]. exists L. split; auto. split; auto. exists j. split; auto.
      pose proof (below_nth L j z Hinc Hj) as Ef. pose proof (nth_error_length_lt _ _ _ Hj) as Hl.
      destruct (below_list L z Hinc HL) as [M1 M2]. eapply Nat.le_lt_trans; [|exact Hi]. rewrite <- N3.
      replace j with (length (map micro (filter (below z) L))) by (rewrite map_length, Ef, firstn_length; lia).
      apply NoDup_incl_length; auto. intros y Hy. apply M2 in Hy. apply N2. split; [apply occurs_between|]; apply Hy.
  Qed.
End Truth.
