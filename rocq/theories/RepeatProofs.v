(** * The sites of a lattice after appending and repeating *)
From Coq Require Import String List ZArith QArith Bool Arith Lia Permutation.
From Verif Require Import Np NpFacts LinAlg LinFacts AtomModel BasisModel SpatialModel ShapeModel StructureModel DataModel
  SpecUtils SpecBasis SpecStructure SpecBuild SpecData SpecLattice BasisProofs StructureFacts DataFacts DataOps DataProofs StructureProofs TranslationFacts
  LatticeModel PropMinDist.
Import ListNotations.
Open Scope nat_scope.
Open Scope list_scope.

(** The sites: indices with positions. *)
Definition lsites (l : lattice) : list (list Z * vec) := combine (lt_indices l) (lt_positions l).

(** A copy of a site translated by [n]. *)
Definition copied (b : basis) (n : list Z) (s : list Z * vec) : list Z * vec :=
  (shift_index n (fst s), vadd (snd s) (translate b n (vzero (b_dim b)))).

Lemma combine_map {A B C D} (f : A -> C) (g : B -> D) l m : combine (map f l) (map g m) = map (fun p => (f (fst p), g (snd p))) (combine l m).
Proof. revert m. induction l as [|a l IH]; intros [|b m]; cbn; auto. rewrite IH. reflexivity. Qed.

Lemma combine_app' {A B} (l1 l2 : list A) (m1 m2 : list B) : length l1 = length m1 -> combine (l1 ++ l2) (m1 ++ m2) = combine l1 m1 ++ combine l2 m2.
Proof. revert m1. induction l1 as [|a l1 IH]; intros [|b m1] H; try discriminate; cbn; auto. rewrite IH; auto. Qed.

Lemma map_nth_seq {A} (x : A) l : map (fun i => nth i l x) (seq 0 (length l)) = l.
Proof.
  apply nth_ext with (d := x) (d' := x); [rewrite map_length, seq_length; auto|]. intros k Hk. rewrite map_length, seq_length in Hk.
  rewrite (nth_map_in _ _ _ 0) by (rewrite seq_length; auto). rewrite seq_nth; auto.
Qed.

Lemma sort_sites d a rv d' : DataModel.sort d (Some a) None rv = Some d' -> length (d_indices d) = length (d_positions d) ->
  length (d_indices d') = length (d_positions d') /\
  Permutation (combine (d_indices d') (d_positions d')) (combine (d_indices d) (d_positions d)).
Proof.
  unfold DataModel.sort. destruct (a <? S (d_dim d)); [|discriminate]. set (idx0 := argsort_stable _ _ _).
  set (idx := if rv then rev idx0 else idx0). destruct (forallb _ idx); [|discriminate]. intros H L. injection H as <-. cbn.
  assert (Permutation idx (seq 0 (length (d_indices d)))) as HP.
  { assert (Permutation idx0 (seq 0 (length (d_indices d)))) as H0. { unfold idx0. rewrite argsort_stable_perm, map_length. reflexivity. }
    unfold idx. destruct rv; auto. rewrite <- Permutation_rev. auto. }
  unfold take. split; [rewrite !map_length; auto|]. unfold vec in *.
  assert (combine (map (fun i => nth i (d_indices d) []) idx) (map (fun i => nth i (d_positions d) []) idx) =
          map (fun i => (nth i (d_indices d) [], nth i (d_positions d) [])) idx) as EC.
  { rewrite combine_map. clear. induction idx as [|i idx IH]; cbn; auto. rewrite IH. auto. }
  match goal with |- Permutation ?x _ => change x with (combine (map (fun i => nth i (d_indices d) []) idx) (map (fun i => nth i (d_positions d) []) idx)) end.
  rewrite EC, HP. apply Permutation_refl'.
  transitivity (map (fun i => nth i (combine (d_indices d) (d_positions d)) ([], [])) (seq 0 (length (d_indices d)))).
  - apply map_ext_in. intros i _. symmetry. apply combine_nth. auto.
  - etransitivity; [|apply (map_nth_seq ([], []) (combine (d_indices d) (d_positions d)))]. rewrite combine_length. f_equal. f_equal. unfold vec in *. lia.
Qed.

Lemma add_neighbor_sites d i j x d' : add_neighbor d i j x = Some d' -> d_indices d' = d_indices d /\ d_positions d' = d_positions d.
Proof.
  unfold add_neighbor. destruct (nth_error (d_distances d) i); [|discriminate]. destruct (put_row _ _ _ _); [|discriminate].
  destruct (put_row _ _ _ _); [|discriminate]. intro H. injection H as <-. auto.
Qed.

Lemma add_connecting_sites offset pairs : forall d d', add_connecting offset d pairs = Some d' -> d_indices d' = d_indices d /\ d_positions d' = d_positions d.
Proof.
  induction pairs as [|[[i j] q] pairs IH]; cbn; intros d d' H; [injection H as <-; auto|].
  destruct (add_neighbor d i (j + offset) _) as [d1|] eqn:E1; [|discriminate]. destruct (add_neighbor d1 (j + offset) i _) as [d2|] eqn:E2; [|discriminate].
  apply IH in H. apply add_neighbor_sites in E1. apply add_neighbor_sites in E2. destruct H, E1, E2. split; congruence.
Qed.

Lemma append_sites argsort w1 w2 w3 d I2 P2 N2 D2 d' : append argsort w1 w2 w3 d I2 P2 N2 D2 = Some d' ->
  d_indices d' = d_indices d ++ I2 /\ d_positions d' = d_positions d ++ P2.
Proof.
  unfold append. destruct (call_remove_periodic d); [|discriminate]. destruct (concat N2); [discriminate|].
  destruct (append_arrays w1 w2 w3 false d I2 P2 N2 D2) as [m [[[ind pos] nbs] ds]] eqn:E. unfold append_arrays in E. injection E as _ <- <- _ _.
  unfold data_set. destruct (UtilsModel.create_lookup_table2 _ _ _) as [? ?]. destruct (nat_max _); [|discriminate]. cbn. intro H. injection H as <-. auto.
Qed.

Definition directed (side : Z) (n : list Z) : list Z := if (0 <? side)%Z then n else neg n.

Lemma append_section_sites ball argsort w l sec ax side sort_axis rv prim l' :
  append_section ball argsort w l sec ax side sort_axis rv prim = Some l' ->
  length (lt_indices l) = length (lt_positions l) -> length (sec_indices sec) = length (sec_positions sec) ->
  lt_structure l' = lt_structure l /\ lt_primitive l' = lt_primitive l /\ lt_axes l' = lt_axes l /\
  length (lt_indices l') = length (lt_positions l') /\
  exists n, translation_vector (lt_basis l) [ax] prim (if (0 <? side)%Z then lt_indices l else sec_indices sec) = Some n /\
    Permutation (lsites l') (lsites l ++ map (copied (lt_basis l) (directed side n)) (combine (sec_indices sec) (sec_positions sec))) /\
    (sort_axis = None -> lt_indices l' = lt_indices l ++ map (shift_index (directed side n)) (sec_indices sec) /\
       lsites l' = lsites l ++ map (copied (lt_basis l) (directed side n)) (combine (sec_indices sec) (sec_positions sec))).
Proof.
  unfold append_section. unfold lsites. destruct (lt_data l) as [d|] eqn:Ed; [|discriminate].
  assert (lt_indices l = d_indices d /\ lt_positions l = d_positions d) as [EI EP] by (unfold lt_indices, lt_positions; rewrite Ed; auto).
  rewrite !EI, !EP.
  destruct (st_analysis (lt_structure l)) as [an|]; [|discriminate].
  destruct (translation_vector (lt_basis l) [ax] prim (if (0 <? side)%Z then d_indices d else sec_indices sec)) as [n|]; [|discriminate].
  fold (directed side n). set (n' := directed side n).
  destruct (append _ _ _ _ _ _ _ _ _) as [d1|] eqn:E1; [|discriminate]. destruct (connection_neighbors _ _ _ _) as [pairs|]; [|discriminate].
  destruct (add_connecting _ d1 pairs) as [d2|] eqn:E2; [|discriminate].
  apply append_sites in E1. destruct E1 as [I1 P1]. apply add_connecting_sites in E2. destruct E2 as [I2 P2]. rewrite I1 in I2. rewrite P1 in P2.
  destruct (match sort_axis with None => Some d2 | Some a => DataModel.sort d2 (Some a) None rv end) as [d3|] eqn:E3; [|discriminate].
  intros H L Ls. injection H as <-.
  assert (length (d_indices d2) = length (d_positions d2)) as L2. { rewrite I2, P2, !app_length, !map_length. lia. }
  assert (length (d_indices d3) = length (d_positions d3) /\ Permutation (combine (d_indices d3) (d_positions d3)) (combine (d_indices d2) (d_positions d2)) /\
    (sort_axis = None -> d3 = d2)) as [L3 [HP3 Hn]].
  { destruct sort_axis as [a|]; [|injection E3 as <-; auto]. destruct (sort_sites _ _ _ _ E3 L2). repeat split; auto. discriminate. }
  assert (forall x, lt_indices (update_shape (set_data x (Some d3))) = d_indices d3 /\ lt_positions (update_shape (set_data x (Some d3))) = d_positions d3 /\
    lt_structure (update_shape (set_data x (Some d3))) = lt_structure x /\ lt_primitive (update_shape (set_data x (Some d3))) = lt_primitive x /\
    lt_axes (update_shape (set_data x (Some d3))) = lt_axes x) as HU.
  { intro x. unfold update_shape. destruct (limits (set_data x (Some d3))); cbn; auto 10. }
  destruct (HU l) as [-> [-> [-> [-> ->]]]]. do 3 (split; [reflexivity|]). split; [exact L3|]. exists n. split; auto.
  assert (combine (d_indices d2) (d_positions d2) = combine (d_indices d) (d_positions d) ++ map (copied (lt_basis l) n') (combine (sec_indices sec) (sec_positions sec))) as E.
  { rewrite I2, P2, combine_app' by auto. f_equal. rewrite combine_map. reflexivity. }
  split; [rewrite HP3, E; reflexivity|]. intro H. rewrite (Hn H). split; auto.
Qed.

(** The vector with one non-zero entry. *)
Definition unit (d ax : nat) (z : Z) : list Z := map (fun k => if k =? ax then z else 0%Z) (seq 0 d).

Lemma unit_length d ax z : length (unit d ax z) = d.
Proof. unfold unit. rewrite map_length, seq_length. reflexivity. Qed.

Lemma nth_unit d ax z k : k < d -> nth k (unit d ax z) 0%Z = if k =? ax then z else 0%Z.
Proof. intro H. unfold unit. rewrite (nth_map_in _ _ _ 0) by (rewrite seq_length; auto). rewrite seq_nth; auto. Qed.

Lemma wraps_unit d indices ax v e : ax < d -> wraps d indices [ax] v -> extent indices ax e -> v = unit d ax e.
Proof.
  intros Ha [L W] E. apply (nth_ext v (unit d ax e) 0%Z 0%Z); [rewrite unit_length; auto|]. intros k Hk. rewrite L in Hk. rewrite nth_unit by auto.
  destruct (W k Hk) as [W1 W2]. destruct (Nat.eqb_spec k ax) as [->|Hne].
  - eapply extent_unique; [apply W1; left; auto|auto].
  - apply W2. intros [->|[]]. congruence.
Qed.

Lemma split_index (i : list Z) d : length i = S d -> exists c a, i = c ++ [a] /\ length c = d.
Proof.
  intro H. destruct (exists_last (l := i)) as [c [a ->]]; [intros ->; discriminate|]. exists c, a. rewrite app_length in H. cbn in H. split; auto. lia.
Qed.

Lemma shift_index_app n c a : shift_index n (c ++ [a]) = map2 Z.add c n ++ [a].
Proof. unfold shift_index. unfold site_cell. rewrite removelast_last, last_last. reflexivity. Qed.

Lemma shift_index_length n i d : length i = S d -> length n = d -> length (shift_index n i) = S d.
Proof. intros H1 H2. destruct (split_index i d H1) as [c [a [-> L]]]. rewrite shift_index_app, app_length, DataFacts.map2_length. cbn. lia. Qed.

Lemma nth_shift_index n i d k : length i = S d -> length n = d -> nth k (shift_index n i) 0%Z = (nth k i 0 + nth k n 0)%Z.
Proof.
  intros H1 H2. destruct (split_index i d H1) as [c [a [-> L]]]. rewrite shift_index_app.
  assert (length (map2 Z.add c n) = d) as L2 by (rewrite DataFacts.map2_length; lia).
  destruct (Nat.lt_ge_cases k d) as [Hk|Hk].
  - rewrite !app_nth1 by lia. apply (nth_map2 Z.add c n k 0%Z 0%Z 0%Z); lia.
  - rewrite !app_nth2 by lia. rewrite L2, L. rewrite (nth_overflow n) by lia. lia.
Qed.

(** The extent of sites that are repeated [k] times. *)
Lemma extent_perm I J a e : Permutation I J -> extent I a e -> extent J a e.
Proof.
  intros HP [lo [hi [-> [[i [Hi Ei]] [[j [Hj Ej]] H]]]]]. exists lo, hi. split; auto.
  split; [exists i; split; auto; apply (Permutation_in _ HP Hi)|]. split; [exists j; split; auto; apply (Permutation_in _ HP Hj)|].
  intros x Hx. apply H. apply (Permutation_in _ (Permutation_sym HP) Hx).
Qed.

Definition copies {A} (f : nat -> A -> A) (k : nat) (l : list A) : list A := l ++ flat_map (fun j => map (f j) l) (seq 1 k).

Lemma In_copies {A} (f : nat -> A -> A) k l x : In x (copies f k l) <-> In x l \/ exists j y, 1 <= j <= k /\ In y l /\ x = f j y.
Proof.
  unfold copies. rewrite in_app_iff, in_flat_map. split.
  - intros [H|[j [Hj H]]]; auto. right. apply in_seq in Hj. apply in_map_iff in H. destruct H as [y [<- Hy]]. exists j, y. split; [lia|auto].
  - intros [H|[j [y [Hj [Hy ->]]]]]; auto. right. exists j. split; [apply in_seq; lia|]. apply in_map. auto.
Qed.

Lemma copies_S {A} (f : nat -> A -> A) k l : copies f (S k) l = copies f k l ++ map (f (S k)) l.
Proof. unfold copies. rewrite seq_S, flat_map_app. cbn [flat_map]. rewrite app_nil_r, <- app_assoc. reflexivity. Qed.

Lemma copies_length {A} (f : nat -> A -> A) k l : length (copies f k l) = S k * length l.
Proof.
  induction k as [|k IH]; [unfold copies; cbn; rewrite app_nil_r; lia|]. rewrite copies_S, app_length, IH, map_length. cbn. lia.
Qed.

Lemma map_copies {A B} (g : A -> B) f h k l : (forall j x, g (f j x) = h j (g x)) -> map g (copies f k l) = copies h k (map g l).
Proof.
  intro H. induction k as [|k IH]; [unfold copies; cbn; rewrite !app_nil_r; auto|]. rewrite !copies_S, map_app, IH. f_equal. rewrite !map_map.
  apply map_ext. intro x. apply H.
Qed.

Lemma extent_copies d I a e k : a < d -> (forall i, In i I -> length i = S d) -> extent I a e ->
  extent (copies (fun j => shift_index (unit d a (Z.of_nat j * e))) k I) a (Z.of_nat (S k) * e).
Proof.
  intros Ha HI [lo [hi [-> [[i [Hi Ei]] [[j [Hj Ej]] H]]]]]. set (e := (hi - lo + 1)%Z).
  assert (0 < e)%Z as He by (unfold e; pose proof (H i Hi); lia).
  assert (forall n x, In x I -> nth a (shift_index (unit d a (Z.of_nat n * e)) x) 0%Z = (nth a x 0 + Z.of_nat n * e)%Z) as Hs.
  { intros n x Hx. rewrite (nth_shift_index _ _ d) by (auto using unit_length). rewrite nth_unit by auto. rewrite Nat.eqb_refl. reflexivity. }
  exists lo, (hi + Z.of_nat k * e)%Z. split; [unfold e; nia|]. split; [exists i; split; auto; apply In_copies; auto|]. split.
  - destruct k as [|k].
    + exists j. split; [apply In_copies; auto|]. cbn. lia.
    + exists (shift_index (unit d a (Z.of_nat (S k) * e)) j). split; [apply In_copies; right; exists (S k), j; repeat split; auto; lia|]. rewrite Hs, Ej; auto.
  - intros x Hx. apply In_copies in Hx. destruct Hx as [Hx|[n [y [Hn [Hy ->]]]]].
    + pose proof (H x Hx). nia.
    + rewrite Hs by auto. pose proof (H y Hy). nia.
Qed.

Lemma NoDup_app' {A} (l m : list A) : NoDup l -> NoDup m -> (forall x, In x l -> ~ In x m) -> NoDup (l ++ m).
Proof.
  induction 1 as [|x l Hx Hl IH]; cbn; auto. intros Hm H. constructor.
  - rewrite in_app_iff. intros [K|K]; auto. apply (H x); auto.
  - apply IH; auto.
Qed.

Lemma shift_index_inj d n i j : length n = d -> length i = S d -> length j = S d -> shift_index n i = shift_index n j -> i = j.
Proof.
  intros Hn Hi Hj E. apply (nth_ext i j 0%Z 0%Z); [congruence|]. intros k _. apply (f_equal (fun l => nth k l 0%Z)) in E.
  rewrite !(nth_shift_index _ _ d) in E by auto. lia.
Qed.

Lemma NoDup_shift d n I : length n = d -> (forall i, In i I -> length i = S d) -> NoDup I -> NoDup (map (shift_index n) I).
Proof.
  intros Hn HI. induction 1 as [|x l Hx Hl IH]; cbn; constructor.
  - rewrite in_map_iff. intros [y [E Hy]]. apply Hx. rewrite <- (shift_index_inj d n y x); auto; apply HI; [right|left]; auto.
  - apply IH. intros. apply HI. right. auto.
Qed.

Lemma NoDup_copies d I a e k : a < d -> (forall i, In i I -> length i = S d) -> extent I a e -> NoDup I ->
  NoDup (copies (fun j => shift_index (unit d a (Z.of_nat j * e))) k I).
Proof.
  intros Ha HI He Hnd. induction k as [|k IH]; [unfold copies; cbn; rewrite app_nil_r; auto|].
  rewrite copies_S. apply NoDup_app'; auto; [apply (NoDup_shift d); auto using unit_length|].
  intros x H1 H2. destruct (extent_copies d I a e k Ha HI He) as [lo [hi [E [[i [Hi Ei]] [_ H]]]]].
  apply in_map_iff in H2. destruct H2 as [y [<- Hy]]. pose proof (H _ H1) as B1.
  rewrite (nth_shift_index _ _ d) in B1 by (auto using unit_length). rewrite nth_unit, Nat.eqb_refl in B1 by auto.
  assert (In y (copies (fun j => shift_index (unit d a (Z.of_nat j * e))) k I)) as Hy' by (apply In_copies; auto).
  pose proof (H _ Hy'). nia.
Qed.

Lemma sec_sites l d : lt_data l = Some d -> sec_indices (data_section d) = lt_indices l /\ sec_positions (data_section d) = lt_positions l.
Proof. unfold lt_indices, lt_positions. intros ->. auto. Qed.

Lemma map_fst_lsites l : length (lt_indices l) = length (lt_positions l) -> map fst (lsites l) = lt_indices l.
Proof.
  unfold lsites. generalize (lt_positions l). induction (lt_indices l) as [|i I IH]; intros [|p P] H; try discriminate; cbn; auto. rewrite IH; auto.
Qed.

Section Loop.
  Context (ball : list vec -> list vec -> Q -> list (list nat)) (argsort : list dist -> list nat).
  Context (d : nat) (l0 : lattice) (B : built d l0) (ax : nat) (Ha : ax < d) (e : Z) (He : extent (lt_indices l0) ax e).
  Context (Hal : lt_primitive l0 = Some true \/ axis_aligned d (b_mat (lt_basis l0))).
  Context (sort_axis : option nat) (rv : bool).

  Lemma some_vector I : I <> [] -> (forall i, In i I -> length i = S d) ->
    exists v, translation_vector (lt_basis l0) [ax] (is_primitive l0) I = Some v /\ wraps d I [ax] v.
  Proof.
    intros Hne HI. pose proof (bt_dim _ _ B) as Hd. assert (forall a, In a [ax] -> a < d) as Hax by (intros a [<-|[]]; auto).
    destruct (is_primitive l0) eqn:Epr.
    - rewrite <- Hd. apply translation_vector_primitive; rewrite ?Hd; auto.
    - destruct Hal as [H|H]; [unfold is_primitive in Epr; rewrite H in Epr; discriminate|]. apply translation_vector_aligned; auto. apply (bt_basis _ _ B).
  Qed.

  Lemma sites_nonempty : lt_indices l0 <> [].
  Proof. destruct He as [lo [hi [_ [[i [Hi _]] _]]]]. intro E. rewrite E in Hi. destruct Hi. Qed.

  Let b := lt_basis l0.
  Let right_copy j := copied b (unit d ax (Z.of_nat j * e)).
  Let left_copy (j : nat) := copied b (neg (unit d ax e)).

  Definition section_like (sec : section) : Prop := sec_indices sec = lt_indices l0 /\ sec_positions sec = lt_positions l0.

  (** After [k] rounds. *)
  Definition repeated (f : nat -> list Z * vec -> list Z * vec) (k : nat) (l : lattice) : Prop :=
    lt_structure l = lt_structure l0 /\ lt_primitive l = lt_primitive l0 /\ length (lt_indices l) = length (lt_positions l) /\
    Permutation (lsites l) (copies f k (lsites l0)) /\ (sort_axis = None -> lsites l = copies f k (lsites l0)).

  Lemma repeated_right_indices k l : repeated right_copy k l ->
    Permutation (lt_indices l) (copies (fun j => shift_index (unit d ax (Z.of_nat j * e))) k (lt_indices l0)).
  Proof.
    intros [_ [_ [L [P _]]]]. rewrite <- (map_fst_lsites l L). apply (Permutation_map fst) in P. rewrite P.
    rewrite (map_copies fst right_copy (fun j => shift_index (unit d ax (Z.of_nat j * e)))) by reflexivity.
    rewrite map_fst_lsites by apply (bt_sites _ _ B). reflexivity.
  Qed.

  Lemma same_vector l : lt_structure l = lt_structure l0 -> lt_primitive l = lt_primitive l0 ->
    lt_basis l = b /\ is_primitive l = is_primitive l0.
  Proof. intros H1 H2. unfold lt_basis, is_primitive, b. rewrite H1, H2. auto. Qed.

  Lemma right_loop side ws : (0 < side)%Z -> forall k l sec later l', section_like sec -> section_like later -> repeated right_copy k l ->
    repeat_loop ball argsort ws l sec later ax side sort_axis rv = Some l' -> repeated right_copy (k + length ws) l'.
  Proof.
    intro Hside. induction ws as [|w ws IH]; intros k l sec later l' Hsec Hlater R H; cbn [repeat_loop] in H.
    - injection H as <-. cbn. rewrite Nat.add_0_r. auto.
    - destruct (append_section ball argsort w l sec ax side sort_axis rv (is_primitive l)) as [l1|] eqn:E; [|discriminate].
      cbn [length]. replace (k + S (length ws)) with (S k + length ws) by lia. apply (IH (S k) l1 later later l'); auto. clear IH H.
      pose proof (repeated_right_indices k l R) as PI. destruct R as [R1 [R2 [R3 [R4 R5]]]]. destruct (same_vector l R1 R2) as [Eb Ep].
      destruct Hsec as [S1 S2].
      destruct (append_section_sites _ _ _ _ _ _ _ _ _ _ _ E R3) as [A1 [A2 [_ [A4 [n [En [A5 A6]]]]]]].
      { rewrite S1, S2. apply (bt_sites _ _ B). }
      destruct (0 <? side)%Z eqn:Es; [|apply Z.ltb_ge in Es; lia].
      assert (n = unit d ax (Z.of_nat (S k) * e)) as ->.
      { destruct (some_vector (lt_indices l)) as [v [Ev Wv]].
        - intro E0. rewrite E0 in PI. apply Permutation_nil in PI. unfold copies in PI. apply app_eq_nil in PI. destruct PI as [PI _]. apply (sites_nonempty PI).
        - intros i Hi. apply (Permutation_in _ PI) in Hi. apply In_copies in Hi. destruct Hi as [Hi|[j [y [_ [Hy ->]]]]].
          + apply (bt_indices _ _ B); auto.
          + apply shift_index_length; [apply (bt_indices _ _ B); auto|apply unit_length].
        - rewrite Eb, Ep in En. fold b in Ev. rewrite Ev in En. injection En as ->. apply (wraps_unit d (lt_indices l)); auto.
          apply (extent_perm _ _ _ _ (Permutation_sym PI)). apply extent_copies; auto. apply (bt_indices _ _ B). }
      unfold directed in A5, A6. rewrite Es in A5, A6. rewrite S1, S2, Eb in A5, A6. fold (lsites l0) in A5, A6.
      split; [congruence|]. split; [congruence|]. split; auto. split.
      + rewrite A5, R4, copies_S. reflexivity.
      + intro Hs. destruct (A6 Hs) as [_ ->]. rewrite (R5 Hs), copies_S. reflexivity.
  Qed.

  Lemma left_loop side ws : (side <= 0)%Z -> forall k l sec later l', section_like sec -> section_like later -> repeated left_copy k l ->
    repeat_loop ball argsort ws l sec later ax side sort_axis rv = Some l' -> repeated left_copy (k + length ws) l'.
  Proof.
    intro Hside. induction ws as [|w ws IH]; intros k l sec later l' Hsec Hlater R H; cbn [repeat_loop] in H.
    - injection H as <-. cbn. rewrite Nat.add_0_r. auto.
    - destruct (append_section ball argsort w l sec ax side sort_axis rv (is_primitive l)) as [l1|] eqn:E; [|discriminate].
      cbn [length]. replace (k + S (length ws)) with (S k + length ws) by lia. apply (IH (S k) l1 later later l'); auto. clear IH H.
      destruct R as [R1 [R2 [R3 [R4 R5]]]]. destruct (same_vector l R1 R2) as [Eb Ep].
      destruct Hsec as [S1 S2].
      destruct (append_section_sites _ _ _ _ _ _ _ _ _ _ _ E R3) as [A1 [A2 [_ [A4 [n [En [A5 A6]]]]]]].
      { rewrite S1, S2. apply (bt_sites _ _ B). }
      destruct (0 <? side)%Z eqn:Es; [apply Z.ltb_lt in Es; lia|].
      assert (n = unit d ax e) as ->.
      { destruct (some_vector (lt_indices l0) sites_nonempty (bt_indices _ _ B)) as [v [Ev Wv]].
        rewrite Eb, Ep, S1 in En. fold b in Ev. rewrite Ev in En. injection En as ->. apply (wraps_unit d (lt_indices l0)); auto. }
      unfold directed in A5, A6. rewrite Es in A5, A6. rewrite S1, S2, Eb in A5, A6. fold (lsites l0) in A5, A6.
      split; [congruence|]. split; [congruence|]. split; auto. split.
      + rewrite A5, R4, copies_S. reflexivity.
      + intro Hs. destruct (A6 Hs) as [_ ->]. rewrite (R5 Hs), copies_S. reflexivity.
  Qed.

  Lemma repeated_0 f : repeated f 0 l0.
  Proof. repeat split; auto; try apply (bt_sites _ _ B); unfold copies; cbn; rewrite app_nil_r; reflexivity. Qed.

  Lemma repeat_sites ws side l' : repeat_lattice ball argsort ws l0 ax side sort_axis rv = Some l' ->
    repeated (if (0 <? side)%Z then right_copy else left_copy) (length ws) l'.
  Proof.
    unfold repeat_lattice. destruct (lt_data l0) as [dt|] eqn:Ed; [|discriminate]. intro H.
    destruct (sec_sites l0 dt Ed) as [E1 E2].
    destruct (0 <? side)%Z eqn:Es.
    - apply Z.ltb_lt in Es. refine (right_loop side ws Es 0 l0 _ _ l' _ _ (repeated_0 _) H); split; auto.
    - apply Z.ltb_ge in Es. refine (left_loop side ws Es 0 l0 _ _ l' _ _ (repeated_0 _) H); split; auto.
  Qed.
End Loop.
