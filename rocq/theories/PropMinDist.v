(** * C57: minimum distances *)
From Coq Require Import String List ZArith QArith Qabs Qminmax Bool Arith Lia Lqa.
From Verif Require Import Np NpFacts LinAlg LinFacts SpecUtils SpecBasis SpecSpatial BasisModel BasisProofs SpatialModel ShapeModel KDProofs
  SpecStructure NeighborCellProofs AnalyzeProofs StructureModel DataModel SpecData LatticeModel SpecLattice LatticeFacts
  KDBrute PropData PropStructure StructureProofs StructureFacts TranslationFacts PropBasis PropAnalyze LatticeExamples.
Import ListNotations.
Open Scope nat_scope.
Open Scope list_scope.

Lemma sqdist_same u u' v : veq u u' -> (sqdist u v == sqdist u' v)%Q.
Proof.
  intro H. unfold sqdist. rewrite (veq_length _ _ H). apply sum_ext. intros k _.
  apply veq_nth in H. destruct H as [_ H]. rewrite (H k). reflexivity.
Qed.

Lemma translate_point b d n p : b_dim b = d -> square d (b_mat b) -> length p = d -> length n = d ->
  veq (translate b n p) (lattice_point d (b_mat b) p n) /\ length (translate b n p) = d.
Proof.
  intros Hd Hs Lp Ln. unfold translate.
  assert (length p = length (matvec (b_mat b) (of_Z n))) as L by (rewrite matvec_length; unfold b_dim in Hd; congruence).
  assert (length (vadd p (matvec (b_mat b) (of_Z n))) = d) as L' by (rewrite vadd_length; auto). split; auto.
  apply veq_nth. rewrite lattice_point_length. split; auto. intro i.
  destruct (Nat.lt_ge_cases i d) as [Hi|Hi].
  - rewrite nth_vadd by auto. rewrite nth_lattice_point by auto.
    rewrite (nth_matvec_sum d) by (auto; rewrite of_Z_length; auto).
    apply Qplus_inj_l. apply sum_ext. intros k _. rewrite nth_of_Z. reflexivity.
  - rewrite !nth_overflow; [reflexivity| |]; rewrite ?lattice_point_length; unfold vec in *; lia.
Qed.

Lemma fold_min_rows N rows r0 : length r0 = N -> (forall r, In r rows -> length r = N) ->
  length (fold_left (map2 Qmin) rows r0) = N /\
  forall j, j < N ->
    let m := nth j (fold_left (map2 Qmin) rows r0) 0%Q in
    (m <= nth j r0 0)%Q /\ (forall r, In r rows -> (m <= nth j r 0)%Q) /\
    (m == nth j r0 0 \/ exists r, In r rows /\ m == nth j r 0)%Q.
Proof.
  revert r0. induction rows as [|r rows IH]; intros r0 L0 Hr; cbn [fold_left]; cbv zeta.
  - split; auto. intros j Hj. split; [lra|]. split; [intros r []|]. left. reflexivity.
  - assert (length r = N) as Lr by (apply Hr; left; auto).
    destruct (IH (map2 Qmin r0 r)) as [I1 I2]; [rewrite map2_length; lia|intros; apply Hr; right; auto|].
    split; auto. intros j Hj. destruct (I2 j Hj) as [J1 [J2 J3]]. cbv zeta in *.
    rewrite (nth_map2 Qmin _ _ _ 0%Q 0%Q 0%Q) in J1, J3 by lia.
    set (m := nth j (fold_left (map2 Qmin) rows (map2 Qmin r0 r)) 0%Q) in *.
    pose proof (Q.le_min_l (nth j r0 0) (nth j r 0))%Q. pose proof (Q.le_min_r (nth j r0 0) (nth j r 0))%Q.
    split; [lra|]. split.
    + intros r' [<-|H']; [lra|apply J2; auto].
    + destruct J3 as [J3|[r' [H1 H2]]].
      * destruct (Q.min_spec (nth j r0 0) (nth j r 0))%Q as [[_ E]|[_ E]]; rewrite E in J3; [left|right]; auto.
        exists r. split; [left|]; auto.
      * right. exists r'. split; [right|]; auto.
Qed.

(** A built lattice of dimension [d]. *)
Record built (d : nat) (l : lattice) : Prop := {
  bt_dim : b_dim (lt_basis l) = d;
  bt_basis : valid_basis (lt_basis l);
  bt_indices : forall i, In i (lt_indices l) -> length i = S d;
  bt_positions : forall p, In p (lt_positions l) -> length p = d;
  bt_sites : length (lt_indices l) = length (lt_positions l);
  bt_axes : forall a, In a (lt_axes l) -> a < d }.

Lemma translation_vector_total b axes prim indices :
  indices <> [] -> valid_basis b -> (forall a, In a axes -> a < b_dim b) ->
  exists v, translation_vector b axes prim indices = Some v /\ length v = b_dim b.
Proof.
  intros Hne Hb Ha. unfold translation_vector. rewrite (axes_check _ _ Ha). cbn [negb]. destruct indices as [|i0 rest]; [congruence|].
  destruct prim; eexists; (split; [reflexivity|]).
  - rewrite (fold_set_length (fun ax => (snd (nth ax (index_limits (i0 :: rest)) (0, 0)) - fst (nth ax (index_limits (i0 :: rest)) (0, 0)) + 1)%Z)).
    apply repeat_length.
  - rewrite map_length. unfold itransform. rewrite matvec_length. apply Hb.
Qed.

Lemma In_pairs_with_replacement {A} (l : list A) x y : In (x, y) (pairs_with_replacement l) -> In x l /\ In y l.
Proof.
  induction l as [|z l IH]; cbn; [tauto|]. intros [H|H].
  - injection H as -> ->. auto.
  - apply in_app_or in H. destruct H as [H|H].
    + apply in_map_iff in H. destruct H as [w [E H]]. injection E as -> ->. auto.
    + apply IH in H. tauto.
Qed.

Lemma flip_tail_length v : length (flip_tail v) = length v.
Proof. destruct v; cbn; rewrite ?map_length; auto. Qed.

Lemma all_some_exists {A B} (f : A -> option B) (R : B -> Prop) l :
  (forall x, In x l -> exists y, f x = Some y /\ R y) -> exists ys, all_some (map f l) = Some ys /\ forall y, In y ys -> R y.
Proof.
  induction l as [|x l IH]; intro H; cbn.
  - exists []. split; auto. intros y [].
  - destruct (H x) as [y [E Hy]]; [left; auto|]. rewrite E. destruct IH as [ys [Es Hys]]; [intros; apply H; right; auto|].
    rewrite Es. exists (y :: ys). split; auto. intros z [<-|Hz]; auto.
Qed.

Lemma items_exist b prim indices axes :
  indices <> [] -> valid_basis b -> (forall a, In a axes -> a < b_dim b) ->
  exists items, periodic_translation_vectors b prim indices axes = Some items /\ forall ax n, In (ax, n) items -> length n = b_dim b.
Proof.
  intros Hne Hb Ha. unfold periodic_translation_vectors.
  assert (exists items, option_map (@concat _)
      (all_some (map (fun p : nat * nat =>
        let ax := [fst p; snd p] in
        option_map (fun v =>
          if forallb (Nat.eqb (nth 0 axes 0)) ax then [(ax, v)] else [(ax, v); (ax, flip_tail v)])
          (translation_vector b ax prim indices)) (pairs_with_replacement axes))) = Some items /\ forall ax n, In (ax, n) items -> length n = b_dim b) as K.
  { match goal with |- context [all_some (map ?f _)] =>
      destruct (all_some_exists f (fun its => forall ax n, In (ax, n) its -> length n = b_dim b) (pairs_with_replacement axes)) as [ys [E H]] end.
    - intros [a a'] Hp. apply In_pairs_with_replacement in Hp. destruct Hp as [H1 H2]. cbv zeta. cbn [fst snd].
      destruct (translation_vector_total b [a; a'] prim indices Hne Hb) as [v [E Lv]]; [intros x [<-|[<-|[]]]; auto|].
      rewrite E. cbn [option_map]. eexists. split; [reflexivity|]. intros ax n H.
      destruct (forallb _ _); destruct H as [H|H]; try (injection H as <- <-; auto).
      + destruct H.
      + destruct H as [H|[]]. injection H as <- <-. rewrite flip_tail_length. auto.
    - rewrite E. cbn [option_map]. eexists. split; [reflexivity|]. intros ax n Hn. apply in_concat in Hn. destruct Hn as [its [H1 H2]]. apply (H its H1 ax n H2). }
  destruct axes as [|a [|a' r]]; [exact K| |exact K].
  destruct (translation_vector_total b [a] prim indices Hne Hb) as [v [E Lv]]; [intros x [<-|[]]; apply Ha; left; auto|].
  rewrite E. cbn [option_map]. eexists. split; [reflexivity|]. intros ax n [H|[]]. injection H as <- <-. auto.
Qed.

(** The entry for a pair of sites is the smallest squared distance over the direct one and the images by plus and minus
    the listed translation vectors. *)
Theorem C57_minimum_over_images :
  forall d l i p, built d l -> nth_error (lt_positions l) i = Some p ->
    let V := b_mat (lt_basis l) in
    exists items row,
      periodic_translation_vectors (lt_basis l) (is_primitive l) (lt_indices l) (lt_axes l) = Some items /\
      minimum_distances2 l i = Some row /\ length row = length (lt_positions l) /\
      forall j q, nth_error (lt_positions l) j = Some q ->
        let m := nth j row 0%Q in
        (m <= sqdist p q)%Q /\
        (forall ax n, In (ax, n) items ->
           (m <= sqdist (lattice_point d V p n) q)%Q /\ (m <= sqdist (lattice_point d V p (map Z.opp n)) q)%Q) /\
        (m == sqdist p q \/ exists ax n, In (ax, n) items /\
           (m == sqdist (lattice_point d V p n) q \/ m == sqdist (lattice_point d V p (map Z.opp n)) q))%Q.
Proof.
  intros d l i p B Hi V. pose proof (bt_dim _ _ B) as Hd. pose proof (bt_basis _ _ B) as Hb.
  assert (square d V) as Hs by (unfold valid_basis in Hb; rewrite Hd in Hb; apply Hb).
  assert (length p = d) as Lp by (apply (bt_positions _ _ B); eapply nth_error_In; eauto).
  assert (lt_indices l <> []) as Hne.
  { pose proof (bt_sites _ _ B) as E. pose proof (nth_error_length_lt _ _ _ Hi). destruct (lt_indices l); [cbn in E; lia|discriminate]. }
  destruct (items_exist (lt_basis l) (is_primitive l) (lt_indices l) (lt_axes l) Hne Hb) as [items [Eit Lit]].
  { rewrite Hd. apply (bt_axes _ _ B). }
  rewrite Hd in Lit. unfold minimum_distances2. rewrite Hi, Eit. cbv zeta.
  set (b := lt_basis l) in *. set (P := lt_positions l) in *.
  set (tr := flat_map (fun it => [translate b (snd it) p; translate b (neg (snd it)) p]) items).
  exists items. eexists. split; [reflexivity|]. split; [reflexivity|].
  destruct (fold_min_rows (length P) (map (fun q => distances2 q P) tr) (distances2 p P)) as [F1 F2].
  { unfold distances2. apply map_length. }
  { intros r Hr. apply in_map_iff in Hr. destruct Hr as [x [<- _]]. unfold distances2. apply map_length. }
  split; [exact F1|]. intros j q Hq. specialize (F2 j (nth_error_length_lt _ _ _ Hq)). cbv zeta in F2.
  assert (length q = d) as Lq by (apply (bt_positions _ _ B); eapply nth_error_In; eauto).
  assert (forall x, length x = d -> (nth j (distances2 x P) 0 == sqdist x q)%Q) as Hx.
  { intros x Lx. unfold distances2. rewrite (nth_indep _ 0%Q (dist2 x [])) by (rewrite map_length; eapply nth_error_length_lt; eauto).
    rewrite (map_nth (dist2 x)). rewrite (nth_of_nth_error P j [] q Hq). apply sqdist_dist2. congruence. }
  assert (forall n, length n = d -> (nth j (distances2 (translate b n p) P) 0 == sqdist (lattice_point d V p n) q)%Q) as Ht.
  { intros n Ln. destruct (translate_point b d n p Hd Hs Lp Ln) as [T1 T2]. rewrite (Hx _ T2). apply sqdist_same. exact T1. }
  assert (forall n : list Z, length n = d -> length (map Z.opp n) = d) as Lopp by (intros; rewrite map_length; auto).
  destruct F2 as [G1 [G2 G3]]. rewrite (Hx p Lp) in G1, G3. split; [exact G1|]. split.
  - intros ax n Hn. specialize (Lit ax n Hn). rewrite <- (Ht n Lit), <- (Ht (map Z.opp n) (Lopp n Lit)).
    split; apply G2; apply in_map_iff; eexists; (split; [reflexivity|]); unfold tr; apply in_flat_map; exists (ax, n); (split; [auto|]); cbn; auto.
  - destruct G3 as [G3|[r [Hr G3]]]; [left; auto|]. right. apply in_map_iff in Hr. destruct Hr as [x [<- Hin]].
    unfold tr in Hin. apply in_flat_map in Hin. destruct Hin as [[ax n] [Hin Hx']]. specialize (Lit ax n Hin). exists ax, n. split; auto.
    cbn in Hx'. destruct Hx' as [<-|[<-|[]]]; rewrite Ht in G3; auto.
Qed.

Lemma sum_opp n f : (sum_upto n (fun k => - f k) == - sum_upto n f)%Q.
Proof. induction n as [|n IH]; cbn; [ring|]. rewrite IH. ring. Qed.

Lemma image_swap d V p q n : length p = d -> length q = d ->
  (sqdist (lattice_point d V p n) q == sqdist (lattice_point d V q (map Z.opp n)) p)%Q.
Proof.
  intros Lp Lq. unfold sqdist. rewrite !lattice_point_length. apply sum_ext. intros i Hi. rewrite !nth_lattice_point by auto.
  assert (sum_upto d (fun k => entry V i k * inject_Z (nth k (map Z.opp n) 0%Z)) == - sum_upto d (fun k => entry V i k * inject_Z (nth k n 0%Z)))%Q as ->.
  { rewrite <- sum_opp. apply sum_ext. intros k _. replace (nth k (map Z.opp n) 0%Z) with (- nth k n 0)%Z by (symmetry; apply (map_nth Z.opp n 0%Z k)). rewrite inject_Z_opp. ring. }
  ring.
Qed.

Lemma opp_opp n : map Z.opp (map Z.opp n) = n.
Proof. rewrite map_map. rewrite (map_ext _ (fun x => x)); [apply map_id|]. intro. lia. Qed.

Lemma sqdist_swap p q : length p = length q -> (sqdist p q == sqdist q p)%Q.
Proof. intro L. unfold sqdist. rewrite L. apply sum_ext. intros. ring. Qed.

Corollary C57_symmetric_and_zero :
  forall d l i j p q, built d l -> nth_error (lt_positions l) i = Some p -> nth_error (lt_positions l) j = Some q ->
    exists ri rj, minimum_distances2 l i = Some ri /\ minimum_distances2 l j = Some rj /\
      (nth j ri 0 == nth i rj 0)%Q /\ (nth i ri 0 == 0)%Q /\ (nth j ri 0 <= sqdist p q)%Q.
Proof.
  intros d l i j p q B Hi Hj.
  destruct (C57_minimum_over_images d l i p B Hi) as [items [ri [Ei [Ri [_ Hri]]]]].
  destruct (C57_minimum_over_images d l j q B Hj) as [items' [rj [Ej [Rj [_ Hrj]]]]].
  rewrite Ei in Ej. injection Ej as <-. exists ri, rj. split; [auto|]. split; [auto|].
  assert (length p = d) as Lp by (apply (bt_positions _ _ B); eapply nth_error_In; eauto).
  assert (length q = d) as Lq by (apply (bt_positions _ _ B); eapply nth_error_In; eauto).
  assert (forall x y a b ra rb, length x = d -> length y = d ->
    (forall ax n, In (ax, n) items -> (nth a ra 0 <= sqdist (lattice_point d (b_mat (lt_basis l)) x n) y)%Q /\ (nth a ra 0 <= sqdist (lattice_point d (b_mat (lt_basis l)) x (map Z.opp n)) y)%Q) ->
    (nth a ra 0 <= sqdist x y)%Q ->
    (nth b rb 0 == sqdist y x \/ exists ax n, In (ax, n) items /\ (nth b rb 0 == sqdist (lattice_point d (b_mat (lt_basis l)) y n) x \/ nth b rb 0 == sqdist (lattice_point d (b_mat (lt_basis l)) y (map Z.opp n)) x))%Q ->
    (nth a ra 0 <= nth b rb 0)%Q) as Hle.
  { intros x y a b ra rb Lx Ly H1 H2 [E|[ax [n [Hn [E|E]]]]]; rewrite E.
    - rewrite (sqdist_swap y x) by congruence. auto.
    - rewrite image_swap by auto. apply (H1 ax n Hn).
    - rewrite image_swap by auto. rewrite opp_opp. apply (H1 ax n Hn). }
  destruct (Hri j q Hj) as [A1 [A2 A3]]. destruct (Hrj i p Hi) as [B1 [B2 B3]]. destruct (Hri i p Hi) as [C1 [C2 C3]].
  split; [|split; [|exact A1]].
  - apply Qle_antisym; [apply (Hle p q j i ri rj)|apply (Hle q p i j rj ri)]; auto.
  - apply Qle_antisym; [apply (Qle_trans _ (sqdist p p)); [exact C1|rewrite sqdist_self; apply Qle_refl]|].
    destruct C3 as [E|[ax [n [_ [E|E]]]]]; rewrite E; apply sqdist_nonneg.
Qed.

(** ** Which images *)

Lemma wraps_translation d l axes : built d l -> lt_indices l <> [] ->
  (lt_primitive l = Some true \/ axis_aligned d (b_mat (lt_basis l))) -> (forall a, In a axes -> a < d) ->
  exists v, translation_vector (lt_basis l) axes (is_primitive l) (lt_indices l) = Some v /\ wraps d (lt_indices l) axes v.
Proof.
  intros B Hne H Ha. pose proof (bt_dim _ _ B) as Hd. destruct (is_primitive l) eqn:E.
  - rewrite <- Hd. apply translation_vector_primitive; rewrite ?Hd; auto. apply (bt_indices _ _ B).
  - destruct H as [H|H]; [unfold is_primitive in E; rewrite H in E; discriminate|]. apply translation_vector_aligned; auto.
    + apply (bt_basis _ _ B).
    + apply (bt_indices _ _ B).
Qed.

(** One periodic axis: the images are those moved by the extent of the lattice along the axis, both ways. *)
Theorem C57_one_axis :
  forall d l a i p e, built d l -> lt_axes l = [a] -> nth_error (lt_positions l) i = Some p ->
    (lt_primitive l = Some true \/ axis_aligned d (b_mat (lt_basis l))) -> extent (lt_indices l) a e ->
    exists row, minimum_distances2 l i = Some row /\
      forall j q (s : Z) n, nth_error (lt_positions l) j = Some q -> (s = -1 \/ s = 0 \/ s = 1)%Z ->
        length n = d -> (forall k, k < d -> nth k n 0%Z = if k =? a then (s * e)%Z else 0%Z) ->
        (nth j row 0 <= sqdist (lattice_point d (b_mat (lt_basis l)) p n) q)%Q.
Proof.
  intros d l a i p e B Hax Hi Hal Hext.
  destruct (C57_minimum_over_images d l i p B Hi) as [items [row [Eit [Er [Lr Hr]]]]].
  exists row. split; auto. intros j q s n Hq Hs Ln Hn. destruct (Hr j q Hq) as [M1 [M2 _]]. cbv zeta in *.
  pose proof (bt_axes _ _ B) as Ha. rewrite Hax in *.
  assert (a < d) as Had by (apply Ha; left; auto).
  assert (lt_indices l <> []) as Hne.
  { pose proof (bt_sites _ _ B) as E. pose proof (nth_error_length_lt _ _ _ Hi). destruct (lt_indices l); [cbn in E; lia|discriminate]. }
  destruct (wraps_translation d l [a] B Hne Hal Ha) as [v [Ev [Lv W]]].
  cbn [periodic_translation_vectors] in Eit. rewrite Ev in Eit. cbn in Eit. injection Eit as <-.
  destruct (M2 [a] v) as [N1 N2]; [left; auto|].
  assert (forall k, k < d -> nth k v 0%Z = if k =? a then e else 0%Z) as Hv.
  { intros k Hk. destruct (W k Hk) as [W1 W2]. destruct (k =? a) eqn:E.
    - apply Nat.eqb_eq in E. subst k. eapply extent_unique; [apply W1; left; auto|]. auto.
    - apply Nat.eqb_neq in E. apply W2. intros [->|[]]. congruence. }
  assert (forall u : list Z, length u = d -> (forall k, k < d -> nth k u 0%Z = nth k n 0%Z) -> u = n) as Heq.
  { intros u Lu H. apply (nth_ext u n 0%Z 0%Z); [congruence|]. intros k Hk. apply H. lia. }
  destruct Hs as [-> | [-> | ->]].
  - rewrite <- (Heq (map Z.opp v)); auto; [rewrite map_length; auto|]. intros k Hk. rewrite (Hn k Hk).
    replace (nth k (map Z.opp v) 0%Z) with (- nth k v 0)%Z by (symmetry; apply (map_nth Z.opp v 0%Z k)). rewrite (Hv k Hk).
    destruct (k =? a); lia.
  - assert (sqdist p q == sqdist (lattice_point d (b_mat (lt_basis l)) p n) q)%Q as <-; auto. apply sqdist_same. apply veq_nth.
    assert (length p = d) as Lp by (apply (bt_positions _ _ B); eapply nth_error_In; eauto).
    split; [rewrite lattice_point_length; auto|]. intro c. destruct (Nat.lt_ge_cases c d) as [Hc|Hc].
    + rewrite nth_lattice_point by auto. rewrite sum_zero; [ring|]. intros k Hk. rewrite (Hn k Hk), Z.mul_0_l. destruct (k =? a); change (inject_Z 0) with 0%Q; ring.
    + rewrite !nth_overflow; [reflexivity| |]; rewrite ?lattice_point_length; lia.
  - rewrite <- (Heq v); auto. intros k Hk. rewrite (Hn k Hk), (Hv k Hk). destruct (k =? a); lia.
Qed.

(** Both axes of a two-dimensional lattice: all eight neighbouring images are covered. *)
Theorem C57_two_axes :
  forall l i p e f, built 2 l -> lt_axes l = [0; 1] -> nth_error (lt_positions l) i = Some p ->
    (lt_primitive l = Some true \/ axis_aligned 2 (b_mat (lt_basis l))) -> extent (lt_indices l) 0 e -> extent (lt_indices l) 1 f ->
    exists row, minimum_distances2 l i = Some row /\
      forall j q (s t : Z), nth_error (lt_positions l) j = Some q -> (-1 <= s <= 1)%Z -> (-1 <= t <= 1)%Z ->
        (nth j row 0 <= sqdist (lattice_point 2 (b_mat (lt_basis l)) p [s * e; t * f]%Z) q)%Q.
Proof.
  intros l i p e f B Hax Hi Hal He Hf.
  destruct (C57_minimum_over_images 2 l i p B Hi) as [items [row [Eit [Er [Lr Hr]]]]].
  exists row. split; auto. intros j q s t Hq Hs Ht. destruct (Hr j q Hq) as [M1 [M2 _]]. cbv zeta in *.
  assert (lt_indices l <> []) as Hne.
  { pose proof (bt_sites _ _ B) as E. pose proof (nth_error_length_lt _ _ _ Hi). destruct (lt_indices l); [cbn in E; lia|discriminate]. }
  assert (forall a a', a < 2 -> a' < 2 -> exists v, translation_vector (lt_basis l) [a; a'] (is_primitive l) (lt_indices l) = Some v /\
            v = [if (a =? 0) || (a' =? 0) then e else 0%Z; if (a =? 1) || (a' =? 1) then f else 0%Z]) as Hv.
  { intros a a' Ha Ha'. destruct (wraps_translation 2 l [a; a'] B Hne Hal) as [v [Ev [Lv W]]]; [intros x [<-|[<-|[]]]; auto|].
    exists v. split; auto. destruct v as [|v0 [|v1 [|? ?]]]; try discriminate.
    destruct (W 0 ltac:(lia)) as [W0 W0']. destruct (W 1 ltac:(lia)) as [W1 W1']. cbn [nth] in *. f_equal; [|f_equal].
    - destruct ((a =? 0) || (a' =? 0)) eqn:E.
      + eapply extent_unique; [apply W0|auto]. apply orb_true_iff in E. rewrite !Nat.eqb_eq in E. cbn. intuition.
      + apply W0'. apply orb_false_iff in E. rewrite !Nat.eqb_neq in E. cbn. intuition.
    - destruct ((a =? 1) || (a' =? 1)) eqn:E.
      + eapply extent_unique; [apply W1|auto]. apply orb_true_iff in E. rewrite !Nat.eqb_eq in E. cbn. intuition.
      + apply W1'. apply orb_false_iff in E. rewrite !Nat.eqb_neq in E. cbn. intuition. }
  assert (items = [([0; 0], [e; 0%Z]); ([0; 1], [e; f]); ([0; 1], [e; (- f)%Z]); ([1; 1], [0%Z; f]); ([1; 1], [0%Z; (- f)%Z])]) as ->.
  { rewrite Hax in Eit. unfold periodic_translation_vectors in Eit.
    destruct (Hv 0 0) as [v [E ->]]; [lia|lia|]. destruct (Hv 0 1) as [v' [E' ->]]; [lia|lia|]. destruct (Hv 1 1) as [v'' [E'' ->]]; [lia|lia|].
    cbn [pairs_with_replacement map app fst snd] in Eit. cbv zeta in Eit. rewrite E, E', E'' in Eit. cbn in Eit. congruence. }
  assert (length p = 2) as Lp by (apply (bt_positions _ _ B); eapply nth_error_In; eauto).
  assert (sqdist p q == sqdist (lattice_point 2 (b_mat (lt_basis l)) p [0; 0]%Z) q)%Q as E0.
  { apply sqdist_same. apply veq_nth. split; [rewrite lattice_point_length; auto|]. intro c. destruct (Nat.lt_ge_cases c 2) as [Hc|Hc].
    + rewrite nth_lattice_point by auto. rewrite sum_zero; [ring|]. intros k Hk. destruct k as [|[|k]]; [| |lia]; cbn [nth]; change (inject_Z 0) with 0%Q; ring.
    + rewrite !nth_overflow; [reflexivity| |]; rewrite ?lattice_point_length; lia. }
  rewrite E0 in M1.
  destruct (M2 [0; 0] [e; 0]%Z) as [A1 A2]; [cbn; auto|].
  destruct (M2 [0; 1] [e; f]%Z) as [B1 B2]; [cbn; auto|].
  destruct (M2 [0; 1] [e; - f]%Z) as [C1 C2]; [cbn; auto|].
  destruct (M2 [1; 1] [0; f]%Z) as [D1 D2]; [cbn; auto|].
  cbn [map] in *. rewrite ?Z.opp_involutive in *. change (- 0)%Z with 0%Z in *.
  assert (s = -1 \/ s = 0 \/ s = 1)%Z as Cs by lia. assert (t = -1 \/ t = 0 \/ t = 1)%Z as Ct by lia.
  destruct Cs as [-> | [-> | ->]], Ct as [-> | [-> | ->]];
    rewrite ?Z.mul_0_l, ?Z.mul_1_l; replace (-1 * e)%Z with (- e)%Z by lia; replace (-1 * f)%Z with (- f)%Z by lia; auto.
Qed.

(** ** Examples *)

Definition built_check (d : nat) (l : lattice) : bool :=
  (b_dim (lt_basis l) =? d) && forallb (fun i => length i =? S d) (lt_indices l) &&
  forallb (fun p : vec => length p =? d) (lt_positions l) && (length (lt_indices l) =? length (lt_positions l)) &&
  forallb (fun a => a <? d) (lt_axes l).

Lemma built_checked d l : valid_basis (lt_basis l) -> built_check d l = true -> built d l.
Proof.
  unfold built_check. intros Hb H. rewrite !andb_true_iff in H. destruct H as [[[[H1 H2] H3] H4] H5].
  constructor; auto.
  - apply Nat.eqb_eq. auto.
  - intros i Hi. rewrite forallb_forall in H2. apply Nat.eqb_eq. auto.
  - intros i Hi. rewrite forallb_forall in H3. apply Nat.eqb_eq. apply H3. exact Hi.
  - apply Nat.eqb_eq. auto.
  - intros a Ha. rewrite forallb_forall in H5. apply Nat.ltb_lt. auto.
Qed.

Example C57_example :
  built 1 ring5 /\ lt_axes ring5 = [0] /\ axis_aligned 1 (b_mat (lt_basis ring5)) /\ extent (lt_indices ring5) 0 5 /\
  minimum_distances2 ring5 0 = Some [0; 1; 4; 4; 1]%Q /\ minimum_distances2 chain5 0 = Some [0; 1; 4; 9; 16]%Q.
Proof.
  split. { apply built_checked; [|vm_compute; reflexivity]. apply inverse1_check; reflexivity. }
  split; [reflexivity|]. split.
  { split; [split; [reflexivity|intros r [<-|[]]; reflexivity]|]. intros [|i] [|j] Hi Hj; try lia. vm_compute. reflexivity. }
  split. { exists 0%Z, 4%Z. split; [reflexivity|]. split; [exists [0;0]%Z; vm_compute; auto|]. split; [exists [4;0]%Z; vm_compute; auto 8|].
    intros i Hi. vm_compute in Hi. intuition (subst; cbn; lia). }
  vm_compute. auto.
Qed.

Example C57_two_axes_example :
  built 2 torus12 /\ lt_axes torus12 = [0; 1] /\ axis_aligned 2 (b_mat (lt_basis torus12)) /\
  extent (lt_indices torus12) 0 3 /\ extent (lt_indices torus12) 1 4 /\
  nth_error (lt_positions torus12) 11 = Some [2; 3]%Q /\
  option_map (fun r => nth 11 r 0%Q) (minimum_distances2 torus12 0) = Some 2%Q.
Proof.
  split. { apply built_checked; [|vm_compute; reflexivity]. apply inverse2_check; vm_compute; auto. }
  split; [reflexivity|]. split.
  { split; [split; [reflexivity|intros r [<-|[<-|[]]]; reflexivity]|]. intros [|[|i]] [|[|j]] Hi Hj; try lia; vm_compute; reflexivity. }
  split. { exists 0%Z, 2%Z. split; [reflexivity|]. split; [exists [0;0;0]%Z; vm_compute; auto|]. split; [exists [2;3;0]%Z; vm_compute; auto 20|].
    intros i Hi. vm_compute in Hi. intuition (subst; cbn; lia). }
  split. { exists 0%Z, 3%Z. split; [reflexivity|]. split; [exists [0;0;0]%Z; vm_compute; auto|]. split; [exists [2;3;0]%Z; vm_compute; auto 20|].
    intros i Hi. vm_compute in Hi. intuition (subst; cbn; lia). }
  vm_compute. auto.
Qed.

(** In three dimensions the images along the space diagonals are missing, and those along [+e1 -e2]. *)
Theorem C57_three_axes_refuted :
  exists l, built 3 l /\ lt_axes l = [0; 1; 2] /\ extent (lt_indices l) 0 3 /\ extent (lt_indices l) 1 3 /\ extent (lt_indices l) 2 3 /\
    (exists i j p q row, nth_error (lt_positions l) i = Some p /\ nth_error (lt_positions l) j = Some q /\
       minimum_distances2 l i = Some row /\
       (sqdist (lattice_point 3 (b_mat (lt_basis l)) p [3; 3; 3]%Z) q == 3)%Q /\ (nth j row 0 == 6)%Q) /\
    (exists i j p q row, nth_error (lt_positions l) i = Some p /\ nth_error (lt_positions l) j = Some q /\
       minimum_distances2 l i = Some row /\
       (sqdist (lattice_point 3 (b_mat (lt_basis l)) p [0; -3; 3]%Z) q == 2)%Q /\ (nth j row 0 == 5)%Q).
Proof.
  exists cube27. split. { apply built_checked; [|vm_compute; reflexivity].
    split; [split; [reflexivity|intros r [<-|[<-|[<-|[]]]]; reflexivity]|]. split; [split; [reflexivity|intros r [<-|[<-|[<-|[]]]]; reflexivity]|].
    change (b_dim (lt_basis cube27)) with 3. split; intros [|[|[|i]]] [|[|[|j]]] Hi Hj; try lia; vm_compute; reflexivity. }
  split; [reflexivity|].
  assert (forall a, a < 3 -> extent (lt_indices cube27) a 3) as He.
  { intros a Ha. exists 0%Z, 2%Z. split; [reflexivity|].
    split; [exists [0;0;0;0]%Z; split; [vm_compute; auto|destruct a as [|[|[|a]]]; auto; lia]|].
    split; [exists [2;2;2;0]%Z; split; [vm_compute; auto 40|destruct a as [|[|[|a]]]; auto; lia]|].
    intros i Hi. vm_compute in Hi. destruct a as [|[|[|a]]]; [| | |lia]; intuition (subst; cbn; lia). }
  split; [apply He; lia|]. split; [apply He; lia|]. split; [apply He; lia|]. split.
  - exists 0, 26, [0; 0; 0]%Q, [2; 2; 2]%Q. eexists. split; [vm_compute; reflexivity|]. split; [vm_compute; reflexivity|].
    split; [vm_compute; reflexivity|]. split; vm_compute; reflexivity.
  - exists 6, 2, [0; 2; 0]%Q, [0; 0; 2]%Q. eexists. split; [vm_compute; reflexivity|]. split; [vm_compute; reflexivity|].
    split; [vm_compute; reflexivity|]. split; vm_compute; reflexivity.
Qed.

(** Rebuilding the ring as an open chain keeps [periodic_axes]: the table has no periodic neighbours but the
    minimum distances are still those of the ring. *)
Definition rebuilt : lattice * result unit :=
  Eval vm_compute in build brute dist_argsort [1]%Q ring5 (ASize [4]%Q) false None true None None None.

Theorem C57_rebuild_refuted :
  exists l d, build brute dist_argsort [1]%Q ring5 (ASize [4]%Q) false None true None None None = (l, Ok tt) /\
    lt_data l = Some d /\ (forall i c, pm d i c = false) /\
    minimum_distances2 l 0 = Some [0; 1; 4; 4; 1]%Q /\ minimum_distances2 chain5 0 = Some [0; 1; 4; 9; 16]%Q /\
    lt_positions l = lt_positions chain5.
Proof.
  exists (fst rebuilt). eexists. split; [vm_compute; reflexivity|]. split; [reflexivity|]. split.
  { intros i c. unfold pm, cell. cbn. do 5 (destruct i as [|i]; [do 2 (destruct c as [|c]; [reflexivity|]); destruct c; reflexivity|]). destruct i, c; reflexivity. }
  vm_compute. auto.
Qed.

Print Assumptions C57_minimum_over_images.
Print Assumptions C57_symmetric_and_zero.
Print Assumptions C57_one_axis.
Print Assumptions C57_two_axes.
Print Assumptions C57_three_axes_refuted.
Print Assumptions C57_rebuild_refuted.
