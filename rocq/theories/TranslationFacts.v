(** * Facts about periodic translation vectors *)
From Coq Require Import List ZArith QArith Qround Qabs Bool Arith Lia Lqa.
From Verif Require Import Np NpFacts LinAlg LinFacts SpecUtils SpecBasis SpecSpatial BasisModel SpatialModel SpatialProofs ShapeModel ShapeProofs
  BasisProofs NeighborCellProofs ReciprocalProofs SpecStructure AnalyzeProofs StructureModel DataModel LatticeModel SpecLattice.
Import ListNotations.
Open Scope nat_scope.
Open Scope list_scope.

Lemma fold_set_length {A} (g : nat -> A) axes v : length (fold_left (fun v ax => set_nth ax (g ax) v) axes v) = length v.
Proof. revert v. induction axes as [|a axes IH]; intro v; cbn; auto. rewrite IH, set_nth_length. auto. Qed.

Lemma nth_set_nth {A} i (x : A) l k d : nth k (set_nth i x l) d = if (k =? i) && (k <? length l) then x else nth k l d.
Proof.
  revert i k. induction l as [|y l IH]; intros [|i] [|k]; cbn; auto.
  all: try (rewrite andb_false_r; reflexivity). apply IH.
Qed.

Lemma fold_set_nth {A} (g : nat -> A) axes v k d : k < length v ->
  nth k (fold_left (fun v ax => set_nth ax (g ax) v) axes v) d = if isin axes k then g k else nth k v d.
Proof.
  revert v. induction axes as [|a axes IH]; intros v Hk; cbn [fold_left]; auto.
  rewrite IH by (rewrite set_nth_length; auto). rewrite nth_set_nth. unfold isin. cbn [existsb].
  destruct (existsb (Nat.eqb k) axes); [rewrite orb_true_r; auto|]. rewrite orb_false_r.
  rewrite (proj2 (Nat.ltb_lt _ _) Hk), andb_true_r. destruct (k =? a) eqn:E; auto. apply Nat.eqb_eq in E. congruence.
Qed.

Lemma fold_zmin l x : (In (fold_left Z.min l x) (x :: l)) /\ forall y, In y (x :: l) -> (fold_left Z.min l x <= y)%Z.
Proof.
  revert x. induction l as [|z l IH]; intro x; cbn [fold_left].
  - split; [left; auto|]. intros y [<-|[]]. lia.
  - destruct (IH (Z.min x z)) as [[H|H] H2]; split.
    + rewrite <- H. destruct (Z.min_spec x z) as [[_ ->]|[_ ->]]; cbn; auto.
    + intros y [<-|[<-|Hy]]; [| |apply H2; right; auto]; specialize (H2 (Z.min x z) ltac:(left; auto)); lia.
    + right. right. auto.
    + intros y [<-|[<-|Hy]]; [| |apply H2; right; auto]; specialize (H2 (Z.min x z) ltac:(left; auto)); lia.
Qed.

Lemma fold_zmax l x : (In (fold_left Z.max l x) (x :: l)) /\ forall y, In y (x :: l) -> (y <= fold_left Z.max l x)%Z.
Proof.
  revert x. induction l as [|z l IH]; intro x; cbn [fold_left].
  - split; [left; auto|]. intros y [<-|[]]. lia.
  - destruct (IH (Z.max x z)) as [[H|H] H2]; split.
    + rewrite <- H. destruct (Z.max_spec x z) as [[_ ->]|[_ ->]]; cbn; auto.
    + intros y [<-|[<-|Hy]]; [| |apply H2; right; auto]; specialize (H2 (Z.max x z) ltac:(left; auto)); lia.
    + right. right. auto.
    + intros y [<-|[<-|Hy]]; [| |apply H2; right; auto]; specialize (H2 (Z.max x z) ltac:(left; auto)); lia.
Qed.

Lemma index_limits_extent indices d a : indices <> [] -> (forall i, In i indices -> length i = S d) -> a < d ->
  let l := nth a (index_limits indices) (0, 0)%Z in extent indices a (snd l - fst l + 1)%Z.
Proof.
  intros Hne Hl Ha. destruct indices as [|i0 rest]; [congruence|]. unfold index_limits.
  assert (length i0 = S d) as L0 by (apply Hl; left; auto).
  rewrite nth_map_seq by lia. cbv zeta. cbn [fst snd].
  set (col := map (fun i => nth a i 0%Z) rest).
  destruct (fold_zmin col (nth a i0 0%Z)) as [A1 A2]. destruct (fold_zmax col (nth a i0 0%Z)) as [B1 B2].
  assert (forall x, In x (nth a i0 0%Z :: col) -> exists i, In i (i0 :: rest) /\ nth a i 0%Z = x) as Hc.
  { intros x [<-|Hx]; [exists i0; split; [left|]; auto|]. apply in_map_iff in Hx. destruct Hx as [i [E Hi]]. exists i. split; [right|]; auto. }
  exists (fold_left Z.min col (nth a i0 0%Z)), (fold_left Z.max col (nth a i0 0%Z)). split; [auto|].
  split; [apply Hc; auto|]. split; [apply Hc; auto|]. intros i Hi.
  assert (In (nth a i 0%Z) (nth a i0 0%Z :: col)) as Hin.
  { destruct Hi as [<-|Hi]; [left; auto|]. right. apply in_map_iff. exists i. auto. }
  split; [apply A2|apply B2]; auto.
Qed.

Lemma extent_unique indices a e e' : extent indices a e -> extent indices a e' -> e = e'.
Proof.
  intros [lo [hi [-> [[i [Hi <-]] [[j [Hj <-]] H]]]]] [lo' [hi' [-> [[i' [Hi' <-]] [[j' [Hj' <-]] H']]]]].
  pose proof (H i' Hi'). pose proof (H j' Hj'). pose proof (H' i Hi). pose proof (H' j Hj). lia.
Qed.

Lemma axes_check d axes : (forall a, In a axes -> a < d) -> forallb (fun a => a <? d) axes = true.
Proof. intro H. apply forallb_forall. intros a Ha. apply Nat.ltb_lt. auto. Qed.

Lemma translation_vector_primitive b axes indices :
  indices <> [] -> (forall i, In i indices -> length i = S (b_dim b)) -> (forall a, In a axes -> a < b_dim b) ->
  exists v, translation_vector b axes true indices = Some v /\ wraps (b_dim b) indices axes v.
Proof.
  intros Hne Hl Ha. unfold translation_vector. rewrite (axes_check _ _ Ha). cbn [negb].
  assert (exists v, Some (fold_left (fun v ax => set_nth ax (snd (nth ax (index_limits indices) (0, 0)) - fst (nth ax (index_limits indices) (0, 0)) + 1)%Z v)
     axes (repeat 0%Z (b_dim b))) = Some v /\ wraps (b_dim b) indices axes v) as K.
  { eexists. split; [reflexivity|].
    set (g := fun ax => (snd (nth ax (index_limits indices) (0, 0)) - fst (nth ax (index_limits indices) (0, 0)) + 1)%Z).
    split; [rewrite (fold_set_length g), repeat_length; auto|]. intros a Hd.
    rewrite (fold_set_nth g) by (rewrite repeat_length; auto). split.
    - intro Hin. rewrite (proj2 (isin_In _ _) Hin). apply (index_limits_extent _ _ _ Hne Hl Hd).
    - intro Hin. apply isin_false in Hin. rewrite Hin. apply nth_repeat. }
  destruct indices as [|i0 rest]; [congruence|]. exact K.
Qed.

Lemma Qrint_close q z : (Qabs (q - inject_Z z) < 1#2)%Q -> Qrint q = z.
Proof.
  intro H. pose proof (Qrint_near q) as N. apply Qabs_Qlt_condition in H. apply Qabs_Qle_condition in N.
  assert (inject_Z (Qrint q) - inject_Z z < 1)%Q as H1 by lra. assert (-1 < inject_Z (Qrint q) - inject_Z z)%Q as H2 by lra.
  unfold Qminus in *. rewrite <- inject_Z_opp, <- inject_Z_plus in H1, H2. change 1%Q with (inject_Z 1) in H1. change (-1)%Q with (inject_Z (-1)) in H2.
  rewrite <- Zlt_Qlt in H1, H2. lia.
Qed.

Lemma sum_single n a f : a < n -> (forall k, k < n -> k <> a -> (f k == 0)%Q) -> (sum_upto n f == f a)%Q.
Proof.
  intros Ha Hz. rewrite (sum_ext n f (fun k => delta a k * f k)%Q).
  - apply sum_delta. auto.
  - intros k Hk. unfold delta. destruct (a =? k) eqn:E; [ring|]. rewrite Hz; [ring|auto|]. apply Nat.eqb_neq in E. auto.
Qed.

Lemma eq_qeq (x y : Q) : x = y -> (x == y)%Q.
Proof. intros ->. reflexivity. Qed.

Section Aligned.
  Variables (b : basis) (d : nat).
  Hypothesis Hd : b_dim b = d.
  Hypothesis Hb : valid_basis b.
  Hypothesis Ha : axis_aligned d (b_mat b).

  Local Notation A a := (entry (b_mat b) a a).

  Lemma aligned_square : square d (b_mat b).
  Proof. apply Ha. Qed.

  Lemma aligned_diag a : a < d -> (0 < A a)%Q.
  Proof. intro H. destruct Ha as [_ K]. specialize (K a a H H). rewrite Nat.eqb_refl in K. exact K. Qed.

  Lemma aligned_off i j : i < d -> j < d -> i <> j -> (entry (b_mat b) i j == 0)%Q.
  Proof. intros H1 H2 N. destruct Ha as [_ K]. specialize (K i j H1 H2). apply Nat.eqb_neq in N. rewrite N in K. exact K. Qed.

  Lemma aligned_inv a k : a < d -> k < d -> (entry (b_inv b) a k == if a =? k then / A a else 0)%Q.
  Proof.
    intros H1 H2. pose proof Hb as Hb'. unfold valid_basis in Hb'. rewrite Hd in Hb'. destruct Hb' as [_ [_ [H _]]]. specialize (H a k H1 H2).
    rewrite (sum_single d a) in H; auto.
    - pose proof (aligned_diag a H1) as P. unfold delta in H. destruct (a =? k).
      + assert (entry (b_inv b) a k == (A a * entry (b_inv b) a k) / A a)%Q as -> by (field; lra). rewrite H. field. lra.
      + assert (entry (b_inv b) a k == (A a * entry (b_inv b) a k) / A a)%Q as -> by (field; lra). rewrite H. field. lra.
    - intros j Hj N. rewrite (aligned_off a j) by auto. ring.
  Qed.

  Lemma aligned_transform n a : length n = d -> a < d ->
    (nth a (transform b (of_Z n)) 0 == A a * inject_Z (nth a n 0%Z))%Q.
  Proof.
    intros L H. unfold transform. rewrite (nth_matvec_sum d) by (auto using aligned_square; rewrite of_Z_length; auto).
    rewrite (sum_single d a); auto.
    - rewrite nth_of_Z. reflexivity.
    - intros k Hk N. change (nth k (nth a (b_mat b) []) 0%Q) with (entry (b_mat b) a k). rewrite (aligned_off a k) by auto. ring.
  Qed.

  Lemma aligned_itransform x a : length x = d -> a < d -> (nth a (itransform b x) 0 == nth a x 0 / A a)%Q.
  Proof.
    intros L H. unfold itransform. pose proof Hb as Hb'. unfold valid_basis in Hb'. rewrite Hd in Hb'. destruct Hb' as [_ [Sq _]].
    rewrite (nth_matvec_sum d) by auto. rewrite (sum_single d a); auto.
    - change (nth a (nth a (b_inv b) []) 0%Q) with (entry (b_inv b) a a). rewrite aligned_inv by auto. rewrite Nat.eqb_refl. field.
      pose proof (aligned_diag a H). lra.
    - intros k Hk N. change (nth k (nth a (b_inv b) []) 0%Q) with (entry (b_inv b) a k). rewrite aligned_inv by auto.
      destruct (a =? k) eqn:E; [apply Nat.eqb_eq in E; congruence|]. ring.
  Qed.

  Lemma aligned_size a : a < d -> (nth a (cell_size (b_vectors b)) 0 == A a)%Q.
  Proof.
    intro H. pose proof (aligned_diag a H) as P.
    assert (forall k, k < d -> nth a (nth k (b_vectors b) []) 0%Q = entry (b_mat b) a k) as E.
    { intros k Hk. apply nth_b_vectors; rewrite Hd; auto. }
    assert (length (b_vectors b) = d) as L by (rewrite b_vectors_length; auto).
    assert (length (nth 0 (b_vectors b) []) = d) as L0 by (rewrite length_b_vector by lia; auto).
    destruct (b_vectors b) as [|v0 rest] eqn:Ev; [cbn in L; lia|]. cbn [nth] in L0.
    destruct (cell_size_entry v0 rest a) as [mx [mn [[[x [Hx Ex]] Hmax] [[[y [Hy Ey]] Hmin] En]]]]; [rewrite L0; auto|].
    refine (Qeq_trans _ _ _ (eq_qeq _ _ En) _). clear En.
    assert (forall z, In z (column (v0 :: rest) a) -> exists k, k < d /\ z = entry (b_mat b) a k) as Hc.
    { intros z Hz. unfold column in Hz. apply in_map_iff in Hz. destruct Hz as [v [Ez Hv]]. apply In_nth_error in Hv. destruct Hv as [k Hk].
      assert (k < d) as Hkd by (rewrite <- L; eapply nth_error_length_lt; eauto). exists k. split; auto. rewrite <- E by auto.
      rewrite (nth_of_nth_error _ _ _ _ Hk). auto. }
    assert (In (A a) (column (v0 :: rest) a)) as Hin.
    { unfold column. apply in_map_iff. exists (nth a (v0 :: rest) []). split; [apply E; auto|]. apply nth_In. rewrite L. auto. }
    assert (mx == A a)%Q as ->.
    { apply Qle_antisym; [|apply Hmax; auto]. rewrite <- Ex. destruct (Hc x Hx) as [k [Hk ->]].
      destruct (Nat.eq_dec a k) as [<-|N]; [lra|]. rewrite (aligned_off a k) by auto. lra. }
    destruct (Qle_bool mn 0) eqn:Em; [|ring]. apply Qle_bool_iff in Em. rewrite <- Ey in Em |- *. destruct (Hc y Hy) as [k [Hk ->]].
    destruct (Nat.eq_dec a k) as [<-|N]; [lra|]. rewrite (aligned_off a k) by auto. ring.
  Qed.

  Lemma nth_site_cell (i : list Z) a : length i = S d -> a < d -> nth a (site_cell i) 0%Z = nth a i 0%Z.
  Proof.
    intros L H. unfold site_cell. clear - L H. revert i a L H. induction d as [|n IH]; intros i a L H; [lia|].
    destruct i as [|x [|y i]]; cbn in L; try lia. change (removelast (x :: y :: i)) with (x :: removelast (y :: i)).
    destruct a as [|a]; cbn [nth]; auto. apply IH; cbn; lia.
  Qed.

  Lemma length_site_cell (i : list Z) : length i = S d -> length (site_cell i) = d.
  Proof.
    unfold site_cell. clear. revert i. induction d as [|n IH]; intros i L.
    - destruct i as [|x [|y i]]; cbn in *; lia.
    - destruct i as [|x [|y i]]; cbn in L; try lia. change (removelast (x :: y :: i)) with (x :: removelast (y :: i)). cbn [length]. f_equal. apply IH. cbn. lia.
  Qed.

  Lemma translation_vector_aligned axes indices :
    indices <> [] -> (forall i, In i indices -> length i = S d) -> (forall a, In a axes -> a < d) ->
    exists v, translation_vector b axes false indices = Some v /\ wraps d indices axes v.
  Proof.
    intros Hne Hl Hax. unfold translation_vector. rewrite Hd, (axes_check _ _ Hax). cbn [negb].
    set (points := map (fun i => transform b (of_Z (site_cell i))) indices).
    set (lim := point_limits points). set (size := cell_size (b_vectors b)).
    set (g := fun ax => (snd (nth ax lim (0, 0)) - fst (nth ax lim (0, 0)) + nth ax size 0 * (2 # 1) / (3 # 1))%Q).
    assert (exists v, Some (map Qrint (itransform b (fold_left (fun v ax => set_nth ax (g ax) v) axes (vzero d)))) = Some v /\ wraps d indices axes v) as K.
    2: { destruct indices as [|i0 rest]; [congruence|]. exact K. }
    eexists. split; [reflexivity|].
    assert (length (fold_left (fun v ax => set_nth ax (g ax) v) axes (vzero d)) = d) as Lf.
    { rewrite (fold_set_length g). apply repeat_length. }
    split.
    { rewrite map_length. unfold itransform. rewrite matvec_length. pose proof Hb as Hb'. unfold valid_basis in Hb'. rewrite Hd in Hb'. apply Hb'. }
    intros a H. change 0%Z with (Qrint 0). rewrite !(map_nth Qrint).
    assert (forall q q', q == q' -> Qrint q = Qrint q')%Q as Hq.
    { intros q q' E. unfold Qrint. assert (Qfloor q = Qfloor q') as -> by (rewrite E; auto). rewrite !E. reflexivity. }
    rewrite (Hq _ _ (aligned_itransform _ a Lf H)). rewrite (fold_set_nth g) by (unfold vzero; rewrite repeat_length; auto).
    pose proof (aligned_diag a H) as P. split; intro Hin.
    - rewrite (proj2 (isin_In _ _) Hin).
      assert (forall p, In p points -> length p = d) as Lp.
      { intros p Hp. apply in_map_iff in Hp. destruct Hp as [i [<- _]]. unfold transform. rewrite matvec_length. apply Hd. }
      assert (points <> []) as Np by (unfold points; destruct indices; [congruence|discriminate]).
      pose proof (point_limits_length points d Np Lp) as Ll. fold lim in Ll.
      destruct (nth_error_lt lim a) as [[lo hi] Hn]; [lia|].
      destruct (point_limits_spec points a lo hi Hn) as [[[x [Hx Ex]] Hmin] [[y [Hy Ey]] Hmax]].
      assert (forall i, In i indices -> (nth a (transform b (of_Z (site_cell i))) 0 == A a * inject_Z (nth a i 0%Z))%Q) as Ht.
      { intros i Hi. rewrite aligned_transform by (auto; apply length_site_cell; auto). rewrite nth_site_cell by auto. reflexivity. }
      assert (forall z, In z (map (fun p : vec => nth a p 0%Q) points) -> exists i, In i indices /\ (z == A a * inject_Z (nth a i 0%Z))%Q) as Hc.
      { intros z Hz. unfold points in Hz. rewrite map_map in Hz. apply in_map_iff in Hz. destruct Hz as [i [<- Hi]]. exists i. split; auto. }
      destruct (Hc x Hx) as [ix [Hix Exx]]. destruct (Hc y Hy) as [iy [Hiy Eyy]].
      assert (forall i, In i indices -> In (nth a (transform b (of_Z (site_cell i))) 0%Q) (map (fun p : vec => nth a p 0%Q) points)) as Hin'.
      { intros i Hi. unfold points. rewrite map_map. apply in_map_iff. exists i. auto. }
      assert (Qrint (g a / A a) = (nth a iy 0 - nth a ix 0 + 1)%Z) as ->.
      { apply Qrint_close. unfold g. rewrite (nth_of_nth_error _ _ _ _ Hn). cbn [fst snd]. unfold size. rewrite (aligned_size a H).
        setoid_replace ((hi - lo + A a * (2 # 1) / (3 # 1)) / A a - inject_Z (nth a iy 0 - nth a ix 0 + 1)%Z)%Q with (-1 # 3)%Q; [vm_compute; auto|].
        rewrite <- Ex, <- Ey, Exx, Eyy. unfold Z.sub. rewrite !inject_Z_plus, inject_Z_opp. field. lra. }
      exists (nth a ix 0%Z), (nth a iy 0%Z). split; [auto|]. split; [eauto|]. split; [eauto|]. intros i Hi.
      specialize (Hmin _ (Hin' i Hi)). specialize (Hmax _ (Hin' i Hi)). rewrite (Ht i Hi) in Hmin, Hmax.
      rewrite <- Ex, Exx in Hmin. rewrite <- Ey, Eyy in Hmax.
      rewrite Qmult_comm, (Qmult_comm (A a)) in Hmin, Hmax.
      apply Qmult_lt_0_le_reg_r in Hmin; auto. apply Qmult_lt_0_le_reg_r in Hmax; auto. rewrite <- Zle_Qle in Hmin, Hmax. lia.
    - apply isin_false in Hin. rewrite Hin. unfold vzero. rewrite nth_repeat. rewrite (Hq _ 0%Q); [reflexivity|]. field. lra.
  Qed.
End Aligned.
