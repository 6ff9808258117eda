(** * Lemmas about Wigner-Seitz cells *)
From Coq Require Import List ZArith QArith Qround Qabs Qminmax Bool Arith Lia Lqa.
From Verif Require Import Np NpFacts LinAlg LinFacts SpecUtils SpecBasis SpecSpatial BasisModel BasisProofs PropBasis SpatialModel SpatialProofs
  KDProofs NeighborCellProofs SpecGrid GridProofs SpecVoronoi VoronoiModel.
Import ListNotations.
Open Scope nat_scope.
Open Scope list_scope.

Lemma sum_le n f g : (forall k, (k < n)%nat -> f k <= g k)%Q -> (sum_upto n f <= sum_upto n g)%Q.
Proof. induction n as [|n IH]; cbn; intro H; [lra|]. pose proof (H n ltac:(lia)). specialize (IH (fun k Hk => H k (Nat.lt_lt_succ_r _ _ Hk))). lra. Qed.

Lemma sqdist_expand x p : length x = length p -> (sqdist x p == inner x x - 2 * inner x p + inner p p)%Q.
Proof.
  intro H. unfold sqdist, inner. rewrite <- H. generalize (length x). induction n as [|n IH]; cbn [sum_upto]; [ring|]. rewrite IH. ring.
Qed.

Lemma nth_zero d i : nth i (zero d) 0%Q = 0%Q.
Proof. unfold zero. apply nth_repeat. Qed.

Lemma inner_zero u d : (inner u (zero d) == 0)%Q.
Proof. unfold inner. apply sum_zero. intros k _. rewrite nth_zero. ring. Qed.

Lemma inner_same u p q : same p q -> (inner u p == inner u q)%Q.
Proof. intros [_ H]. unfold inner. apply sum_ext. intros k _. rewrite (H k). reflexivity. Qed.

Lemma inner_comm u p : length u = length p -> (inner u p == inner p u)%Q.
Proof. intro H. unfold inner. rewrite H. apply sum_ext. intros k _. ring. Qed.

Lemma sqdist_same2 x p q : same p q -> (sqdist x p == sqdist x q)%Q.
Proof. intros [_ H]. unfold sqdist. apply sum_ext. intros k _. rewrite (H k). reflexivity. Qed.

(** ** The comparison of lengths *)

Lemma sqrt_le_ext c e x x' y y' : (x == x')%Q -> (y == y')%Q -> sqrt_le c e x y = sqrt_le c e x' y'.
Proof.
  intros E1 E2. unfold sqrt_le. cbv zeta. f_equal; apply Bool.eq_iff_eq_true; rewrite !Qle_bool_iff, E1, E2; reflexivity.
Qed.

Lemma isclose2_ext x x' y y' : (x == x')%Q -> (y == y')%Q -> isclose2 x y = isclose2 x' y'.
Proof. intros E1 E2. unfold isclose2. f_equal; apply sqrt_le_ext; auto. rewrite E2. reflexivity. Qed.

Lemma isclose2_refl x : (0 <= x)%Q -> isclose2 x x = true.
Proof.
  intro H. unfold isclose2, sqrt_le. apply andb_true_iff. split; apply orb_true_iff; left; apply Qle_bool_iff; lra.
Qed.

(** Lengths of at least 1e-6 whose squares differ by a factor of 4/3 are told apart. *)
Lemma isclose2_apart x m : ((1 # 1000000000000) <= m)%Q -> ((4 # 3) * m <= x)%Q -> isclose2 x m = false.
Proof.
  intros Hm Hx. unfold isclose2. apply andb_false_iff. left. unfold sqrt_le. cbv zeta. apply orb_false_iff.
  set (c := (100001 # 100000)%Q). set (e := (1 # 100000000)%Q).
  assert (0 < (1 # 4) * m <= x - c * c * m - e * e)%Q as H by (unfold c, e; lra). set (r := (x - c * c * m - e * e)%Q) in *.
  assert (4 * c * c * e * e * m < ((1 # 4) * m) * ((1 # 4) * m))%Q as H1 by (unfold c, e; nra).
  split; apply Qle_bool_false_iff; [lra|]. nra.
Qed.

(** ** The points of the cell *)

Section Cell.
  Variables (b : basis).
  Let d := b_dim b.
  Let V := b_mat b.
  Hypothesis (Hb : valid_basis b) (Hd : 1 <= d).

  Definition cell_point (n : list Z) : vec := matvec V (of_Z n).

  Lemma cell_point_length n : length (cell_point n) = d.
  Proof. unfold cell_point. rewrite matvec_length. reflexivity. Qed.

  Lemma cell_point_nth n i : length n = d -> i < d -> (nth i (cell_point n) 0 == sum_upto d (fun k => entry V i k * inject_Z (nth k n 0%Z)))%Q.
  Proof.
    intros Hn Hi. unfold cell_point. rewrite (nth_matvec_sum d).
    - apply sum_ext. intros k Hk. rewrite nth_of_Z. reflexivity.
    - apply Hb.
    - rewrite of_Z_length. auto.
    - auto.
  Qed.

  Lemma cell_point_zero : same (cell_point (repeat 0%Z d)) (zero d).
  Proof.
    rewrite same_veq. apply (veq_nth_lt _ _ d); [apply cell_point_length|unfold zero; apply repeat_length|].
    intros i Hi. rewrite cell_point_nth by (auto; apply repeat_length). rewrite nth_zero. apply sum_zero. intros k _.
    rewrite nth_repeat. change (inject_Z 0) with 0%Q. ring.
  Qed.

  Lemma cell_point_inj m n : length m = d -> length n = d -> same (cell_point m) (cell_point n) -> m = n.
  Proof.
    intros Hm Hn H. apply of_Z_inj. apply (transform_inj b); auto; [rewrite of_Z_length; auto..|]. apply same_veq. exact H.
  Qed.

  Lemma cell_point_sq n : length n = d -> (inner (cell_point n) (cell_point n) == cell_sq d V n)%Q.
  Proof.
    intro Hn. unfold inner, cell_sq. rewrite cell_point_length. apply sum_ext. intros i Hi. cbv zeta. rewrite !cell_point_nth by auto. reflexivity.
  Qed.

  Variables (voronoi : list vec -> option diagram) (near : list vec -> vec -> nat) (ws : ws_cell).
  Hypothesis (Hnear : finds_nearest near) (Hws : wigner_seitz_cell voronoi near b = Some ws).

  Lemma ws_cells : exists cells,
    get_neighbor_cells b 0 true isclose2 = Some cells /\ ws_points ws = map cell_point cells /\
    ws_dim ws = d /\ ws_root ws = near (ws_points ws) (zero d) /\ NoDup cells /\ In (repeat 0%Z d) cells /\
    (forall n, In n cells -> length n = d) /\
    (1 < d -> exists dg, voronoi (ws_points ws) = Some dg /\ ws_vertices ws = dg_vertices dg /\
       ws_edges ws = map (map Z.to_nat) (filter (forallb (fun i => (0 <=? i)%Z)) (map snd (combine (dg_ridge_points dg) (dg_ridge_vertices dg))))) /\
    (d = 1 -> ws_edges ws = [] /\
       ws_vertices ws = filter (fun v => negb (forallb (fun x => Qeq_bool x 0) v)) (map (map (fun x => (x / 2)%Q)) (ws_points ws))).
  Proof.
    destruct (C14_neighbor_cells b 0 true isclose2 Hb Hd isclose2_ext) as [cells [cut [E [Hin [Hnd _]]]]].
    unfold wigner_seitz_cell in Hws. rewrite E in Hws. exists cells. split; [exact E|].
    assert (In (repeat 0%Z d) cells) as H0 by (apply Hin; right; auto).
    assert (forall n, In n cells -> length n = d) as Hl.
    { intros n Hn. apply Hin in Hn. destruct Hn as [[[Hn _] _]|[_ ->]]; [exact Hn|apply repeat_length]. }
    unfold new_cell in Hws. destruct cells as [|n0 cells]; [destruct H0|]. cbn [map] in Hws. cbv zeta in Hws.
    change (matvec (b_mat b) (of_Z n0)) with (cell_point n0) in Hws. rewrite cell_point_length in Hws. cbn [map].
    change (map (fun n => matvec (b_mat b) (of_Z n)) cells) with (map cell_point cells) in Hws.
    destruct (d =? 1) eqn:Ed.
    - injection Hws as <-. cbn [ws_points ws_dim ws_root ws_edges ws_vertices]. repeat (split; [auto; reflexivity|]).
      apply Nat.eqb_eq in Ed. split; [lia|]. auto.
    - apply Nat.eqb_neq in Ed. destruct (voronoi _) as [dg|] eqn:Ev; [|discriminate]. injection Hws as <-.
      cbn [ws_points ws_dim ws_root ws_edges ws_vertices]. repeat (split; [auto; reflexivity|]).
      split; [|lia]. intros _. exists dg. auto.
  Qed.

  Lemma points_length p : In p (ws_points ws) -> length p = d.
  Proof.
    destruct ws_cells as [cells [_ [-> _]]]. rewrite in_map_iff. intros [n [<- _]]. apply cell_point_length.
  Qed.

  (** The root is the only point at the origin. *)
  Lemma root_zero : ws_root ws < length (ws_points ws) /\
    forall i, i < length (ws_points ws) -> (same (nth i (ws_points ws) []) (zero d) <-> i = ws_root ws).
  Proof.
    pose proof ws_cells as [cells [_ [Hp [_ [Hr [Hnd [H0 [Hl _]]]]]]]].
    assert (ws_points ws <> []) as Hne.
    { rewrite Hp. intro E. apply map_eq_nil in E. subst. destruct H0. }
    destruct (Hnear (ws_points ws) (zero d) Hne) as [Hlt Hmin]. rewrite <- Hr in Hlt, Hmin.
    split; [exact Hlt|].
    assert (same (nth (ws_root ws) (ws_points ws) []) (zero d)) as Hz.
    { assert (In (cell_point (repeat 0%Z d)) (ws_points ws)) as Hin by (rewrite Hp; apply in_map; exact H0).
      specialize (Hmin _ Hin). rewrite (sqdist_same2 _ _ _ cell_point_zero), sqdist_self in Hmin.
      assert (length (nth (ws_root ws) (ws_points ws) []) = d) as Hlen by (apply points_length, nth_In; auto).
      assert (length (zero d) = d) as Hz by apply repeat_length.
      split; [congruence|]. intro i. symmetry. apply sqdist_zero; [congruence|].
      apply Qle_antisym; [exact Hmin|apply sqdist_nonneg]. }
    intros i Hi. split; [|intros ->; exact Hz]. intro Hs. rewrite Hp in Hi, Hs, Hz, Hlt. rewrite map_length in Hi, Hlt.
    rewrite (nth_indep _ [] (cell_point [])), map_nth in Hs by (rewrite map_length; auto). rewrite (nth_indep _ [] (cell_point [])), map_nth in Hz by (rewrite map_length; auto).
    apply (proj1 (NoDup_nth cells []) Hnd); auto. apply cell_point_inj; [apply Hl, nth_In; auto..|].
    apply same_veq. apply same_veq in Hs, Hz. eapply veq_trans; [exact Hs|apply veq_sym; exact Hz].
  Qed.

  Lemma check_true x : (forall p, In p (ws_points ws) -> ~ same p (zero d) -> (sqdist x (zero d) < sqdist x p)%Q) -> ws_check near ws x = true.
  Proof.
    intro H. destruct root_zero as [Hlt Hroot]. unfold ws_check. apply Nat.eqb_eq.
    assert (ws_points ws <> []) as Hne by (intro E; rewrite E in Hlt; cbn in Hlt; lia).
    destruct (Hnear (ws_points ws) x Hne) as [Hj Hmin]. apply Hroot; auto.
    set (p := nth (near (ws_points ws) x) (ws_points ws) []) in *.
    assert (In p (ws_points ws)) as Hp by (apply nth_In; auto).
    assert (same (nth (ws_root ws) (ws_points ws) []) (zero d)) as Hz by (apply Hroot; auto).
    pose proof (Hmin _ (nth_In _ [] Hlt)) as Hle. rewrite (sqdist_same2 x _ _ Hz) in Hle.
    destruct (veqb p (zero d)) eqn:E.
    - apply same_veq, veqb_veq. exact E.
    - exfalso. specialize (H p Hp). assert (~ same p (zero d)) as Hns.
      { rewrite same_veq, <- veqb_veq. congruence. }
      exact (Qlt_not_le _ _ (H Hns) Hle).
  Qed.

  Lemma check_false x p : In p (ws_points ws) -> (sqdist x p < sqdist x (zero d))%Q -> ws_check near ws x = false.
  Proof.
    intros Hp Hlt'. destruct root_zero as [Hlt Hroot]. unfold ws_check. apply Nat.eqb_neq. intro E.
    assert (ws_points ws <> []) as Hne by (intro E'; rewrite E' in Hlt; cbn in Hlt; lia).
    destruct (Hnear (ws_points ws) x Hne) as [_ Hmin]. specialize (Hmin p Hp). rewrite E in Hmin.
    assert (same (nth (ws_root ws) (ws_points ws) []) (zero d)) as Hz by (apply Hroot; auto).
    rewrite (sqdist_same2 x _ _ Hz) in Hmin. exact (Qlt_not_le _ _ Hlt' Hmin).
  Qed.
End Cell.

(** ** Bases whose lattice vectors are the shortest ones *)

Section Shortest.
  Variables (b : basis) (m : Q).
  Let d := b_dim b.
  Let V := b_mat b.
  Hypothesis (Hb : valid_basis b) (Hd : 1 <= d) (Hm : ((1 # 1000000000000) <= m)%Q).
  Hypothesis (Hcol : forall k, k < d -> (column_sq d V k == m)%Q).
  Hypothesis (Hgap : forall n, int_box d 1 n -> n <> repeat 0%Z d -> (cell_sq d V n == m)%Q \/ ((4 # 3) * m <= cell_sq d V n)%Q).
  Hypothesis (Hsome : exists n, int_box d 1 n /\ (cell_sq d V n == m)%Q).

  Lemma zero_sq : (cell_sq d V (repeat 0%Z d) == 0)%Q.
  Proof.
    unfold cell_sq. apply sum_zero. intros i _. cbv zeta.
    assert (sum_upto d (fun k => entry V i k * inject_Z (nth k (repeat 0%Z d) 0%Z)) == 0)%Q as E.
    { apply sum_zero. intros k _. rewrite nth_repeat. change (inject_Z 0) with 0%Q. ring. }
    rewrite E. ring.
  Qed.

  Lemma shortest_cells cells : get_neighbor_cells b 0 true isclose2 = Some cells ->
    forall n, In n cells <-> int_box d 1 n /\ (n = repeat 0%Z d \/ (cell_sq d V n == m)%Q).
  Proof.
    intro Hc.
    destruct (C14_neighbor_cells b 0 true isclose2 Hb Hd isclose2_ext) as [cells' [cut [E [Hin [_ [_ [[smaller [lengths [[Hs1 Hs2] [[Hl1 Hl2] Hsl]]]] [nc [Hnc Hcut]]]]]]]]].
    rewrite Hc in E. injection E as <-. fold d V in Hin, Hs2, Hl2, Hnc, Hcut. change (Z.of_nat 0 + 1)%Z with 1%Z in *.
    assert (length lengths = 1) as Hlen.
    { assert (exists x, In x lengths /\ x == m)%Q as [x0 [Hx0 _]] by (apply Hl2; exists 0; split; [lia|apply Hcol; lia]).
      destruct lengths as [|x [|y l]]; [destruct Hx0|reflexivity|].
      pose proof (Hl1 0 1 x y ltac:(lia) eq_refl eq_refl) as Hlt.
      assert (forall z, In z (x :: y :: l) -> (z == m)%Q) as Hall.
      { intros z Hz. destruct (proj2 (Hl2 z) ltac:(exists z; split; [auto|reflexivity])) as [k [Hk E]]. rewrite (Hcol k Hk) in E. rewrite E. reflexivity. }
      rewrite (Hall x), (Hall y) in Hlt by (cbn; auto). lra. }
    rewrite Hlen in Hsl. cbn in Hsl. destruct smaller as [|s0 [|]]; try discriminate Hsl.
    destruct (proj2 (Hs2 s0) ltac:(exists s0; split; [left; reflexivity|reflexivity])) as [Hs0 [n0 [Hn0 Es0]]].
    assert (forall n, int_box d 1 n -> (cell_sq d V n < cut)%Q -> (cell_sq d V n == s0)%Q) as Honly.
    { intros n Hn Hlt. destruct (proj1 (Hs2 (cell_sq d V n)) (conj Hlt (ex_intro _ n (conj Hn (Qeq_refl _))))) as [x [[<-|[]] Ex]]. symmetry. exact Ex. }
    assert (int_box d 1 (repeat 0%Z d)) as Hbz.
    { split; [apply repeat_length|]. intros k Hk. apply repeat_spec in Hk. lia. }
    assert (forall n, int_box d 1 n -> 0 <= cell_sq d V n)%Q as Hpos.
    { intros n _. unfold cell_sq. apply sum_nonneg. intros. cbv zeta. apply square_nonneg. }
    assert (0 < cut)%Q as Hcpos by (specialize (Hpos n0 Hn0); rewrite Es0 in Hpos; lra).
    assert (s0 == 0)%Q as Hs00.
    { rewrite <- (Honly (repeat 0%Z d) Hbz); [apply zero_sq|rewrite zero_sq; exact Hcpos]. }
    assert (cut == m)%Q as Ecut.
    { assert (nc <> repeat 0%Z d) as Hnz by (intros ->; rewrite zero_sq in Hcut; lra).
      destruct (Hgap nc Hnc Hnz) as [E|E]; [rewrite <- Hcut; exact E|]. exfalso.
      destruct Hsome as [n1 [Hn1 E1]]. assert (cell_sq d V n1 < cut)%Q as Hlt by (rewrite E1; lra).
      pose proof (Honly n1 Hn1 Hlt) as H. rewrite E1 in H. lra. }
    intro n. rewrite Hin. split.
    - intros [[Hn [Hnz Hcmp]]|[_ ->]]; [|auto]. split; auto. right. destruct (Hgap n Hn Hnz) as [E|E]; auto. exfalso.
      rewrite (isclose2_ext _ (cell_sq d V n) _ m (Qeq_refl _) Ecut), isclose2_apart in Hcmp by auto. discriminate.
    - intros [Hn [->|E]]; [auto|]. left. split; auto. split; [intros ->; rewrite zero_sq in E; lra|].
      rewrite (isclose2_ext _ m _ m E Ecut). apply isclose2_refl. lra.
  Qed.
End Shortest.

(** ** Points that are all equally far from the origin *)

(** A vector with one component. *)
Definition spike (d k : nat) (v : Q) : list Q := map (fun i => if i =? k then v else 0%Q) (seq 0 d).

Lemma spike_length d k v : length (spike d k v) = d.
Proof. unfold spike. rewrite map_length, seq_length. reflexivity. Qed.

Lemma nth_spike d k v i : nth i (spike d k v) 0%Q = if (i <? d) && (i =? k) then v else 0%Q.
Proof.
  destruct (i <? d) eqn:E; cbn [andb].
  - apply Nat.ltb_lt in E. unfold spike. rewrite nth_map_seq by auto. reflexivity.
  - apply Nat.ltb_ge in E. apply nth_overflow. rewrite spike_length. auto.
Qed.

Lemma inner_spike d k v u : length u = d -> k < d -> (inner u (spike d k v) == v * nth k u 0)%Q.
Proof.
  intros Hu Hk. unfold inner. rewrite Hu.
  transitivity (sum_upto d (fun i => delta k i * (v * nth i u 0))%Q).
  - apply sum_ext. intros i Hi. rewrite nth_spike. apply Nat.ltb_lt in Hi. rewrite Hi. cbn [andb]. unfold delta.
    rewrite (Nat.eqb_sym i k). destruct (k =? i); ring.
  - exact (sum_delta d k (fun i => (v * nth i u 0)%Q) Hk).
Qed.

Lemma inner_pos u : (0 <= inner u u)%Q.
Proof. unfold inner. apply sum_nonneg. intros. apply square_nonneg. Qed.

Lemma sqdist_zero_r x d : length x = d -> (sqdist x (zero d) == inner x x)%Q.
Proof. intro H. rewrite sqdist_expand by (unfold zero; rewrite repeat_length; auto). rewrite !inner_zero. ring. Qed.

(** Squared distances compared: the half-space of a point. *)
Lemma nearer_iff d x p q : length x = d -> length p = d -> length q = d -> (inner p p == inner q q)%Q ->
  (sqdist x p <= sqdist x q <-> inner x q <= inner x p)%Q.
Proof. intros Hx Hp Hq E. rewrite !sqdist_expand by congruence. rewrite E. split; intro; lra. Qed.

Lemma nearer_origin_iff d x p : length x = d -> length p = d ->
  (sqdist x (zero d) <= sqdist x p <-> 2 * inner x p <= inner p p)%Q.
Proof. intros Hx Hp. rewrite sqdist_zero_r by auto. rewrite sqdist_expand by congruence. split; intro; lra. Qed.

Lemma nearer_origin_lt d x p : length x = d -> length p = d ->
  (sqdist x (zero d) < sqdist x p <-> 2 * inner x p < inner p p)%Q.
Proof. intros Hx Hp. rewrite sqdist_zero_r by auto. rewrite sqdist_expand by congruence. split; intro; lra. Qed.

Lemma farther_origin_lt d x p : length x = d -> length p = d ->
  (sqdist x p < sqdist x (zero d) <-> inner p p < 2 * inner x p)%Q.
Proof. intros Hx Hp. rewrite sqdist_zero_r by auto. rewrite sqdist_expand by congruence. split; intro; lra. Qed.

(** The origin is one of the points nearest to any vertex. *)
Lemma vertex_near_origin d P m x : (forall p, In p P -> length p = d) -> (exists z, In z P /\ same z (zero d)) ->
  (forall p, In p P -> ~ same p (zero d) -> (inner p p == m)%Q) ->
  voronoi_vertex d P x -> forall p, In p P -> (2 * inner x p <= inner p p)%Q.
Proof.
  intros HP [z [Hz Ez]] Hm [Hx Hv] p Hp.
  destruct (Qlt_le_dec (inner p p) (2 * inner x p)) as [H|H]; auto. exfalso.
  assert (forall q, is_nearest P x q -> ~ same q (zero d)) as Hno.
  { intros q [Hq Hqmin] E. specialize (Hqmin p Hp). rewrite (sqdist_same2 x _ _ E) in Hqmin.
    apply (nearer_origin_iff d) in Hqmin; auto. lra. }
  assert (forall q r, is_nearest P x q -> is_nearest P x r -> (inner x q == inner x r)%Q) as Heq.
  { intros q r Hq Hr. pose proof (Hm q (proj1 Hq) (Hno q Hq)) as Eq. pose proof (Hm r (proj1 Hr) (Hno r Hr)) as Er.
    assert (inner q q == inner r r)%Q as E by (rewrite Eq, Er; reflexivity).
    apply Qle_antisym.
    - apply (nearer_iff d); auto; [apply HP, Hr|apply HP, Hq|rewrite E; reflexivity|]. apply Hr, Hq.
    - apply (nearer_iff d); auto; [apply HP, Hq|apply HP, Hr|]. apply Hq, Hr. }
  specialize (Hv x Hx Heq).
  assert (inner x p == 0)%Q as E0.
  { unfold inner. apply sum_zero. intros i _. rewrite (Hv i). ring. }
  pose proof (inner_pos p). lra.
Qed.

Section Cubic.
  Variables (b : basis) (a : Q).
  Let d := b_dim b.
  Let V := b_mat b.
  Hypothesis (Hb : valid_basis b) (Hd : 1 <= d) (Ha : ((1 # 1000000) <= a)%Q) (Hcub : cubic_lattice d V a).

  Lemma cubic_gap n : int_box d 1 n -> n <> repeat 0%Z d -> (cell_sq d V n == a * a)%Q \/ ((4 # 3) * (a * a) <= cell_sq d V n)%Q.
  Proof.
    intros [Hn _] Hnz. rewrite (cell_sq_cubic d V a Hcub). set (g := fun k => nth k n 0%Z).
    destruct (Z.le_gt_cases (zs d g) 0) as [H|H].
    - exfalso. apply Hnz. apply (nth_ext _ _ 0%Z 0%Z); [rewrite repeat_length; auto|]. intros k Hk. rewrite nth_repeat.
      apply (zs_zero d g); [pose proof (zs_nonneg d g); lia|]. lia.
    - destruct (Z.eq_dec (zs d g) 1) as [E|E]; [left; rewrite E; change (inject_Z 1) with 1%Q; ring|right].
      assert (inject_Z 2 <= inject_Z (zs d g))%Q as H2 by (rewrite <- Zle_Qle; lia). change (inject_Z 2) with 2%Q in H2.
      assert (0 <= a * a)%Q by apply square_nonneg. nra.
  Qed.

  Lemma cubic_col k : k < d -> (column_sq d V k == a * a)%Q.
  Proof.
    intro Hk. unfold column_sq. transitivity (sum_upto d (fun i => delta k i * (a * a))%Q).
    - apply sum_ext. intros i Hi. rewrite (proj2 Hcub i k) by auto. unfold delta. rewrite (Nat.eqb_sym i k). destruct (k =? i); ring.
    - exact (sum_delta d k (fun _ => (a * a)%Q) Hk).
  Qed.

  Lemma cubic_cells cells : get_neighbor_cells b 0 true isclose2 = Some cells ->
    forall n, In n cells <-> n = repeat 0%Z d \/ exists k s, k < d /\ Z.abs s = 1%Z /\ n = unit_vector d k s.
  Proof.
    intros Hc n.
    assert (forall k s, k < d -> Z.abs s = 1%Z -> int_box d 1 (unit_vector d k s) /\ (cell_sq d V (unit_vector d k s) == a * a)%Q) as Hu.
    { intros k s Hk Hs. split.
      - split; [apply unit_vector_length|]. intros z Hz. unfold unit_vector in Hz. apply in_map_iff in Hz. destruct Hz as [i [<- _]].
        destruct (i =? k); lia.
      - rewrite (cell_sq_cubic d V a Hcub), unit_vector_sq by auto. change (inject_Z 1) with 1%Q. ring. }
    rewrite (shortest_cells b (a * a) Hb Hd) with (cells := cells); auto.
    - fold d V. split.
      + intros [Hbox [->|E]]; [left; reflexivity|right]. pose proof (proj1 Hbox) as Hn.
        rewrite (cell_sq_cubic d V a Hcub) in E. set (g := fun k => nth k n 0%Z) in *.
        assert (zs d g = 1)%Z as E1.
        { assert (inject_Z (zs d g) == 1)%Q as E' by (assert (0 < a * a)%Q by nra; apply (Qmult_inj_l _ _ (a * a)%Q); [lra|rewrite E; ring]).
          apply inject_Z_injective. exact E'. }
        assert (In n (steps d)) as Hs by (apply In_steps; auto). unfold steps in Hs. apply in_flat_map in Hs.
        destruct Hs as [k [Hk [<-|[<-|[]]]]]; apply in_seq in Hk; exists k; eexists; (split; [lia|split; [|reflexivity]]); reflexivity.
      + intros [->|[k [s [Hk [Hs ->]]]]].
        * split; auto. split; [apply repeat_length|]. intros z Hz. apply repeat_spec in Hz. lia.
        * destruct (Hu k s Hk Hs). auto.
    - assert (1 # 1000000000000 == (1 # 1000000) * (1 # 1000000))%Q as E by reflexivity. rewrite E. nra.
    - apply cubic_col.
    - apply cubic_gap.
    - exists (unit_vector d 0 1). apply Hu; [lia|reflexivity].
  Qed.

  Lemma unit_point k s : k < d -> same (cell_point b (unit_vector d k s)) (spike d k (a * inject_Z s)).
  Proof.
    intro Hk. rewrite same_veq. apply (veq_nth_lt _ _ d); [apply cell_point_length; auto|apply spike_length|]. intros i Hi.
    rewrite cell_point_nth by (auto; apply unit_vector_length). fold d V. rewrite (row_sum d V a Hcub) by auto. rewrite unit_vector_nth by auto.
    rewrite nth_spike. apply Nat.ltb_lt in Hi. rewrite Hi. cbn [andb]. destruct (i =? k); [reflexivity|]. change (inject_Z 0) with 0%Q. ring.
  Qed.

  Variables (voronoi : list vec -> option diagram) (near : list vec -> vec -> nat) (ws : ws_cell).
  Hypothesis (Hnear : finds_nearest near) (Hws : wigner_seitz_cell voronoi near b = Some ws).

  Lemma cubic_points : (exists z, In z (ws_points ws) /\ same z (zero d)) /\
    (forall k s, k < d -> Z.abs s = 1%Z -> exists p, In p (ws_points ws) /\ same p (spike d k (a * inject_Z s))) /\
    (forall p, In p (ws_points ws) -> length p = d /\
       (same p (zero d) \/ exists k s, k < d /\ Z.abs s = 1%Z /\ same p (spike d k (a * inject_Z s)))).
  Proof.
    destruct (ws_cells b Hb Hd voronoi near ws Hws) as [cells [Hc [Hp _]]]. pose proof (cubic_cells cells Hc) as Hin. rewrite Hp.
    split; [|split].
    - exists (cell_point b (repeat 0%Z d)). split; [apply in_map, Hin; auto|apply cell_point_zero; auto].
    - intros k s Hk Hs. exists (cell_point b (unit_vector d k s)). split; [apply in_map, Hin; eauto 6|apply unit_point; auto].
    - intros p H. apply in_map_iff in H. destruct H as [n [<- Hn]]. split; [apply cell_point_length; auto|].
      apply Hin in Hn. destruct Hn as [->|[k [s [Hk [Hs ->]]]]]; [left; apply cell_point_zero; auto|].
      right. exists k, s. repeat split; auto; apply unit_point; auto.
  Qed.

  Lemma inner_sign p k s u : length u = d -> k < d -> same p (spike d k (a * inject_Z s)) -> (inner u p == a * inject_Z s * nth k u 0)%Q.
  Proof. intros Hu Hk E. rewrite (inner_same u _ _ E). apply inner_spike; auto. Qed.

  Lemma unit_norm p k s : k < d -> Z.abs s = 1%Z -> same p (spike d k (a * inject_Z s)) -> (inner p p == a * a)%Q.
  Proof.
    intros Hk Hs E. assert (length p = d) as Hp by (rewrite (proj1 E); apply spike_length).
    rewrite (inner_sign p k s p Hp Hk E), (proj2 E k), nth_spike. apply Nat.ltb_lt in Hk. rewrite Hk, Nat.eqb_refl. cbn [andb].
    assert (s = 1 \/ s = -1)%Z as [-> | ->] by lia; [change (inject_Z 1) with 1%Q|change (inject_Z (-1)) with (-1)%Q]; ring.
  Qed.

  Lemma cubic_check x : length x = d ->
    ((forall i, i < d -> (Qabs (nth i x 0) < a / 2)%Q) -> ws_check near ws x = true) /\
    ((exists i, i < d /\ (a / 2 < Qabs (nth i x 0))%Q) -> ws_check near ws x = false).
  Proof.
    intro Hx. destruct cubic_points as [_ [Hex Hall]]. assert (0 < a)%Q as Hpos by apply Hcub. split.
    - intro H. apply (check_true b Hb Hd voronoi near ws Hnear Hws). intros p Hp Hnz. fold d.
      destruct (Hall p Hp) as [Hl [E|[k [s [Hk [Hs E]]]]]]; [contradiction|].
      apply (nearer_origin_lt d); auto. rewrite (inner_sign p k s x Hx Hk E), (unit_norm p k s Hk Hs E).
      specialize (H k Hk). apply Qabs_Qlt_condition in H. setoid_replace (a / 2)%Q with ((1 # 2) * a)%Q in H by field.
      assert (s = 1 \/ s = -1)%Z as [-> | ->] by lia; [change (inject_Z 1) with 1%Q|change (inject_Z (-1)) with (-1)%Q]; nra.
    - intros [k [Hk H]]. setoid_replace (a / 2)%Q with ((1 # 2) * a)%Q in H by field.
      assert (exists s, Z.abs s = 1%Z /\ (Qabs (nth k x 0) == inject_Z s * nth k x 0)%Q) as [s [Hs E]].
      { destruct (Qlt_le_dec (nth k x 0%Q) 0) as [Hn|Hn].
        - exists (-1)%Z. split; [reflexivity|]. rewrite Qabs_neg by lra. change (inject_Z (-1)) with (-1)%Q. ring.
        - exists 1%Z. split; [reflexivity|]. rewrite Qabs_pos by lra. change (inject_Z 1) with 1%Q. ring. }
      destruct (Hex k s Hk Hs) as [p [Hp Ep]].
      apply (check_false b Hb Hd voronoi near ws Hnear Hws x p Hp). fold d.
      apply (farther_origin_lt d); auto; [rewrite (proj1 Ep); apply spike_length|].
      rewrite (inner_sign p k s x Hx Hk Ep), (unit_norm p k s Hk Hs Ep). rewrite E in H. nra.
  Qed.

  (** The vertices of the diagram of these points. *)
  Lemma cubic_vertex x : voronoi_vertex d (ws_points ws) x <-> length x = d /\ forall i, i < d -> (Qabs (nth i x 0) == a / 2)%Q.
  Proof.
    destruct cubic_points as [Hz [Hex Hall]]. assert (0 < a)%Q as Hpos by apply Hcub.
    assert (forall p, In p (ws_points ws) -> length p = d) as HP by (intros p Hp; apply Hall; auto).
    split.
    - intros Hv. pose proof (proj1 Hv) as Hx. split; auto. intros i Hi.
      assert (forall p, In p (ws_points ws) -> 2 * inner x p <= inner p p)%Q as Hle.
      { apply (vertex_near_origin d (ws_points ws) (a * a)); auto. intros p Hp Hnz. destruct (Hall p Hp) as [_ [E|[k [s [Hk [Hs E]]]]]]; [contradiction|].
        apply (unit_norm p k s); auto. }
      setoid_replace (a / 2)%Q with ((1 # 2) * a)%Q by field.
      assert (forall k, k < d -> (Qabs (nth k x 0) <= (1 # 2) * a)%Q) as Hbox.
      { intros k Hk. apply Qabs_Qle_condition.
        destruct (Hex k 1%Z Hk eq_refl) as [p [Hp Ep]]. pose proof (Hle p Hp) as H1.
        destruct (Hex k (-1)%Z Hk eq_refl) as [q [Hq Eq]]. pose proof (Hle q Hq) as H2.
        rewrite (inner_sign p k _ x Hx Hk Ep), (unit_norm p k 1 Hk eq_refl Ep) in H1.
        rewrite (inner_sign q k _ x Hx Hk Eq), (unit_norm q k (-1) Hk eq_refl Eq) in H2.
        change (inject_Z 1) with 1%Q in H1. change (inject_Z (-1)) with (-1)%Q in H2. split; nra. }
      destruct (Qlt_le_dec (Qabs (nth i x 0%Q)) ((1 # 2) * a)) as [H|H]; [|apply Qle_antisym; auto].
      exfalso. apply Qabs_Qlt_condition in H.
      (* no point on the i-th axis is nearest, so all nearest points are orthogonal to it *)
      assert (forall p, is_nearest (ws_points ws) x p -> (inner (spike d i 1) p == 0)%Q) as Hno.
      { intros p [Hp Hmin]. destruct (Hall p Hp) as [Hl [E|[k [s [Hk [Hs E]]]]]].
        - rewrite (inner_same _ _ _ E). apply inner_zero.
        - rewrite (inner_sign p k s) by (auto; apply spike_length). rewrite nth_spike.
          destruct (Nat.eq_dec k i) as [->|Hne].
          + exfalso. destruct Hz as [z [Hz1 Hz2]]. specialize (Hmin z Hz1). rewrite (sqdist_same2 x _ _ Hz2) in Hmin.
            apply (Qle_not_lt _ _ Hmin). apply (nearer_origin_lt d); auto.
            rewrite (inner_sign p i s x Hx Hk E), (unit_norm p i s Hk Hs E).
            assert (s = 1 \/ s = -1)%Z as [-> | ->] by lia; [change (inject_Z 1) with 1%Q|change (inject_Z (-1)) with (-1)%Q]; nra.
          + apply Nat.eqb_neq in Hne. rewrite Hne, andb_false_r. ring. }
      assert (nth i (spike d i 1) 0 == 0)%Q as H1.
      { apply (proj2 Hv); [apply spike_length|]. intros p q Hp Hq. rewrite (Hno p Hp), (Hno q Hq). reflexivity. }
      rewrite nth_spike in H1. apply Nat.ltb_lt in Hi. rewrite Hi, Nat.eqb_refl in H1. cbn [andb] in H1. lra.
    - intros [Hx Habs]. split; auto. intros u Hu Hin i.
      destruct (Nat.lt_ge_cases i d) as [Hi|Hi]; [|rewrite nth_overflow by lia; reflexivity].
      assert (forall k, k < d -> (nth k x 0 == (1 # 2) * a \/ nth k x 0 == - ((1 # 2) * a))%Q) as Hcases.
      { intros k Hk. specialize (Habs k Hk). setoid_replace (a / 2)%Q with ((1 # 2) * a)%Q in Habs by field.
        destruct (Qlt_le_dec (nth k x 0%Q) 0) as [Hn|Hn]; [rewrite Qabs_neg in Habs by lra; right|rewrite Qabs_pos in Habs by lra; left]; lra. }
      assert (forall p, In p (ws_points ws) -> 2 * inner x p <= inner p p)%Q as Hle.
      { intros p Hp. destruct (Hall p Hp) as [Hl [E|[k [s [Hk [Hs E]]]]]].
        - rewrite (inner_same x _ _ E), inner_zero. pose proof (inner_pos p). lra.
        - rewrite (inner_sign p k s x Hx Hk E), (unit_norm p k s Hk Hs E).
          assert (s = 1 \/ s = -1)%Z as [-> | ->] by lia; [change (inject_Z 1) with 1%Q|change (inject_Z (-1)) with (-1)%Q];
            destruct (Hcases k Hk) as [E1|E1]; rewrite E1; nra. }
      destruct Hz as [z [Hz1 Hz2]].
      assert (is_nearest (ws_points ws) x z) as Nz.
      { split; auto. intros q Hq. rewrite (sqdist_same2 x _ _ Hz2). apply (nearer_origin_iff d); auto. }
      assert (exists s, Z.abs s = 1%Z /\ (nth i x 0 == (1 # 2) * a * inject_Z s)%Q) as [s [Hs Es]].
      { destruct (Hcases i Hi) as [E|E]; [exists 1%Z|exists (-1)%Z]; (split; [reflexivity|rewrite E]).
        - change (inject_Z 1) with 1%Q. ring.
        - change (inject_Z (-1)) with (-1)%Q. ring. }
      destruct (Hex i s Hi Hs) as [p [Hp Ep]].
      assert (inject_Z s * inject_Z s == 1)%Q as Ess.
      { assert (s = 1 \/ s = -1)%Z as [-> | ->] by lia; reflexivity. }
      assert (is_nearest (ws_points ws) x p) as Np.
      { split; auto. intros q Hq. apply Qle_trans with (sqdist x (zero d)).
        - apply Qnot_lt_le. intro Hlt. apply (nearer_origin_lt d) in Hlt; auto.
          rewrite (inner_sign p i s x Hx Hi Ep), (unit_norm p i s Hi Hs Ep), Es in Hlt.
          assert (2 * (a * inject_Z s * ((1 # 2) * a * inject_Z s)) == a * a * (inject_Z s * inject_Z s))%Q as E by ring.
          rewrite E, Ess in Hlt. lra.
        - apply (nearer_origin_iff d); auto. }
      pose proof (Hin z p Nz Np) as E. rewrite (inner_same u _ _ Hz2), inner_zero, (inner_sign p i s u Hu Hi Ep) in E.
      assert (a * a * nth i u 0 == a * a * 0)%Q as E2.
      { transitivity (a * inject_Z s * (a * inject_Z s * nth i u 0))%Q.
        - transitivity (a * a * (inject_Z s * inject_Z s) * nth i u 0)%Q; [rewrite Ess; ring|ring].
        - rewrite <- E. ring. }
      assert (0 < a * a)%Q as Haa by nra. apply (Qmult_inj_l _ _ (a * a)%Q); [intro E3; rewrite E3 in Haa; discriminate|exact E2].
  Qed.
End Cubic.
