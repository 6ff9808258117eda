(** * Property C81 (lattpy/spatial.py, basis.py: Wigner-Seitz cells and Brillouin zones) *)
From Coq Require Import String.
From Coq Require Import List ZArith QArith Qround Qabs Qminmax Bool Arith Lia Lqa Permutation.
From Verif Require Import Np NpFacts LinAlg LinFacts SpecUtils PropUtils SpecBasis SpecSpatial SpecStructure BasisModel BasisProofs PropBasis SpatialModel SpatialProofs
  UtilsModel KDProofs NeighborCellProofs SpecGrid GridProofs PropReciprocal PresetModel PropPreset SpecVoronoi VoronoiModel VoronoiProofs.
Import ListNotations.
Open Scope nat_scope.
Open Scope list_scope.

(** [check] decides the Wigner-Seitz cell of the lattice: the points nearer to the origin than to any other lattice
    point are inside, the points nearer to another lattice point are outside. *)
Definition decides_cell (d : nat) (V : list (list Q)) (check : list Q -> bool) : Prop :=
  forall x, length x = d ->
    ((forall n, length n = d -> n <> repeat 0%Z d -> (sqdist x (zero d) < sqdist x (lattice_point d V (zero d) n))%Q) -> check x = true) /\
    ((exists n, length n = d /\ (sqdist x (lattice_point d V (zero d) n) < sqdist x (zero d))%Q) -> check x = false).

Lemma lattice_point_cell b n : valid_basis b -> length n = b_dim b ->
  same (cell_point b n) (lattice_point (b_dim b) (b_mat b) (zero (b_dim b)) n).
Proof.
  intros Hb Hn. rewrite same_veq. apply (veq_nth_lt _ _ (b_dim b)); [apply cell_point_length|unfold lattice_point; rewrite map_length, seq_length; reflexivity|].
  intros i Hi. rewrite cell_point_nth by auto. unfold lattice_point. rewrite nth_map_seq by auto. rewrite nth_zero. ring.
Qed.

(** [check] for any basis: it compares with the points that the cell was made of, which are lattice points. *)
Theorem C81_check :
  forall b voronoi near ws x,
    valid_basis b -> 1 <= b_dim b -> finds_nearest near -> length x = b_dim b ->
    wigner_seitz_cell voronoi near b = Some ws ->
    (forall p, In p (ws_points ws) -> exists n, length n = b_dim b /\ same p (lattice_point (b_dim b) (b_mat b) (zero (b_dim b)) n)) /\
    (exists p, In p (ws_points ws) /\ same p (zero (b_dim b))) /\
    ((forall p, In p (ws_points ws) -> ~ same p (zero (b_dim b)) -> (sqdist x (zero (b_dim b)) < sqdist x p)%Q) -> ws_check near ws x = true) /\
    ((exists p, In p (ws_points ws) /\ (sqdist x p < sqdist x (zero (b_dim b)))%Q) -> ws_check near ws x = false) /\
    ((forall n, length n = b_dim b -> n <> repeat 0%Z (b_dim b) ->
        (sqdist x (zero (b_dim b)) < sqdist x (lattice_point (b_dim b) (b_mat b) (zero (b_dim b)) n))%Q) -> ws_check near ws x = true).
Proof.
  intros b voronoi near ws x Hb Hd Hnear Hx Hws.
  destruct (ws_cells b Hb Hd voronoi near ws Hws) as [cells [_ [Hp [_ [_ [_ [H0 [Hl _]]]]]]]].
  split; [|split; [|split; [|split]]].
  - intros p H. rewrite Hp in H. apply in_map_iff in H. destruct H as [n [<- Hn]]. exists n. split; [auto|apply lattice_point_cell; auto].
  - exists (cell_point b (repeat 0%Z (b_dim b))). split; [rewrite Hp; apply in_map; exact H0|apply cell_point_zero; auto].
  - apply (check_true b Hb Hd voronoi near ws Hnear Hws).
  - intros [p [H1 H2]]. apply (check_false b Hb Hd voronoi near ws Hnear Hws x p); auto.
  - intro H. apply (check_true b Hb Hd voronoi near ws Hnear Hws). intros p H1 H2. rewrite Hp in H1. apply in_map_iff in H1. destruct H1 as [n [<- Hn]].
    rewrite (sqdist_same2 x _ _ (lattice_point_cell b n Hb (Hl n Hn))). apply H; [auto|]. intros ->. apply H2. apply cell_point_zero; auto.
Qed.

Lemma decides_from b voronoi near ws :
  valid_basis b -> 1 <= b_dim b -> finds_nearest near -> wigner_seitz_cell voronoi near b = Some ws ->
  (forall x, length x = b_dim b -> (forall p, In p (ws_points ws) -> (2 * inner x p <= inner p p)%Q) ->
     forall n, length n = b_dim b -> (2 * inner x (cell_point b n) <= inner (cell_point b n) (cell_point b n))%Q) ->
  decides_cell (b_dim b) (b_mat b) (ws_check near ws).
Proof.
  intros Hb Hd Hnear Hws Hall x Hx. destruct (C81_check b voronoi near ws x Hb Hd Hnear Hx Hws) as [_ [_ [_ [Hf Ht]]]]. split; auto.
  intros [n [Hn Hlt]]. rewrite <- (sqdist_same2 x _ _ (lattice_point_cell b n Hb Hn)) in Hlt.
  apply (farther_origin_lt (b_dim b)) in Hlt; auto using cell_point_length.
  destruct (forallb (fun p => Qle_bool (2 * inner x p) (inner p p)) (ws_points ws)) eqn:E.
  - rewrite forallb_forall in E. specialize (Hall x Hx (fun p Hp => proj1 (Qle_bool_iff _ _) (E p Hp)) n Hn). exfalso. lra.
  - assert (exists p, In p (ws_points ws) /\ Qle_bool (2 * inner x p) (inner p p) = false) as [p [Hp Hp2]].
    { clear - E. induction (ws_points ws) as [|p P IH]; cbn in E; [discriminate|]. apply andb_false_iff in E. destruct E as [E|E].
      - exists p. split; [left; reflexivity|exact E].
      - destruct (IH E) as [q [Hq Hq2]]. exists q. split; [right; exact Hq|exact Hq2]. }
    apply Hf. exists p. split; auto. apply (farther_origin_lt (b_dim b)); auto.
    + apply (points_length b Hb Hd voronoi near ws Hws p Hp).
    + apply Qle_bool_false_iff in Hp2. exact Hp2.
Qed.

(** ** Hypercubic lattices *)

Lemma cubic_halfspaces b a voronoi near ws x n :
  valid_basis b -> 1 <= b_dim b -> ((1 # 1000000) <= a)%Q -> cubic_lattice (b_dim b) (b_mat b) a ->
  wigner_seitz_cell voronoi near b = Some ws -> length x = b_dim b -> length n = b_dim b ->
  (forall p, In p (ws_points ws) -> (2 * inner x p <= inner p p)%Q) ->
  (2 * inner x (cell_point b n) <= inner (cell_point b n) (cell_point b n))%Q.
Proof.
  intros Hb Hd Ha Hcub Hws Hx Hn Hle. assert (0 < a)%Q as Hpos by apply Hcub.
  destruct (cubic_points b a Hb Hd Ha Hcub voronoi near ws Hws) as [_ [Hex _]].
  assert (forall k, k < b_dim b -> (- a <= 2 * nth k x 0 <= a)%Q) as Hk.
  { intros k Hk. destruct (Hex k 1%Z Hk eq_refl) as [p [Hp Ep]]. pose proof (Hle p Hp) as H1.
    destruct (Hex k (-1)%Z Hk eq_refl) as [q [Hq Eq]]. pose proof (Hle q Hq) as H2.
    rewrite (inner_sign b a p k 1 x Hx Hk Ep), (unit_norm b a Hd p k 1 Hk eq_refl Ep) in H1.
    rewrite (inner_sign b a q k (-1) x Hx Hk Eq), (unit_norm b a Hd q k (-1) Hk eq_refl Eq) in H2.
    change (inject_Z 1) with 1%Q in H1. change (inject_Z (-1)) with (-1)%Q in H2. split; nra. }
  unfold inner. rewrite Hx, cell_point_length. setoid_replace (2 * sum_upto (b_dim b) (fun i => nth i x 0 * nth i (cell_point b n) 0))%Q
    with (sum_upto (b_dim b) (fun i => 2 * nth i x 0 * nth i (cell_point b n) 0))%Q.
  - apply sum_le. intros i Hi. rewrite cell_point_nth by auto. rewrite (row_sum (b_dim b) (b_mat b) a Hcub n i Hi).
    specialize (Hk i Hi). set (z := nth i n 0%Z). set (t := nth i x 0%Q) in *.
    assert (z <= z * z)%Z as Z1 by nia. assert (- z <= z * z)%Z as Z2 by nia. rewrite Zle_Qle, inject_Z_mult in Z1, Z2. rewrite inject_Z_opp in Z2.
    set (q := inject_Z z) in *.
    assert (2 * t * q <= a * (q * q))%Q as H by (destruct (Qlt_le_dec q 0); nra). nra.
  - clear. induction (b_dim b) as [|m IH]; cbn [sum_upto]; [ring|]. rewrite <- IH. ring.
Qed.

Lemma half_nth p i : (nth i (map (fun y => (y / 2)%Q) p) 0 == nth i p 0 / 2)%Q.
Proof.
  destruct (Nat.lt_ge_cases i (length p)) as [H|H].
  - rewrite (nth_indep _ 0%Q (0 / 2)%Q) by (rewrite map_length; auto). rewrite (map_nth (fun y => (y / 2)%Q)). reflexivity.
  - rewrite !nth_overflow by (rewrite ?map_length; auto). reflexivity.
Qed.

(** The cell of a hypercubic lattice is the cube with side [a]; its corners are the vertices. *)
Theorem C81_hypercubic :
  forall b a voronoi near ws,
    valid_basis b -> 1 <= b_dim b -> cubic_lattice (b_dim b) (b_mat b) a -> ((1 # 1000000) <= a)%Q ->
    finds_nearest near ->
    (forall P dg, voronoi P = Some dg -> is_diagram (b_dim b) P (dg_vertices dg) (dg_ridge_points dg) (dg_ridge_vertices dg)) ->
    wigner_seitz_cell voronoi near b = Some ws ->
    decides_cell (b_dim b) (b_mat b) (ws_check near ws) /\
    (forall x, length x = b_dim b ->
       ((forall i, i < b_dim b -> (Qabs (nth i x 0) < a / 2)%Q) -> ws_check near ws x = true) /\
       ((exists i, i < b_dim b /\ (a / 2 < Qabs (nth i x 0))%Q) -> ws_check near ws x = false)) /\
    (forall v, In v (ws_vertices ws) -> length v = b_dim b) /\
    (forall x, length x = b_dim b ->
       ((exists v, In v (ws_vertices ws) /\ same v x) <-> forall i, i < b_dim b -> (Qabs (nth i x 0) == a / 2)%Q)).
Proof.
  intros b a voronoi near ws Hb Hd Hcub Ha Hnear Hvor Hws. set (d := b_dim b) in *.
  split; [|split; [|]].
  - apply (decides_from b voronoi near ws); auto. intros x Hx Hle n Hn. apply (cubic_halfspaces b a voronoi near ws); auto.
  - intros x Hx. apply (cubic_check b a Hb Hd Ha Hcub voronoi near ws Hnear Hws x Hx).
  - pose proof (cubic_points b a Hb Hd Ha Hcub voronoi near ws Hws) as [Hz [Hex Hall]]. fold d in Hz, Hex, Hall.
    destruct (ws_cells b Hb Hd voronoi near ws Hws) as [cells [_ [_ [_ [_ [_ [_ [_ [Hbig Hone]]]]]]]]]. fold d in Hbig, Hone.
    assert (0 < a)%Q as Hpos by apply Hcub.
    destruct (Nat.eq_dec d 1) as [E1|E1].
    + destruct (Hone E1) as [_ Hv]. split.
      * intros v H. rewrite Hv in H. apply filter_In in H. destruct H as [H _]. apply in_map_iff in H. destruct H as [p [<- Hp]].
        rewrite map_length. apply Hall. auto.
      * intros x Hx. split.
        -- intros [v [H E]] i Hi. rewrite Hv in H. apply filter_In in H. destruct H as [H Hnz]. apply in_map_iff in H. destruct H as [p [<- Hp]].
           rewrite <- (proj2 E i). destruct (Hall p Hp) as [Hl [E0|[k [s [Hk [Hs E0]]]]]].
           ++ exfalso. apply negb_true_iff in Hnz. assert (forallb (fun y => Qeq_bool y 0) (map (fun y => (y / 2)%Q) p) = true) as F; [|congruence].
              apply forallb_forall. intros y Hy. apply in_map_iff in Hy. destruct Hy as [z [<- Hz1]]. apply Qeq_bool_iff.
              apply In_nth with (d := 0%Q) in Hz1. destruct Hz1 as [j [_ <-]]. rewrite (proj2 E0 j), nth_zero. reflexivity.
           ++ assert (i = 0) as -> by lia. assert (k = 0) as -> by lia. rewrite half_nth.
              rewrite (proj2 E0 0), nth_spike. rewrite E1. cbn [Nat.ltb Nat.leb Nat.eqb andb].
              assert (s = 1 \/ s = -1)%Z as [-> | ->] by lia.
              ** change (inject_Z 1) with 1%Q. setoid_replace (a * 1 / 2)%Q with (a / 2)%Q by field. apply Qabs_pos.
                 setoid_replace (a / 2)%Q with ((1 # 2) * a)%Q by field. lra.
              ** change (inject_Z (-1)) with (-1)%Q. setoid_replace (a * -1 / 2)%Q with (- (a / 2))%Q by field. rewrite Qabs_opp. apply Qabs_pos.
                 setoid_replace (a / 2)%Q with ((1 # 2) * a)%Q by field. lra.
        -- intro H. specialize (H 0 ltac:(lia)).
           assert (exists s, Z.abs s = 1%Z /\ (nth 0 x 0 == a * inject_Z s / 2)%Q) as [s [Hs Es]].
           { destruct (Qlt_le_dec (nth 0 x 0%Q) 0) as [Hn|Hn].
             - exists (-1)%Z. split; [reflexivity|]. rewrite Qabs_neg in H by lra. change (inject_Z (-1)) with (-1)%Q.
               setoid_replace (a * -1 / 2)%Q with (- (a / 2))%Q by field. rewrite <- H. ring.
             - exists 1%Z. split; [reflexivity|]. rewrite Qabs_pos in H by lra. change (inject_Z 1) with 1%Q. rewrite H. field. }
           destruct (Hex 0 s ltac:(lia) Hs) as [p [Hp Ep]]. exists (map (fun y => (y / 2)%Q) p). destruct (Hall p Hp) as [Hl _].
           assert (nth 0 p 0 == a * inject_Z s)%Q as E0.
           { rewrite (proj2 Ep 0), nth_spike. rewrite E1. reflexivity. }
           split.
           ++ rewrite Hv. apply filter_In. split; [apply in_map; auto|]. apply negb_true_iff. destruct p as [|y [|]]; try (cbn in Hl; lia).
              cbn [map forallb nth] in *. rewrite andb_true_r. apply Bool.not_true_iff_false. rewrite Qeq_bool_iff. rewrite E0.
              assert (s = 1 \/ s = -1)%Z as [-> | ->] by lia; [change (inject_Z 1) with 1%Q|change (inject_Z (-1)) with (-1)%Q]; intro F;
              [assert (a * 1 / 2 == (1 # 2) * a)%Q as F2 by field|assert (a * -1 / 2 == (-1 # 2) * a)%Q as F2 by field]; rewrite F2 in F; lra.
           ++ split; [rewrite map_length; congruence|]. intro i. destruct (Nat.eq_dec i 0) as [->|Hi].
              ** rewrite half_nth, E0, Es. reflexivity.
              ** rewrite !nth_overflow by (rewrite ?map_length; lia). reflexivity.
    + destruct (Hbig ltac:(lia)) as [dg [Hdg [Hv _]]]. destruct (Hvor _ _ Hdg) as [V1 [V2 _]]. rewrite Hv. fold d in V1, V2. split.
      * intros v H. apply (V1 v H).
      * intros x Hx. split.
        -- intros [v [H E]] i Hi. apply V1 in H. apply (cubic_vertex b a Hb Hd Ha Hcub voronoi near ws Hws) in H. rewrite <- (proj2 E i). apply H. exact Hi.
        -- intro H. apply V2. apply (cubic_vertex b a Hb Hd Ha Hcub voronoi near ws Hws). split; auto.
Qed.

(** [limits] are the smallest and the largest coordinates of the vertices, one row per axis. *)
Theorem C81_limits :
  forall ws d,
    (forall v, In v (ws_vertices ws) -> length v = d) ->
    (ws_limits ws = None <-> ws_vertices ws = []) /\
    forall L, ws_limits ws = Some L -> length L = d /\
      forall j, j < d -> exists lo hi, nth j L [] = [lo; hi] /\
        is_min (map (fun v => nth j v 0%Q) (ws_vertices ws)) lo /\ is_max (map (fun v => nth j v 0%Q) (ws_vertices ws)) hi.
Proof.
  intros ws d Hv. unfold ws_limits. destruct (ws_vertices ws) as [|v0 rest].
  - split; [split; reflexivity|discriminate].
  - split; [split; discriminate|]. intros L H. injection H as <-. rewrite (Hv v0 (or_introl eq_refl)). split; [rewrite map_length, seq_length; reflexivity|].
    intros j Hj. rewrite nth_map_seq by auto. cbv zeta. eexists. eexists. split; [reflexivity|]. cbn [map].
    split; [apply qmin_list_is_min|apply qmax_list_is_max].
Qed.

Lemma min_value l x y : is_min l x -> is_min l y -> (x == y)%Q.
Proof. intros [[u [Hu Eu]] Hx] [[v [Hv Ev]] Hy]. apply Qle_antisym; [rewrite <- Ev; apply Hx; auto|rewrite <- Eu; apply Hy; auto]. Qed.
Lemma max_value l x y : is_max l x -> is_max l y -> (x == y)%Q.
Proof. intros [[u [Hu Eu]] Hx] [[v [Hv Ev]] Hy]. apply Qle_antisym; [rewrite <- Eu; apply Hy; auto|rewrite <- Ev; apply Hx; auto]. Qed.

(** For a hypercubic lattice the limits are those of the cube, but [size] subtracts the wrong rows: it is zero in two
    and more dimensions, and an IndexError in one. *)
Theorem C81_size_refuted :
  forall b a voronoi near ws,
    valid_basis b -> 1 <= b_dim b -> cubic_lattice (b_dim b) (b_mat b) a -> ((1 # 1000000) <= a)%Q ->
    finds_nearest near ->
    (forall P dg, voronoi P = Some dg -> is_diagram (b_dim b) P (dg_vertices dg) (dg_ridge_points dg) (dg_ridge_vertices dg)) ->
    wigner_seitz_cell voronoi near b = Some ws ->
    (exists L, ws_limits ws = Some L /\ length L = b_dim b /\ forall j, j < b_dim b -> same (nth j L []) [- (a / 2); a / 2]%Q) /\
    (b_dim b = 1 -> ws_size ws = None) /\
    (2 <= b_dim b -> exists z, ws_size ws = Some z /\ same z [0; 0]%Q).
Proof.
  intros b a voronoi near ws Hb Hd Hcub Ha Hnear Hvor Hws. set (d := b_dim b) in *.
  destruct (C81_hypercubic b a voronoi near ws Hb Hd Hcub Ha Hnear Hvor Hws) as [_ [_ [Hlen Hvert]]]. fold d in Hlen, Hvert.
  assert (0 < a)%Q as Hpos by apply Hcub.
  assert (0 < a / 2)%Q as Hh by (setoid_replace (a / 2)%Q with ((1 # 2) * a)%Q by field; lra).
  destruct (C81_limits ws d Hlen) as [Hnone Hlim].
  assert (forall t, (Qabs t == a / 2)%Q -> forall j, j < d -> exists v, In v (ws_vertices ws) /\ (nth j v 0 == t)%Q) as Hcorner.
  { intros t Ht j Hj. destruct (proj2 (Hvert (repeat t d) (repeat_length _ _))) as [v [Hv E]].
    - intros i Hi. rewrite (nth_indep _ 0%Q t) by (rewrite repeat_length; auto). rewrite nth_repeat. exact Ht.
    - exists v. split; auto. rewrite (proj2 E j). rewrite (nth_indep _ 0%Q t) by (rewrite repeat_length; auto). rewrite nth_repeat. reflexivity. }
  assert (forall v, In v (ws_vertices ws) -> forall j, j < d -> (- (a / 2) <= nth j v 0 <= a / 2)%Q) as Hin.
  { intros v Hv j Hj. apply Qabs_Qle_condition. apply Qle_lteq. right. apply (proj1 (Hvert v (Hlen v Hv))); auto. exists v. split; auto. rewrite same_veq. apply veq_refl. }
  assert (Qabs (a / 2) == a / 2)%Q as A1 by (apply Qabs_pos; lra).
  assert (Qabs (- (a / 2)) == a / 2)%Q as A2 by (rewrite Qabs_opp; exact A1).
  destruct (ws_limits ws) as [L|] eqn:EL.
  2:{ exfalso. destruct (Hcorner (a / 2)%Q A1 0 ltac:(lia)) as [v [Hv _]]. rewrite (proj1 Hnone eq_refl) in Hv. destruct Hv. }
  destruct (Hlim L eq_refl) as [HL Hrow].
  assert (forall j, j < d -> same (nth j L []) [- (a / 2); a / 2]%Q) as Hrows.
  { intros j Hj. destruct (Hrow j Hj) as [lo [hi [E [Hmin Hmax]]]]. rewrite E. rewrite !same_cons. split; [|split; [|apply same_nil]].
    - apply (min_value _ _ _ Hmin). split.
      + destruct (Hcorner (- (a / 2))%Q A2 j Hj) as [v [Hv Ev]]. exists (nth j v 0%Q). split; [apply in_map_iff; eauto|exact Ev].
      + intros x Hx. apply in_map_iff in Hx. destruct Hx as [v [<- Hv]]. apply Hin; auto.
    - apply (max_value _ _ _ Hmax). split.
      + destruct (Hcorner (a / 2)%Q A1 j Hj) as [v [Hv Ev]]. exists (nth j v 0%Q). split; [apply in_map_iff; eauto|exact Ev].
      + intros x Hx. apply in_map_iff in Hx. destruct Hx as [v [<- Hv]]. apply Hin; auto. }
  split; [exists L; auto|]. unfold ws_size. rewrite EL. split.
  - intro E1. destruct L as [|l0 [|l1 L]]; try reflexivity. cbn in HL. lia.
  - intro E2. destruct L as [|l0 [|l1 L]]; cbn in HL; try lia. exists (vsub l1 l0). split; [reflexivity|].
    pose proof (Hrows 0 ltac:(lia)) as H0. pose proof (Hrows 1 ltac:(lia)) as H1. cbn [nth] in H0, H1.
    destruct l0 as [|x0 [|y0 [|]]]; try (destruct H0 as [H0 _]; cbn in H0; lia).
    destruct l1 as [|x1 [|y1 [|]]]; try (destruct H1 as [H1 _]; cbn in H1; lia).
    rewrite !same_cons in H0, H1. cbn. rewrite !same_cons. destruct H0 as [E01 [E02 _]], H1 as [E11 [E12 _]].
    split; [|split; [|apply same_nil]]; [rewrite E01, E11|rewrite E02, E12]; ring.
Qed.

(** ** The face-centred cubic lattice *)

Lemma fcc_cell_point inv a n1 n2 n3 : same (cell_point (fcc inv a) [n1; n2; n3]) (half_point a (n1 + n2) (n1 + n3) (n2 + n3)).
Proof. exact (fcc_point inv a n1 n2 n3). Qed.

Lemma inner_half x1 x2 x3 a i j k :
  (inner [x1; x2; x3] (half_point a i j k) == (1 # 2) * a * (x1 * inject_Z i + x2 * inject_Z j + x3 * inject_Z k))%Q.
Proof. unfold inner, half_point. cbn -[Qmult Qplus inject_Z Qdiv]. field. Qed.

Lemma norm_half a i j k p : same p (half_point a i j k) -> (inner p p == (1 # 4) * (a * a) * inject_Z (i * i + j * j + k * k))%Q.
Proof.
  intro E. rewrite (inner_same p _ _ E), (inner_comm p) by apply (proj1 E). rewrite (inner_same _ _ _ E). unfold inner, half_point. cbn -[Qmult Qplus inject_Z Qdiv].
  rewrite !inject_Z_plus, !inject_Z_mult. field.
Qed.

(** The bound behind the cell: sums of two coordinates bound the product with every vector of even sum. *)
Lemma even_bound (i j k : Z) : Z.even (i + j + k) = true ->
  exists s t u : Z, (0 <= s /\ 0 <= t /\ 0 <= u /\ Z.abs i <= s + t /\ Z.abs j <= s + u /\ Z.abs k <= t + u /\ 2 * (s + t + u) <= i * i + j * j + k * k)%Z.
Proof.
  intro E.
  (* s, t, u split the absolute values; the parity leaves no remainder *)
  assert (forall i j k, 0 <= i -> 0 <= j -> 0 <= k -> Z.even (i + j + k) = true ->
    exists s t u, 0 <= s /\ 0 <= t /\ 0 <= u /\ i <= s + t /\ j <= s + u /\ k <= t + u /\ 2 * (s + t + u) <= i * i + j * j + k * k)%Z as H.
  { clear. intros i j k Hi Hj Hk E. apply Z.even_spec in E. destruct E as [m E].
    destruct (Z_le_gt_dec (j + k) i) as [C|C].
    - exists j, (i - j)%Z, 0%Z. repeat split; try lia. assert (i = 0 \/ i = 1 \/ 2 <= i)%Z as [->|[->|G]] by lia; try nia.
    - destruct (Z_le_gt_dec (i + k) j) as [C2|C2].
      + exists i, 0%Z, (j - i)%Z. repeat split; try lia. assert (j = 0 \/ j = 1 \/ 2 <= j)%Z as [->|[->|G]] by lia; try nia.
      + destruct (Z_le_gt_dec (i + j) k) as [C3|C3].
        * exists 0%Z, i, (k - i)%Z. repeat split; try lia. assert (k = 0 \/ k = 1 \/ 2 <= k)%Z as [->|[->|G]] by lia; try nia.
        * exists (m - k)%Z, (m - j)%Z, (m - i)%Z. repeat split; try lia. nia. }
  destruct (H (Z.abs i) (Z.abs j) (Z.abs k)) as [s [t [u [H1 [H2 [H3 [H4 [H5 [H6 H7]]]]]]]]]; try lia.
  - rewrite !Z.even_add in *. rewrite <- E. f_equal; [f_equal|]; destruct (Z.abs_eq_or_opp i), (Z.abs_eq_or_opp j), (Z.abs_eq_or_opp k);
      repeat match goal with H : Z.abs _ = _ |- _ => rewrite H end; rewrite ?Z.even_opp; reflexivity.
  - exists s, t, u. repeat split; auto. replace (i * i)%Z with (Z.abs i * Z.abs i)%Z by nia. replace (j * j)%Z with (Z.abs j * Z.abs j)%Z by nia.
    replace (k * k)%Z with (Z.abs k * Z.abs k)%Z by nia. exact H7.
Qed.

Section Fcc.
  Variables (inv : mat -> mat) (a : Q).
  Local Notation b := (fcc inv a).
  Hypothesis (Hb : valid_basis b) (Ha : ((1 # 100000) <= a)%Q).
  Variables (voronoi : list vec -> option diagram) (near : list vec -> vec -> nat) (ws : ws_cell).
  Hypothesis (Hws : wigner_seitz_cell voronoi near b = Some ws).

  Lemma fcc_norm n1 n2 n3 : (cell_sq 3 (b_mat b) [n1; n2; n3] ==
    (1 # 4) * (a * a) * inject_Z ((n1 + n2) * (n1 + n2) + (n1 + n3) * (n1 + n3) + (n2 + n3) * (n2 + n3)))%Q.
  Proof.
    rewrite <- (norm_half a (n1 + n2) (n1 + n3) (n2 + n3) (cell_point b [n1; n2; n3]) (fcc_cell_point inv a n1 n2 n3)).
    symmetry. apply (cell_point_sq b Hb [n1; n2; n3] eq_refl).
  Qed.

  Lemma three (n : list Z) : length n = 3 -> exists n1 n2 n3, n = [n1; n2; n3].
  Proof. destruct n as [|n1 [|n2 [|n3 [|]]]]; intro L; try discriminate L. eauto. Qed.

  Lemma fcc_ws_points p : In p (ws_points ws) <->
    exists n1 n2 n3, p = cell_point b [n1; n2; n3] /\ (-1 <= n1 <= 1 /\ -1 <= n2 <= 1 /\ -1 <= n3 <= 1)%Z /\
      ((n1 = 0 /\ n2 = 0 /\ n3 = 0) \/ (n1 + n2) * (n1 + n2) + (n1 + n3) * (n1 + n3) + (n2 + n3) * (n2 + n3) = 2)%Z.
  Proof.
    destruct (ws_cells b Hb ltac:(cbn; lia) voronoi near ws Hws) as [cells [Hc [Hp _]]].
    assert (0 < a * a)%Q as Haa by nra.
    assert (forall n1 n2 n3 c, (cell_sq 3 (b_mat b) [n1; n2; n3] == (1 # 4) * (a * a) * inject_Z c)%Q <->
      (n1 + n2) * (n1 + n2) + (n1 + n3) * (n1 + n3) + (n2 + n3) * (n2 + n3) = c)%Z as Hsq.
    { intros n1 n2 n3 c. rewrite fcc_norm. split; [|intros ->; reflexivity]. intro E. apply inject_Z_injective.
      apply (Qmult_inj_l _ _ ((1 # 4) * (a * a))%Q); [|exact E]. intro F. lra. }
    assert (forall n, In n cells <-> int_box 3 1 n /\ (n = repeat 0%Z 3 \/ (cell_sq 3 (b_mat b) n == (1 # 2) * (a * a))%Q)) as Hin.
    { apply (shortest_cells b ((1 # 2) * (a * a)) Hb); auto.
      - cbn. lia.
      - assert (1 # 1000000000000 <= (1 # 2) * ((1 # 100000) * (1 # 100000)))%Q as E by discriminate. nra.
      - intros k Hk. change (b_dim b) with 3 in Hk. unfold column_sq. cbn -[Qmult Qplus Qdiv].
        destruct k as [|[|[|k]]]; try lia; cbn -[Qmult Qplus Qdiv]; field.
      - intros n Hn Hnz. change (b_dim b) with 3 in *. destruct (three n (proj1 Hn)) as [n1 [n2 [n3 ->]]].
        set (S := ((n1 + n2) * (n1 + n2) + (n1 + n3) * (n1 + n3) + (n2 + n3) * (n2 + n3))%Z).
        assert (S = 2 \/ 3 <= S)%Z as [E|E].
        { assert (n1 = 0 /\ n2 = 0 /\ n3 = 0 \/ 1 <= S)%Z as [[-> [-> ->]]|H1].
          - unfold S. destruct (Z.eq_dec (n1 + n2) 0), (Z.eq_dec (n1 + n3) 0), (Z.eq_dec (n2 + n3) 0); try (right; nia); left; lia.
          - exfalso. apply Hnz. reflexivity.
          - assert (exists m, S = 2 * m)%Z as [m Em].
            { exists (n1 * n1 + n2 * n2 + n3 * n3 + n1 * n2 + n1 * n3 + n2 * n3)%Z. unfold S. ring. }
            lia. }
        + left. assert ((1 # 2) * (a * a) == (1 # 4) * (a * a) * inject_Z 2)%Q as -> by (change (inject_Z 2) with 2%Q; ring). apply Hsq. exact E.
        + right. rewrite fcc_norm. fold S. rewrite Zle_Qle in E. change (inject_Z 3) with 3%Q in E. nra.
      - exists [1; 0; 0]%Z. split; [split; [reflexivity|intros k [<-|[<-|[<-|[]]]]; lia]|].
        assert ((1 # 2) * (a * a) == (1 # 4) * (a * a) * inject_Z 2)%Q as -> by (change (inject_Z 2) with 2%Q; ring). apply Hsq. reflexivity. }
    rewrite Hp, in_map_iff. split.
    - intros [n [<- Hn]]. apply Hin in Hn. destruct Hn as [[L Hn] H]. destruct (three n L) as [n1 [n2 [n3 ->]]]. exists n1, n2, n3.
      split; [reflexivity|]. split; [repeat split; apply Hn; cbn; auto|].
      destruct H as [H|H]; [left; injection H as -> -> ->; auto|right]. apply Hsq. rewrite H. change (inject_Z 2) with 2%Q. ring.
    - intros [n1 [n2 [n3 [-> [[H1 [H2 H3]] H]]]]]. exists [n1; n2; n3]. split; [reflexivity|]. apply Hin. split.
      + split; [reflexivity|]. intros k [<-|[<-|[<-|[]]]]; auto.
      + destruct H as [[-> [-> ->]]|H]; [left; reflexivity|right].
        assert ((1 # 2) * (a * a) == (1 # 4) * (a * a) * inject_Z 2)%Q as -> by (change (inject_Z 2) with 2%Q; ring). apply Hsq. exact H.
  Qed.

  Lemma fcc_inner x1 x2 x3 n1 n2 n3 : (inner [x1; x2; x3] (cell_point b [n1; n2; n3]) ==
    (1 # 2) * a * (x1 * inject_Z (n1 + n2) + x2 * inject_Z (n1 + n3) + x3 * inject_Z (n2 + n3)))%Q.
  Proof. rewrite (inner_same _ _ _ (fcc_cell_point inv a n1 n2 n3)). apply inner_half. Qed.

  Definition sums_within (x : list Q) (c : Q) : Prop :=
    (Qabs (nth 0 x 0) + Qabs (nth 1 x 0) <= c /\ Qabs (nth 0 x 0) + Qabs (nth 2 x 0) <= c /\ Qabs (nth 1 x 0) + Qabs (nth 2 x 0) <= c)%Q.

  Lemma abs_sum x y c : (x + y <= c -> x - y <= c -> - x + y <= c -> - x - y <= c -> Qabs x + Qabs y <= c)%Q.
  Proof. intros. apply (Qabs_case x); apply (Qabs_case y); intros; lra. Qed.

  Lemma abs_sum_lt x y c : (Qabs x + Qabs y < c -> x + y < c /\ x - y < c /\ - x + y < c /\ - x - y < c)%Q.
  Proof. apply (Qabs_case x); apply (Qabs_case y); intros; repeat split; lra. Qed.

  Lemma fcc_sums x : length x = 3 ->
    (forall p, In p (ws_points ws) -> (2 * inner x p <= inner p p)%Q) <-> sums_within x ((1 # 2) * a).
  Proof.
    intro L. destruct x as [|x1 [|x2 [|x3 [|]]]]; try discriminate L. clear L. unfold sums_within. cbn [nth].
    assert (0 < a)%Q as Hpos by lra. assert (0 < a * a)%Q as Haa by nra.
    assert (forall n1 n2 n3, (-1 <= n1 <= 1 /\ -1 <= n2 <= 1 /\ -1 <= n3 <= 1)%Z ->
      ((n1 + n2) * (n1 + n2) + (n1 + n3) * (n1 + n3) + (n2 + n3) * (n2 + n3) = 2)%Z ->
      In (cell_point b [n1; n2; n3]) (ws_points ws)) as Hex.
    { intros n1 n2 n3 H1 H2. apply fcc_ws_points. exists n1, n2, n3. auto. }
    assert (forall n1 n2 n3, ((n1 + n2) * (n1 + n2) + (n1 + n3) * (n1 + n3) + (n2 + n3) * (n2 + n3) = 2)%Z ->
      (2 * inner [x1; x2; x3] (cell_point b [n1; n2; n3]) <= inner (cell_point b [n1; n2; n3]) (cell_point b [n1; n2; n3]) <->
       x1 * inject_Z (n1 + n2) + x2 * inject_Z (n1 + n3) + x3 * inject_Z (n2 + n3) <= (1 # 2) * a)%Q) as Hpt.
    { intros n1 n2 n3 H. rewrite fcc_inner, (norm_half a _ _ _ _ (fcc_cell_point inv a n1 n2 n3)), H. change (inject_Z 2) with 2%Q.
      set (y := (x1 * inject_Z (n1 + n2) + x2 * inject_Z (n1 + n3) + x3 * inject_Z (n2 + n3))%Q). split; intro; nra. }
    split.
    - intro H.
      assert (forall n1 n2 n3, (-1 <= n1 <= 1 /\ -1 <= n2 <= 1 /\ -1 <= n3 <= 1)%Z ->
        ((n1 + n2) * (n1 + n2) + (n1 + n3) * (n1 + n3) + (n2 + n3) * (n2 + n3) = 2)%Z ->
        (x1 * inject_Z (n1 + n2) + x2 * inject_Z (n1 + n3) + x3 * inject_Z (n2 + n3) <= (1 # 2) * a)%Q) as G.
      { intros n1 n2 n3 G1 G2. apply Hpt; auto. }
      pose proof (G 1 0 0 ltac:(lia) eq_refl)%Z as G1. pose proof (G (-1) 0 0 ltac:(lia) eq_refl)%Z as G2.
      pose proof (G 0 1 0 ltac:(lia) eq_refl)%Z as G3. pose proof (G 0 (-1) 0 ltac:(lia) eq_refl)%Z as G4.
      pose proof (G 0 0 1 ltac:(lia) eq_refl)%Z as G5. pose proof (G 0 0 (-1) ltac:(lia) eq_refl)%Z as G6.
      pose proof (G 1 (-1) 0 ltac:(lia) eq_refl)%Z as G7. pose proof (G (-1) 1 0 ltac:(lia) eq_refl)%Z as G8.
      pose proof (G 1 0 (-1) ltac:(lia) eq_refl)%Z as G9. pose proof (G (-1) 0 1 ltac:(lia) eq_refl)%Z as G10.
      pose proof (G 0 1 (-1) ltac:(lia) eq_refl)%Z as G11. pose proof (G 0 (-1) 1 ltac:(lia) eq_refl)%Z as G12.
      cbn [Z.add Z.pos_sub Pos.add] in *. change (inject_Z 1) with 1%Q in *. change (inject_Z (-1)) with (-1)%Q in *. change (inject_Z 0) with 0%Q in *.
      repeat split; apply abs_sum; lra.
    - intros [S1 [S2 S3]] p Hp. apply fcc_ws_points in Hp. destruct Hp as [n1 [n2 [n3 [-> [Hr [[-> [-> ->]]|H]]]]]].
      + rewrite fcc_inner. change (0 + 0)%Z with 0%Z. change (inject_Z 0) with 0%Q. pose proof (inner_pos (cell_point b [0; 0; 0]%Z)). lra.
      + apply Hpt; auto. revert S1 S2 S3. apply (Qabs_case x1); apply (Qabs_case x2); apply (Qabs_case x3); intros.
        all: assert (n1 = -1 \/ n1 = 0 \/ n1 = 1)%Z as C1 by lia; assert (n2 = -1 \/ n2 = 0 \/ n2 = 1)%Z as C2 by lia; assert (n3 = -1 \/ n3 = 0 \/ n3 = 1)%Z as C3 by lia;
          destruct C1 as [->|[->| ->]], C2 as [->|[->| ->]], C3 as [->|[->| ->]]; try discriminate H;
          cbn [Z.add Z.pos_sub Pos.add]; change (inject_Z 1) with 1%Q; change (inject_Z (-1)) with (-1)%Q; change (inject_Z 0) with 0%Q; lra.
  Qed.

  Lemma fcc_halfspaces x n : length x = 3 -> length n = 3 -> sums_within x ((1 # 2) * a) ->
    (2 * inner x (cell_point b n) <= inner (cell_point b n) (cell_point b n))%Q.
  Proof.
    intros Lx Ln [S1 [S2 S3]]. destruct x as [|x1 [|x2 [|x3 [|]]]]; try discriminate Lx. cbn [nth] in *. destruct (three n Ln) as [n1 [n2 [n3 ->]]].
    rewrite fcc_inner, (norm_half a _ _ _ _ (fcc_cell_point inv a n1 n2 n3)).
    set (i := (n1 + n2)%Z). set (j := (n1 + n3)%Z). set (k := (n2 + n3)%Z).
    assert (Z.even (i + j + k) = true) as Ev by (apply Z.even_spec; exists (n1 + n2 + n3)%Z; unfold i, j, k; lia).
    destruct (even_bound i j k Ev) as [s [t [u [H1 [H2 [H3 [H4 [H5 [H6 H7]]]]]]]]].
    assert (forall x z, x * inject_Z z <= Qabs x * inject_Z (Z.abs z))%Q as Hprod.
    { intros x z. apply Qle_trans with (Qabs (x * inject_Z z)); [apply Qle_Qabs|]. rewrite Qabs_Qmult. apply Qle_lteq. right. reflexivity. }
    pose proof (Hprod x1 i) as P1. pose proof (Hprod x2 j) as P2. pose proof (Hprod x3 k) as P3.
    rewrite Zle_Qle in H1, H2, H3, H4, H5, H6, H7. rewrite ?inject_Z_mult, ?inject_Z_plus in H4, H5, H6. rewrite inject_Z_mult, !inject_Z_plus in H7.
    change (inject_Z 0) with 0%Q in *. change (inject_Z 2) with 2%Q in *.
    pose proof (Qabs_nonneg x1) as N1. pose proof (Qabs_nonneg x2) as N2. pose proof (Qabs_nonneg x3) as N3.
    rewrite !inject_Z_plus.
    set (y1 := Qabs x1) in *. set (y2 := Qabs x2) in *. set (y3 := Qabs x3) in *. set (s' := inject_Z s) in *. set (t' := inject_Z t) in *. set (u' := inject_Z u) in *.
    assert (x1 * inject_Z i + x2 * inject_Z j + x3 * inject_Z k <= y1 * (s' + t') + y2 * (s' + u') + y3 * (t' + u'))%Q as B1.
    { assert (y1 * inject_Z (Z.abs i) <= y1 * (s' + t'))%Q by nra. assert (y2 * inject_Z (Z.abs j) <= y2 * (s' + u'))%Q by nra.
      assert (y3 * inject_Z (Z.abs k) <= y3 * (t' + u'))%Q by nra. lra. }
    assert (y1 * (s' + t') + y2 * (s' + u') + y3 * (t' + u') <= (1 # 2) * a * (s' + t' + u'))%Q as B2 by nra.
    set (X := (x1 * inject_Z i + x2 * inject_Z j + x3 * inject_Z k)%Q) in *. set (N := (inject_Z (i * i) + inject_Z (j * j) + inject_Z (k * k))%Q) in *.
    assert (X <= (1 # 4) * a * N)%Q as B3 by (assert (0 < a)%Q by lra; nra). assert (0 < a)%Q by lra. nra.
  Qed.
End Fcc.

(** The cell of the face-centred cubic lattice is right: the rhombic dodecahedron |x_i| + |x_j| <= a/2. *)
Theorem C81_fcc :
  forall inv a voronoi near ws,
    valid_basis (fcc inv a) -> ((1 # 100000) <= a)%Q -> finds_nearest near ->
    wigner_seitz_cell voronoi near (fcc inv a) = Some ws ->
    decides_cell 3 (b_mat (fcc inv a)) (ws_check near ws) /\
    (forall x, length x = 3 ->
       ((forall i j, i < j < 3 -> (Qabs (nth i x 0) + Qabs (nth j x 0) < a / 2)%Q) -> ws_check near ws x = true) /\
       ((exists i j, i < j < 3 /\ (a / 2 < Qabs (nth i x 0) + Qabs (nth j x 0))%Q) -> ws_check near ws x = false)).
Proof.
  intros inv a voronoi near ws Hb Ha Hnear Hws. assert (0 < a)%Q as Hpos by lra.
  split.
  - apply (decides_from (fcc inv a) voronoi near ws); auto; [cbn; lia|]. intros x Hx H n Hn.
    apply fcc_halfspaces; auto. apply (fcc_sums inv a Hb Ha voronoi near ws Hws); auto.
  - intros x Hx. setoid_replace (a / 2)%Q with ((1 # 2) * a)%Q by field.
    destruct (C81_check (fcc inv a) voronoi near ws x Hb ltac:(cbn; lia) Hnear Hx Hws) as [_ [_ [Ht [Hf _]]]]. change (b_dim (fcc inv a)) with 3 in Ht, Hf. split.
    + intro H. apply Ht. intros p Hp Hnz.
      apply (nearer_origin_lt 3); [auto|apply (points_length (fcc inv a) Hb ltac:(cbn; lia) voronoi near ws Hws p Hp)|].
      apply (fcc_ws_points inv a Hb Ha voronoi near ws Hws) in Hp. destruct Hp as [n1 [n2 [n3 [-> [Hr [[-> [-> ->]]|Hn]]]]]].
      { exfalso. apply Hnz. apply (cell_point_zero (fcc inv a) Hb). }
      rewrite (norm_half a _ _ _ _ (fcc_cell_point inv a n1 n2 n3)), Hn. change (inject_Z 2) with 2%Q.
      destruct x as [|x1 [|x2 [|x3 [|]]]]; try discriminate Hx. rewrite fcc_inner.
      pose proof (H 0 1 ltac:(lia)) as S1. pose proof (H 0 2 ltac:(lia)) as S2. pose proof (H 1 2 ltac:(lia)) as S3. cbn [nth] in S1, S2, S3.
      apply abs_sum_lt in S1, S2, S3.
      assert (x1 * inject_Z (n1 + n2) + x2 * inject_Z (n1 + n3) + x3 * inject_Z (n2 + n3) < (1 # 2) * a)%Q as HX.
      { assert (n1 = -1 \/ n1 = 0 \/ n1 = 1)%Z as C1 by lia; assert (n2 = -1 \/ n2 = 0 \/ n2 = 1)%Z as C2 by lia; assert (n3 = -1 \/ n3 = 0 \/ n3 = 1)%Z as C3 by lia;
          destruct C1 as [->|[->| ->]], C2 as [->|[->| ->]], C3 as [->|[->| ->]]; try discriminate Hn;
          cbn [Z.add Z.pos_sub Pos.add]; change (inject_Z 1) with 1%Q; change (inject_Z (-1)) with (-1)%Q; change (inject_Z 0) with 0%Q; lra. }
      set (X := (x1 * inject_Z (n1 + n2) + x2 * inject_Z (n1 + n3) + x3 * inject_Z (n2 + n3))%Q) in *. nra.
    + intros [i [j [Hij Hlt]]]. destruct (ws_check near ws x) eqn:E; auto. exfalso.
      assert (forall p, In p (ws_points ws) -> (2 * inner x p <= inner p p)%Q) as Hle.
      { intros p Hp. apply Qnot_lt_le. intro Hl. assert (true = false) as F; [|discriminate]. apply Hf. exists p. split; auto.
        apply (farther_origin_lt 3); [auto|apply (points_length (fcc inv a) Hb ltac:(cbn; lia) voronoi near ws Hws p Hp)|exact Hl]. }
      apply (fcc_sums inv a Hb Ha voronoi near ws Hws) in Hle; auto. destruct Hle as [S1 [S2 S3]].
      destruct i as [|[|[|i]]], j as [|[|[|j]]]; try lia; lra.
Qed.

(** ** The body-centred cubic lattice *)

Lemma bcc_cell_point inv a n1 n2 n3 : same (cell_point (bcc inv a) [n1; n2; n3]) (half_point a (n1 + n2 - n3) (n1 - n2 + n3) (n1 + n2 + n3)).
Proof. exact (bcc_point inv a n1 n2 n3). Qed.

Section Bcc.
  Variables (inv : mat -> mat) (a : Q).
  Local Notation b := (bcc inv a).
  Hypothesis (Hb : valid_basis b) (Ha : ((1 # 100000) <= a)%Q).
  Variables (voronoi : list vec -> option diagram) (near : list vec -> vec -> nat) (ws : ws_cell).
  Hypothesis (Hws : wigner_seitz_cell voronoi near b = Some ws).

  Definition bcc_sq (n1 n2 n3 : Z) : Z :=
    ((n1 + n2 - n3) * (n1 + n2 - n3) + (n1 - n2 + n3) * (n1 - n2 + n3) + (n1 + n2 + n3) * (n1 + n2 + n3))%Z.

  Lemma bcc_norm n1 n2 n3 : (cell_sq 3 (b_mat b) [n1; n2; n3] == (1 # 4) * (a * a) * inject_Z (bcc_sq n1 n2 n3))%Q.
  Proof.
    unfold bcc_sq. rewrite <- (norm_half a _ _ _ (cell_point b [n1; n2; n3]) (bcc_cell_point inv a n1 n2 n3)).
    symmetry. apply (cell_point_sq b Hb [n1; n2; n3] eq_refl).
  Qed.

  Lemma bcc_ws_points p : In p (ws_points ws) <->
    exists n1 n2 n3, p = cell_point b [n1; n2; n3] /\ (-1 <= n1 <= 1 /\ -1 <= n2 <= 1 /\ -1 <= n3 <= 1)%Z /\
      ((n1 = 0 /\ n2 = 0 /\ n3 = 0) \/ bcc_sq n1 n2 n3 = 3)%Z.
  Proof.
    destruct (ws_cells b Hb ltac:(cbn; lia) voronoi near ws Hws) as [cells [Hc [Hp _]]].
    assert (0 < a * a)%Q as Haa by nra.
    assert (forall n1 n2 n3 c, (cell_sq 3 (b_mat b) [n1; n2; n3] == (1 # 4) * (a * a) * inject_Z c)%Q <-> bcc_sq n1 n2 n3 = c) as Hsq.
    { intros n1 n2 n3 c. rewrite bcc_norm. split; [|intros ->; reflexivity]. intro E. apply inject_Z_injective.
      apply (Qmult_inj_l _ _ ((1 # 4) * (a * a))%Q); [|exact E]. intro F. lra. }
    assert ((3 # 4) * (a * a) == (1 # 4) * (a * a) * inject_Z 3)%Q as E34 by (change (inject_Z 3) with 3%Q; ring).
    assert (forall n, In n cells <-> int_box 3 1 n /\ (n = repeat 0%Z 3 \/ (cell_sq 3 (b_mat b) n == (3 # 4) * (a * a))%Q)) as Hin.
    { apply (shortest_cells b ((3 # 4) * (a * a)) Hb); auto.
      - cbn. lia.
      - assert (1 # 1000000000000 <= (3 # 4) * ((1 # 100000) * (1 # 100000)))%Q as E by discriminate. nra.
      - intros k Hk. change (b_dim b) with 3 in Hk. unfold column_sq. cbn -[Qmult Qplus Qdiv].
        destruct k as [|[|[|k]]]; try lia; cbn -[Qmult Qplus Qdiv]; field.
      - intros n Hn Hnz. change (b_dim b) with 3 in *. destruct (three n (proj1 Hn)) as [n1 [n2 [n3 ->]]].
        assert (bcc_sq n1 n2 n3 = 3 \/ 4 <= bcc_sq n1 n2 n3)%Z as [E|E].
        { destruct Hn as [_ Hn]. pose proof (Hn n1 ltac:(cbn; auto)). pose proof (Hn n2 ltac:(cbn; auto)). pose proof (Hn n3 ltac:(cbn; auto)).
          assert (n1 = -1 \/ n1 = 0 \/ n1 = 1)%Z as C1 by lia; assert (n2 = -1 \/ n2 = 0 \/ n2 = 1)%Z as C2 by lia; assert (n3 = -1 \/ n3 = 0 \/ n3 = 1)%Z as C3 by lia;
          destruct C1 as [->|[->| ->]], C2 as [->|[->| ->]], C3 as [->|[->| ->]]; try (left; reflexivity); try (right; discriminate).
          exfalso. apply Hnz. reflexivity. }
        + left. rewrite E34. apply Hsq. exact E.
        + right. rewrite bcc_norm. rewrite Zle_Qle in E. change (inject_Z 4) with 4%Q in E. nra.
      - exists [1; 0; 0]%Z. split; [split; [reflexivity|intros k [<-|[<-|[<-|[]]]]; lia]|]. rewrite E34. apply Hsq. reflexivity. }
    rewrite Hp, in_map_iff. split.
    - intros [n [<- Hn]]. apply Hin in Hn. destruct Hn as [[L Hn] H]. destruct (three n L) as [n1 [n2 [n3 ->]]]. exists n1, n2, n3.
      split; [reflexivity|]. split; [repeat split; apply Hn; cbn; auto|].
      destruct H as [H|H]; [left; injection H as -> -> ->; auto|right]. apply Hsq. rewrite H. exact E34.
    - intros [n1 [n2 [n3 [-> [[H1 [H2 H3]] H]]]]]. exists [n1; n2; n3]. split; [reflexivity|]. apply Hin. split.
      + split; [reflexivity|]. intros k [<-|[<-|[<-|[]]]]; auto.
      + destruct H as [[-> [-> ->]]|H]; [left; reflexivity|right]. rewrite E34. apply Hsq. exact H.
  Qed.

  Lemma bcc_inner x1 x2 x3 n1 n2 n3 : (inner [x1; x2; x3] (cell_point b [n1; n2; n3]) ==
    (1 # 2) * a * (x1 * inject_Z (n1 + n2 - n3) + x2 * inject_Z (n1 - n2 + n3) + x3 * inject_Z (n1 + n2 + n3)))%Q.
  Proof. rewrite (inner_same _ _ _ (bcc_cell_point inv a n1 n2 n3)). apply inner_half. Qed.
End Bcc.

(** The cell of the body-centred cubic lattice is made of the eight nearest neighbours only and is an octahedron; the
    six second neighbours are missed, so that points with |x_i| > a/2 are accepted although they belong to another
    cell. *)
Theorem C81_bcc_refuted :
  forall inv a voronoi near ws,
    valid_basis (bcc inv a) -> ((1 # 100000) <= a)%Q -> finds_nearest near ->
    wigner_seitz_cell voronoi near (bcc inv a) = Some ws ->
    (forall x, length x = 3 ->
       ((Qabs (nth 0 x 0) + Qabs (nth 1 x 0) + Qabs (nth 2 x 0) < 3 * a / 4)%Q -> ws_check near ws x = true) /\
       ((3 * a / 4 < Qabs (nth 0 x 0) + Qabs (nth 1 x 0) + Qabs (nth 2 x 0))%Q -> ws_check near ws x = false)) /\
    ws_check near ws [3 * a / 5; 0; 0]%Q = true /\
    (sqdist [3 * a / 5; 0; 0] (lattice_point 3 (b_mat (bcc inv a)) (zero 3) [1; 0; -1]%Z) < sqdist [3 * a / 5; 0; 0] (zero 3))%Q.
Proof.
  intros inv a voronoi near ws Hb Ha Hnear Hws. assert (0 < a)%Q as Hpos by lra. assert (0 < a * a)%Q as Haa by nra.
  assert (forall x, length x = 3 ->
       ((Qabs (nth 0 x 0) + Qabs (nth 1 x 0) + Qabs (nth 2 x 0) < 3 * a / 4)%Q -> ws_check near ws x = true) /\
       ((3 * a / 4 < Qabs (nth 0 x 0) + Qabs (nth 1 x 0) + Qabs (nth 2 x 0))%Q -> ws_check near ws x = false)) as Hoct.
  { intros x Hx. setoid_replace (3 * a / 4)%Q with ((3 # 4) * a)%Q by field.
    destruct (C81_check (bcc inv a) voronoi near ws x Hb ltac:(cbn; lia) Hnear Hx Hws) as [_ [_ [Ht [Hf _]]]]. change (b_dim (bcc inv a)) with 3 in Ht, Hf.
    destruct x as [|x1 [|x2 [|x3 [|]]]]; try discriminate Hx. cbn [nth]. split.
    - intro H. apply Ht. intros p Hp Hnz.
      apply (nearer_origin_lt 3); [auto|apply (points_length (bcc inv a) Hb ltac:(cbn; lia) voronoi near ws Hws p Hp)|].
      apply (bcc_ws_points inv a Hb Ha voronoi near ws Hws) in Hp. destruct Hp as [n1 [n2 [n3 [-> [Hr [[-> [-> ->]]|Hn]]]]]].
      { exfalso. apply Hnz. apply (cell_point_zero (bcc inv a) Hb). }
      rewrite (norm_half a _ _ _ _ (bcc_cell_point inv a n1 n2 n3)). fold (bcc_sq n1 n2 n3). rewrite Hn, bcc_inner. change (inject_Z 3) with 3%Q.
      assert (x1 * inject_Z (n1 + n2 - n3) + x2 * inject_Z (n1 - n2 + n3) + x3 * inject_Z (n1 + n2 + n3) < (3 # 4) * a)%Q as HX.
      { revert H. apply (Qabs_case x1); apply (Qabs_case x2); apply (Qabs_case x3); intros.
        all: assert (n1 = -1 \/ n1 = 0 \/ n1 = 1)%Z as C1 by lia; assert (n2 = -1 \/ n2 = 0 \/ n2 = 1)%Z as C2 by lia; assert (n3 = -1 \/ n3 = 0 \/ n3 = 1)%Z as C3 by lia;
          destruct C1 as [->|[->| ->]], C2 as [->|[->| ->]], C3 as [->|[->| ->]]; try discriminate Hn;
          cbn [Z.add Z.sub Z.opp Z.pos_sub Pos.add Pos.succ Pos.pred_double]; change (inject_Z 1) with 1%Q; change (inject_Z (-1)) with (-1)%Q; lra. }
      set (X := (x1 * inject_Z (n1 + n2 - n3) + x2 * inject_Z (n1 - n2 + n3) + x3 * inject_Z (n1 + n2 + n3))%Q) in *. nra.
    - intro H. apply Hf.
      assert (exists n1 n2 n3, (-1 <= n1 <= 1 /\ -1 <= n2 <= 1 /\ -1 <= n3 <= 1)%Z /\ bcc_sq n1 n2 n3 = 3%Z /\
        (x1 * inject_Z (n1 + n2 - n3) + x2 * inject_Z (n1 - n2 + n3) + x3 * inject_Z (n1 + n2 + n3) == Qabs x1 + Qabs x2 + Qabs x3)%Q) as [n1 [n2 [n3 [Hr [Hn HX]]]]].
      { assert (forall i j k n1 n2 n3, (n1 + n2 - n3 = i)%Z -> (n1 - n2 + n3 = j)%Z -> (n1 + n2 + n3 = k)%Z -> (-1 <= n1 <= 1 /\ -1 <= n2 <= 1 /\ -1 <= n3 <= 1)%Z ->
          bcc_sq n1 n2 n3 = 3%Z -> (x1 * inject_Z i + x2 * inject_Z j + x3 * inject_Z k == Qabs x1 + Qabs x2 + Qabs x3)%Q ->
          exists n1 n2 n3, (-1 <= n1 <= 1 /\ -1 <= n2 <= 1 /\ -1 <= n3 <= 1)%Z /\ bcc_sq n1 n2 n3 = 3%Z /\
        (x1 * inject_Z (n1 + n2 - n3) + x2 * inject_Z (n1 - n2 + n3) + x3 * inject_Z (n1 + n2 + n3) == Qabs x1 + Qabs x2 + Qabs x3)%Q) as G.
        { intros i j k n1 n2 n3 <- <- <- G1 G2 G3. exists n1, n2, n3. auto. }
        destruct (Qlt_le_dec x1 0) as [A1|A1], (Qlt_le_dec x2 0) as [A2|A2], (Qlt_le_dec x3 0) as [A3|A3].
        - apply (G (-1) (-1) (-1) (-1) 0 0)%Z; try reflexivity; try lia. rewrite !Qabs_neg by lra. change (inject_Z (-1)) with (-1)%Q. ring.
        - apply (G (-1) (-1) 1 (-1) 1 1)%Z; try reflexivity; try lia. rewrite (Qabs_neg x1), (Qabs_neg x2), (Qabs_pos x3) by lra. change (inject_Z (-1)) with (-1)%Q. change (inject_Z 1) with 1%Q. ring.
        - apply (G (-1) 1 (-1) 0 (-1) 0)%Z; try reflexivity; try lia. rewrite (Qabs_neg x1), (Qabs_pos x2), (Qabs_neg x3) by lra. change (inject_Z (-1)) with (-1)%Q. change (inject_Z 1) with 1%Q. ring.
        - apply (G (-1) 1 1 0 0 1)%Z; try reflexivity; try lia. rewrite (Qabs_neg x1), (Qabs_pos x2), (Qabs_pos x3) by lra. change (inject_Z (-1)) with (-1)%Q. change (inject_Z 1) with 1%Q. ring.
        - apply (G 1 (-1) (-1) 0 0 (-1))%Z; try reflexivity; try lia. rewrite (Qabs_pos x1), (Qabs_neg x2), (Qabs_neg x3) by lra. change (inject_Z (-1)) with (-1)%Q. change (inject_Z 1) with 1%Q. ring.
        - apply (G 1 (-1) 1 0 1 0)%Z; try reflexivity; try lia. rewrite (Qabs_pos x1), (Qabs_neg x2), (Qabs_pos x3) by lra. change (inject_Z (-1)) with (-1)%Q. change (inject_Z 1) with 1%Q. ring.
        - apply (G 1 1 (-1) 1 (-1) (-1))%Z; try reflexivity; try lia. rewrite (Qabs_pos x1), (Qabs_pos x2), (Qabs_neg x3) by lra. change (inject_Z (-1)) with (-1)%Q. change (inject_Z 1) with 1%Q. ring.
        - apply (G 1 1 1 1 0 0)%Z; try reflexivity; try lia. rewrite !Qabs_pos by lra. change (inject_Z 1) with 1%Q. ring. }
      exists (cell_point (bcc inv a) [n1; n2; n3]). split; [apply (bcc_ws_points inv a Hb Ha voronoi near ws Hws); exists n1, n2, n3; auto|].
      apply (farther_origin_lt 3); [reflexivity|apply cell_point_length|].
      rewrite (norm_half a _ _ _ _ (bcc_cell_point inv a n1 n2 n3)). fold (bcc_sq n1 n2 n3). rewrite Hn, bcc_inner, HX. change (inject_Z 3) with 3%Q.
      set (X := (Qabs x1 + Qabs x2 + Qabs x3)%Q) in *. nra. }
  split; [exact Hoct|]. split.
  - apply (proj1 (Hoct [3 * a / 5; 0; 0]%Q eq_refl)). cbn [nth]. setoid_replace (3 * a / 5)%Q with ((3 # 5) * a)%Q by field. setoid_replace (3 * a / 4)%Q with ((3 # 4) * a)%Q by field.
    rewrite (Qabs_pos ((3 # 5) * a)) by lra. change (Qabs 0) with 0%Q. lra.
  - pose proof (lattice_point_cell (bcc inv a) [1; 0; -1]%Z Hb eq_refl) as E. change (b_dim (bcc inv a)) with 3 in E.
    rewrite <- (sqdist_same2 _ _ _ E), (sqdist_same2 _ _ _ (bcc_cell_point inv a 1 0 (-1))).
    unfold sqdist, half_point. cbn -[Qmult Qplus Qdiv Qminus inject_Z]. change (1 + 0 - -1)%Z with 2%Z. change (1 - 0 + -1)%Z with 0%Z. change (1 + 0 + -1)%Z with 0%Z.
    change (inject_Z 2) with 2%Q. change (inject_Z 0) with 0%Q.
    setoid_replace (0 + (3 * a / 5 - a / 2 * 2) * (3 * a / 5 - a / 2 * 2) + (0 - a / 2 * 0) * (0 - a / 2 * 0) + (0 - a / 2 * 0) * (0 - a / 2 * 0))%Q
      with ((4 # 25) * (a * a))%Q by field.
    setoid_replace (0 + (3 * a / 5 - 0) * (3 * a / 5 - 0) + (0 - 0) * (0 - 0) + (0 - 0) * (0 - 0))%Q with ((9 # 25) * (a * a))%Q by field. lra.
Qed.

(** ** Two more wrong cells *)

(** Lattice vectors of equal length that are neither orthogonal nor at 60 degrees: the cell is a parallelogram. *)
Definition rhombic : basis := mkBasis [[4; 1]; [1; 4]]%Q [[4 # 15; -1 # 15]; [-1 # 15; 4 # 15]]%Q.

Theorem C81_rhombic_refuted :
  valid_basis rhombic /\
  forall voronoi near ws, finds_nearest near -> wigner_seitz_cell voronoi near rhombic = Some ws ->
    length (ws_points ws) = 5 /\
    ws_check near ws [8 # 5; - (8 # 5)]%Q = true /\
    (sqdist [8 # 5; - (8 # 5)] (lattice_point 2 (b_mat rhombic) (zero 2) [1; -1]%Z) < sqdist [8 # 5; - (8 # 5)] (zero 2))%Q.
Proof.
  assert (valid_basis rhombic) as Hb by (apply inverse2_check; reflexivity). split; [exact Hb|].
  intros voronoi near ws Hnear Hws.
  destruct (ws_cells rhombic Hb ltac:(cbn; lia) voronoi near ws Hws) as [cells [Hc [Hp _]]].
  assert (get_neighbor_cells rhombic 0 true isclose2 = Some [[0; 0]; [-1; 0]; [0; -1]; [0; 1]; [1; 0]]%Z) as E by (vm_compute; reflexivity).
  rewrite E in Hc. injection Hc as <-. split; [rewrite Hp; reflexivity|]. split.
  - apply (check_true rhombic Hb ltac:(cbn; lia) voronoi near ws Hnear Hws). intros p H Hnz. rewrite Hp in H.
    apply in_map_iff in H. destruct H as [n [<- H]]. destruct H as [<-|[<-|[<-|[<-|[<-|[]]]]]]; try reflexivity.
    exfalso. apply Hnz. apply (cell_point_zero rhombic Hb).
  - reflexivity.
Qed.

(** Orthogonal lattice vectors of different lengths: only the longer one is used; all points lie on a line and
    scipy's Voronoi diagram of such points raises. *)
Theorem C81_rectangular_refuted :
  let b := mkBasis [[1; 0]; [0; 2]]%Q [[1; 0]; [0; 1 # 2]]%Q in
  valid_basis b /\
  forall voronoi near, (forall P, flat 2 P -> voronoi P = None) -> wigner_seitz_cell voronoi near b = None.
Proof.
  intro b. split; [apply inverse2_check; reflexivity|]. intros voronoi near Hflat. unfold wigner_seitz_cell.
  assert (get_neighbor_cells b 0 true isclose2 = Some [[0; 0]; [0; -1]; [0; 1]]%Z) as -> by (vm_compute; reflexivity).
  unfold new_cell. cbn [map]. rewrite Hflat; [reflexivity|]. exists [1; 0]%Q, 0%Q. split; [reflexivity|]. split; [exists 0; discriminate|].
  intros p [<-|[<-|[<-|[]]]]; reflexivity.
Qed.

(** ** Brillouin zones *)

(** The zone of a hypercubic lattice is the cube with side 2 pi / a. *)
Theorem C81_brillouin_hypercubic :
  forall b a inv two_pi min_negative voronoi near ws,
    valid_basis b -> 1 <= b_dim b <= 3 -> cubic_lattice (b_dim b) (b_mat b) a -> inverts inv (b_dim b) ->
    (1 <= two_pi)%Q -> ((1 # 1000000) <= two_pi / a)%Q -> finds_nearest near ->
    (forall P dg, voronoi P = Some dg -> is_diagram (b_dim b) P (dg_vertices dg) (dg_ridge_points dg) (dg_ridge_vertices dg)) ->
    brillouin_zone inv two_pi voronoi near min_negative b = Some ws ->
    (forall x, length x = b_dim b ->
       ((forall i, i < b_dim b -> (Qabs (nth i x 0) < two_pi / a / 2)%Q) -> ws_check near ws x = true) /\
       ((exists i, i < b_dim b /\ (two_pi / a / 2 < Qabs (nth i x 0))%Q) -> ws_check near ws x = false)) /\
    (forall x, length x = b_dim b ->
       ((exists v, In v (ws_vertices ws) /\ same v x) <-> forall i, i < b_dim b -> (Qabs (nth i x 0) == two_pi / a / 2)%Q)).
Proof.
  intros b a inv two_pi mn voronoi near ws Hb Hd Hcub Hinv Hpi Ha Hnear Hvor H. unfold brillouin_zone in H.
  destruct (C12_reciprocal_lattice inv b two_pi mn Hd Hb Hinv Hpi) as [r [E [Hrd [Hr [Hdual _]]]]]. rewrite E in H.
  set (d := b_dim b) in *. assert (0 < a)%Q as Hpos by apply Hcub.
  assert (cubic_lattice d (b_mat r) (two_pi / a)) as Hcub'.
  { split; [lra|]. intros i j Hi Hj. pose proof (Hdual i j Hi Hj) as F.
    rewrite (sum_ext d _ (fun k => delta i k * (a * entry (b_mat r) k j)))%Q in F.
    - rewrite (sum_delta d i (fun k => a * entry (b_mat r) k j)%Q Hi) in F. assert (~ a == 0)%Q as Hne by (intro; lra).
      apply (Qmult_inj_l _ _ a Hne). rewrite F. field. exact Hne.
    - intros k Hk. rewrite (proj2 Hcub k i Hk Hi). unfold delta. rewrite (Nat.eqb_sym k i). destruct (i =? k); ring. }
  rewrite <- Hrd in Hcub', Hvor. destruct (C81_hypercubic r (two_pi / a) voronoi near ws Hr ltac:(lia) Hcub' Ha Hnear Hvor H) as [_ [H1 [_ H2]]].
  rewrite Hrd in H1, H2. split; auto.
Qed.

(** The zone of a face-centred cubic lattice is wrong, being the cell of a body-centred one. *)
Theorem C81_brillouin_fcc_refuted :
  let b := fcc inverse_small 2 in
  valid_basis b /\ exists r, reciprocal_lattice inverse_small 6 false b = Some r /\ valid_basis r /\
  forall voronoi near ws, finds_nearest near -> brillouin_zone inverse_small 6 voronoi near false b = Some ws ->
    ws_check near ws [18 # 5; 0; 0]%Q = true /\
    exists n, length n = 3 /\
      (sqdist [18 # 5; 0; 0] (lattice_point 3 (b_mat r) (zero 3) n) < sqdist [18 # 5; 0; 0] (zero 3))%Q.
Proof.
  intro b.
  assert (valid_basis b) as Hb.
  { apply (inverse_small_3 (b_mat b)). exists [[1 # 2; 1 # 2; - (1 # 2)]; [1 # 2; - (1 # 2); 1 # 2]; [- (1 # 2); 1 # 2; 1 # 2]]%Q.
    matrix_check; reflexivity. }
  split; [exact Hb|].
  destruct (C12_reciprocal_lattice inverse_small b 6 false ltac:(cbn; lia) Hb inverse_small_3 ltac:(discriminate)) as [r [E [Hd [Hr _]]]]. change (b_dim b) with 3 in Hd.
  exists r. split; [exact E|]. split; [exact Hr|]. intros voronoi near ws Hnear H. unfold brillouin_zone in H. rewrite E in H.
  destruct (ws_cells r Hr ltac:(rewrite Hd; lia) voronoi near ws H) as [cells [Hc [Hp _]]].
  vm_compute in E. injection E as <-.
  match type of Hc with ?g = _ => let v := eval vm_compute in g in change g with v in Hc end. injection Hc as <-.
  split.
  - refine (check_true _ Hr _ voronoi near ws Hnear H _ _); [cbn; lia|]. intros p Hin Hnz. rewrite Hp in Hin.
    apply in_map_iff in Hin. destruct Hin as [n [<- Hin]].
    repeat (destruct Hin as [<-|Hin]; [first [vm_compute; reflexivity | exfalso; apply Hnz; apply (cell_point_zero _ Hr)]|]). destruct Hin.
  - exists [1; 1; 0]%Z. split; [reflexivity|]. vm_compute. reflexivity.
Qed.

(** ** Symmetry points *)

Lemma equidistant_iff d x p q : length x = d -> length p = d -> length q = d ->
  equidistant x p q <-> (2 * inner p x - inner p p == 2 * inner q x - inner q q)%Q.
Proof.
  intros Hx Hp Hq. unfold equidistant. rewrite !sqdist_expand by congruence.
  rewrite (inner_comm x p), (inner_comm x q) by congruence. split; intro; lra.
Qed.

Lemma inner_center d w p q : length w = d -> length p = d -> length q = d -> (inner w (center p q) == (1 # 2) * (inner w p + inner w q))%Q.
Proof.
  intros Hw Hp Hq. unfold inner. rewrite Hw.
  assert (forall i, i < d -> (nth i (center p q) 0 == (1 # 2) * (nth i p 0 + nth i q 0))%Q) as H.
  { intros i Hi. unfold center, vadd, vsub. rewrite (nth_map2 Qplus _ _ i 0%Q 0%Q); [|rewrite ?map_length, ?map2_length; lia..].
    rewrite half_nth. rewrite (nth_map2 Qminus _ _ i 0%Q 0%Q) by lia. field. }
  clear Hw Hp Hq. induction d as [|d IH]; cbn [sum_upto]; [ring|]. rewrite IH, H by auto. ring.
Qed.

Lemma fold_plus l z : (fold_left Qplus l z == z + fold_left Qplus l 0)%Q.
Proof. revert z. induction l as [|x l IH]; intro z; cbn [fold_left]; [ring|]. rewrite IH, (IH (0 + x)%Q). ring. Qed.

Lemma inner_mean w points c : length w = 3 -> points <> [] -> (forall x, In x points -> (inner w x == c)%Q) -> (inner w (mean 3 points) == c)%Q.
Proof.
  intros Hw Hne H. unfold inner. rewrite Hw. unfold mean. set (n := inject_Z (Z.of_nat (length points))).
  assert (~ n == 0)%Q as Hn.
  { unfold n. destruct points as [|p P]; [contradiction|]. cbn [length]. rewrite Nat2Z.inj_succ. intro E.
    assert (Z.succ (Z.of_nat (length P)) = 0)%Z as F by (apply inject_Z_injective; exact E). lia. }
  assert (sum_upto 3 (fun i => nth i w 0 * fold_left Qplus (map (fun p => nth i p 0) points) 0) == n * c)%Q as E.
  { unfold n. clear Hne Hn n. induction points as [|p P IH]; [cbn; ring|].
    assert (sum_upto 3 (fun i => nth i w 0 * fold_left Qplus (map (fun p => nth i p 0) (p :: P)) 0) ==
            inner w p + sum_upto 3 (fun i => nth i w 0 * fold_left Qplus (map (fun p => nth i p 0) P) 0))%Q as ->.
    { unfold inner. rewrite Hw. cbn [map fold_left sum_upto]. rewrite !(fold_plus _ (0 + _)). ring. }
    rewrite IH by (intros x Hx; apply H; right; exact Hx). rewrite (H p (or_introl eq_refl)). cbn [length]. rewrite Nat2Z.inj_succ.
    unfold Z.succ. rewrite inject_Z_plus. change (inject_Z 1) with 1%Q. ring. }
  apply (Qmult_inj_l _ _ n Hn). rewrite <- E. cbn [sum_upto seq map nth]. change (inject_Z (Z.of_nat (@length vec points))) with n. field. exact Hn.
Qed.

Lemma inner_vsub d p q x : length p = d -> length q = d -> (inner (vsub p q) x == inner p x - inner q x)%Q.
Proof.
  intros Hp Hq. unfold inner. rewrite vsub_length, Hp, Hq by congruence.
  rewrite (sum_ext d (fun i => nth i (vsub p q) 0 * nth i x 0) (fun i => (nth i p 0 - nth i q 0) * nth i x 0))%Q by (intros i _; rewrite nth_vsub by congruence; reflexivity).
  clear. induction d as [|d IH]; cbn [sum_upto]; [ring|]. rewrite IH. ring.
Qed.

Lemma equidistant_affine d x p q : length x = d -> length p = d -> length q = d ->
  equidistant x p q <-> (inner (vsub p q) x == (1 # 2) * (inner p p - inner q q))%Q.
Proof. intros Hx Hp Hq. rewrite (equidistant_iff d), (inner_vsub d) by auto. split; intro; lra. Qed.

Lemma all_some_length {A} (l : list (option A)) r : all_some l = Some r -> length r = length l.
Proof.
  revert r. induction l as [|[x|] l IH]; intros r H; cbn in H; try discriminate; [injection H as <-; reflexivity|].
  destruct (all_some l); [|discriminate]. injection H as <-. cbn. f_equal. auto.
Qed.

Lemma all_some_In {A} (l : list (option A)) r x : all_some l = Some r -> In x r -> In (Some x) l.
Proof.
  revert r. induction l as [|[y|] l IH]; intros r H Hin; cbn in H; try discriminate; [injection H as <-; destruct Hin|].
  destruct (all_some l) as [r'|]; [|discriminate]. injection H as <-. destruct Hin as [->|Hin]; [left; reflexivity|right; eauto].
Qed.

(** All symmetry points: the corners are the vertices of the diagram; every edge centre is the middle of two vertices,
    and edge centres and face centres are equally far from two different points. *)
Theorem C81_symmetry_points :
  forall voronoi near P d ws origin corners edges faces,
    P <> [] -> (forall p, In p P -> length p = d) -> 2 <= d ->
    (forall dg, voronoi P = Some dg -> is_diagram d P (dg_vertices dg) (dg_ridge_points dg) (dg_ridge_vertices dg)) ->
    new_cell voronoi near P = Some ws ->
    ws_symmetry_points ws = Some (origin, corners, edges, faces) ->
    d <= 3 /\ origin = zero d /\
    (forall x, (exists c, In c corners /\ same c x) <-> exists y, voronoi_vertex d P y /\ same y x) /\
    (exists l, edges = Some l /\ forall c, In c l ->
       (exists u v, In u corners /\ In v corners /\ c = center u v) /\
       exists i j, i < length P /\ j < length P /\ i <> j /\ equidistant c (nth i P []) (nth j P [])) /\
    (d = 2 -> faces = None) /\
    (d = 3 -> exists l, faces = Some l /\ forall c, In c l -> exists i j, i < length P /\ j < length P /\ i <> j /\ equidistant c (nth i P []) (nth j P [])).
Proof.
  intros voronoi near P d ws origin corners edges faces Hne HP Hd Hvor Hnew Hsym.
  unfold new_cell in Hnew. destruct P as [|p0 P0] eqn:EP; [contradiction|]. rewrite <- EP in *. cbv zeta in Hnew.
  rewrite (HP p0) in Hnew by (rewrite EP; left; reflexivity).
  assert (d =? 1 = false) as E1 by (apply Nat.eqb_neq; lia). rewrite E1 in Hnew.
  destruct (voronoi P) as [dg|] eqn:Edg; [|discriminate]. injection Hnew as <-. destruct (Hvor dg eq_refl) as [V1 [V2 [V3 V4]]].
  assert (forall s, In s (map (map Z.to_nat) (filter (forallb (fun i => (0 <=? i)%Z)) (map snd (combine (dg_ridge_points dg) (dg_ridge_vertices dg))))) ->
    s <> [] /\ exists i j, i < length P /\ j < length P /\ i <> j /\
      forall k, In k s -> k < length (dg_vertices dg) /\ equidistant (nth k (dg_vertices dg) []) (nth i P []) (nth j P [])) as Hs.
  { intros s H. apply in_map_iff in H. destruct H as [r [<- H]]. apply filter_In in H. destruct H as [H Hpos].
    apply in_map_iff in H. destruct H as [[[i j] r'] [<- H]]. cbn [snd] in *. apply In_nth_error in H. destruct H as [k Hk].
    assert (nth_error (dg_ridge_points dg) k = Some (i, j) /\ nth_error (dg_ridge_vertices dg) k = Some r') as [K1 K2].
    { clear - Hk V3. revert k Hk V3. generalize (dg_ridge_points dg) (dg_ridge_vertices dg). induction l as [|x l IH]; intros [|y m] [|k] H L; cbn in *; try discriminate.
      - injection H as -> ->. auto.
      - apply IH; auto. }
    destruct (V4 k i j r' K1 K2) as [Hi [Hj [Hij [Hr Hz]]]]. split; [destruct r'; [contradiction|discriminate]|].
    exists i, j. repeat split; auto.
    - apply in_map_iff in H. destruct H as [z [<- Hzin]]. rewrite forallb_forall in Hpos. pose proof (Hpos z Hzin) as Hp. apply Z.leb_le in Hp.
      destruct (Hz z Hzin) as [Hz1 _]. unfold vec in *. lia.
    - apply in_map_iff in H. destruct H as [z [<- Hzin]]. rewrite forallb_forall in Hpos. pose proof (Hpos z Hzin) as Hp. apply Z.leb_le in Hp.
      destruct (Hz z Hzin) as [_ Hz2]. destruct (Hz2 Hp) as [N1 N2]. unfold equidistant. apply Qle_antisym; [apply N1, N2|apply N2, N1]. }
  set (S := map (map Z.to_nat) _) in *.
  assert (forall k, k < length (dg_vertices dg) -> length (nth k (dg_vertices dg) []) = d) as HV by (intros k Hk; apply (V1 _ (nth_In _ [] Hk))).
  assert (forall u v p q, length u = d -> length v = d -> length p = d -> length q = d -> equidistant u p q -> equidistant v p q -> equidistant (center u v) p q) as Hcen.
  { intros u v p q L1 L2 L3 L4 Q1 Q2. apply (equidistant_affine d) in Q1, Q2; auto.
    apply (equidistant_affine d); auto; [unfold center; rewrite vadd_length; rewrite ?map_length, ?vsub_length; congruence|].
    rewrite (inner_center d) by (auto; rewrite vsub_length; congruence). rewrite Q1, Q2. ring. }
  assert (forall x, (exists c, In c (dg_vertices dg) /\ same c x) <-> exists y, voronoi_vertex d P y /\ same y x) as Hcorners.
  { intro x. split.
    - intros [c [Hc E]]. exists c. auto.
    - intros [y [Hy E]]. destruct (V2 y Hy) as [v [Hv E']]. exists v. split; auto. eapply same_trans'; eauto. }
  unfold ws_symmetry_points in Hsym. cbn [ws_dim ws_vertices ws_edges] in Hsym.
  destruct d as [|[|[|[|d]]]]; try lia; try discriminate Hsym.
  - (* two dimensions *)
    destruct (all_some _) as [l|] eqn:El; [|discriminate]. injection Hsym as <- <- <- <-.
    split; [lia|]. split; [reflexivity|]. split; [exact Hcorners|]. split; [|split; [reflexivity|lia]].
    exists l. split; [reflexivity|]. intros c Hc. apply (all_some_In _ _ _ El) in Hc. apply in_map_iff in Hc. destruct Hc as [s [Es Hin]].
    destruct (Hs s Hin) as [_ [i [j [Hi [Hj [Hij Hk]]]]]]. unfold take in Es. destruct s as [|k1 [|k2 [|]]]; cbn [map] in Es; try discriminate Es. injection Es as <-.
    destruct (Hk k1 (or_introl eq_refl)) as [B1 Q1]. destruct (Hk k2 (or_intror (or_introl eq_refl))) as [B2 Q2]. split.
    + eexists. eexists. split; [|split; [|reflexivity]]; apply nth_In; auto.
    + exists i, j. repeat split; auto. apply Hcen; auto; apply HP, nth_In; auto.
  - (* three dimensions *)
    destruct (all_some _) as [l|] eqn:El; [|discriminate]. injection Hsym as <- <- <- <-.
    split; [lia|]. split; [reflexivity|]. split; [exact Hcorners|]. split; [|split; [discriminate|]].
    + eexists. split; [reflexivity|]. intros c Hc. apply in_concat in Hc. destruct Hc as [cs [Hcs Hc]]. apply in_map_iff in Hcs. destruct Hcs as [prs [<- Hprs]].
      apply in_map_iff in Hc. destruct Hc as [[u v] [<- Huv]]. cbn [fst snd].
      apply (all_some_In _ _ _ El) in Hprs. apply in_map_iff in Hprs. destruct Hprs as [s [Es Hin]].
      destruct (Hs s Hin) as [_ [i [j [Hi [Hj [Hij Hk]]]]]].
      assert (forall w, In w (take [] (dg_vertices dg) s) -> In w (dg_vertices dg) /\ length w = 3 /\ equidistant w (nth i P []) (nth j P [])) as Hw.
      { intros w Hw. apply in_map_iff in Hw. destruct Hw as [k [<- Hkin]]. destruct (Hk k Hkin). repeat split; auto using nth_In. }
      assert (In u (take [] (dg_vertices dg) s) /\ In v (take [] (dg_vertices dg) s)) as [Hu Hv].
      { destruct (take [] (dg_vertices dg) s) as [|x rest] eqn:Et; [discriminate Es|]. rewrite <- Et in *.
        destruct (C03_chain_links _ (take [] (dg_vertices dg) s)) as [pairs [Ep [_ Hpairs]]].
        pose proof (proj2 (C03_chain_cycle _ (take [] (dg_vertices dg) s)) x rest pairs Et Ep) as Ec. rewrite Ec in Es. injection Es as <-.
        apply in_app_iff in Huv. destruct Huv as [Huv|[E|[]]].
        - apply In_nth_error in Huv. destruct Huv as [k Hkk]. apply Hpairs in Hkk. destruct Hkk as [K1 K2]. split; eapply nth_error_In; eauto.
        - injection E as <- <-. split.
          + rewrite Et. clear. revert x. induction rest as [|y rest IH]; intro x; [left; reflexivity|]. right. change (last (x :: y :: rest) x) with (last (y :: rest) x).
            assert (forall z z', last (y :: rest) z = last (y :: rest) z') as G by (clear; revert y; induction rest as [|t rest IH]; intros y z z'; [reflexivity|exact (IH t z z')]).
            rewrite (G x y). apply IH.
          + rewrite Et. left. reflexivity. }
      destruct (Hw u Hu) as [U1 [U2 U3]]. destruct (Hw v Hv) as [W1 [W2 W3]]. split; [exists u, v; auto|].
      exists i, j. repeat split; auto. apply Hcen; auto; apply HP, nth_In; auto.
    + intros _. eexists. split; [reflexivity|]. intros c Hc. apply in_map_iff in Hc. destruct Hc as [s [<- Hin]].
      destruct (Hs s Hin) as [Hsne [i [j [Hi [Hj [Hij Hk]]]]]]. exists i, j. repeat split; auto.
      assert (length (nth i P []) = 3 /\ length (nth j P []) = 3) as [L1 L2] by (split; apply HP, nth_In; auto).
      apply (equidistant_affine 3); auto.
      apply inner_mean; [rewrite vsub_length; congruence|unfold take; destruct s; [contradiction|discriminate]|].
      intros x Hx. apply in_map_iff in Hx. destruct Hx as [k [<- Hkin]]. destruct (Hk k Hkin) as [B Q]. apply (equidistant_affine 3) in Q; auto.
Qed.

(** ** Grids in the cell *)

(** The scaled limits of an axis. *)
Definition scaled (offset : Q) (L : list (list Q)) (i : nat) : Q * Q :=
  ((1 + offset) * nth 0 (nth i L []) 0, (1 + offset) * nth 1 (nth i L []) 0)%Q.

Lemma nth_map_combine {A B C D} (f : A * B -> C) (g : D -> A) l (m : list B) i da db dc : i < length l -> i < length m ->
  nth i (map f (combine (map g l) m)) dc = f (g (nth i l da), nth i m db).
Proof. revert m i. induction l as [|x l IH]; intros [|y m] [|i] H1 H2; cbn in *; try lia; auto. apply IH; lia. Qed.

Lemma scale_row offset row k : (nth k (vscale (1 + offset) row) 0 == (1 + offset) * nth k row 0)%Q.
Proof.
  unfold vscale. destruct (Nat.lt_ge_cases k (length row)) as [H|H].
  - rewrite (nth_indep _ 0%Q ((1 + offset) * 0)%Q) by (rewrite map_length; auto). rewrite (map_nth (Qmult (1 + offset))). reflexivity.
  - rewrite !nth_overflow by (rewrite ?map_length; auto). ring.
Qed.

Lemma linspace_nth lo hi num endpoint k : k < num ->
  nth k (linspace lo hi num endpoint) 0%Q = (lo + inject_Z (Z.of_nat k) * ((hi - lo) / inject_Z (Z.of_nat (if endpoint then num - 1 else num))))%Q.
Proof. intro H. unfold linspace. rewrite nth_map_seq by auto. reflexivity. Qed.

(** [linspace]: for every axis [num] equally spaced values; the first one is the lower limit, and the last one (or the
    one that would follow, without [endpoint]) is the upper limit. *)
Theorem C81_linspace :
  forall ws L nums offset endpoint,
    ws_limits ws = Some L -> length nums = length L ->
    exists axes, ws_linspace ws (Each nums) offset endpoint = Some axes /\ length axes = length L /\
      (forall n, (forall i, i < length L -> nth i nums 0 = n) -> length L = ws_dim ws -> ws_linspace ws (Same n) offset endpoint = Some axes) /\
      forall i, i < length L ->
        let num := nth i nums 0 in let axis := nth i axes [] in let (lo, hi) := scaled offset L i in
        length axis = num /\
        (0 < num -> (nth 0 axis 0 == lo)%Q) /\
        (forall k, k + 2 < num -> (nth (k + 1) axis 0 - nth k axis 0 == nth (k + 2) axis 0 - nth (k + 1) axis 0)%Q) /\
        (endpoint = true -> 1 < num -> (nth (num - 1) axis 0 == hi)%Q) /\
        (endpoint = false -> 1 < num -> (nth (num - 1) axis 0 + (nth 1 axis 0 - nth 0 axis 0) == hi)%Q).
Proof.
  intros ws L nums offset endpoint HL Hlen. unfold ws_linspace, ws_scaled_limits. rewrite HL. cbn [option_map spread].
  eexists. split; [reflexivity|]. split; [rewrite map_length, combine_length, map_length; lia|]. split.
  - intros n Hn Hd. f_equal. f_equal. f_equal. rewrite <- Hd, <- Hlen. apply (nth_ext _ _ 0 0); [apply repeat_length|].
    rewrite repeat_length. intros i Hi. rewrite (nth_indep _ 0 n) by (rewrite repeat_length; auto). rewrite nth_repeat. rewrite Hn; auto. lia.
  - intros i Hi. set (num := nth i nums 0). match goal with |- context [nth i (map ?f ?l) []] => set (axis := nth i (map f l) []) end. unfold scaled. set (lo := ((1 + offset) * nth 0 (nth i L []) 0)%Q). set (hi := ((1 + offset) * nth 1 (nth i L []) 0)%Q).
    assert (exists lo' hi', (lo' == lo)%Q /\ (hi' == hi)%Q /\ axis = linspace lo' hi' num endpoint) as [lo' [hi' [El [Eh Ea]]]].
    { exists (nth 0 (vscale (1 + offset) (nth i L [])) 0%Q), (nth 1 (vscale (1 + offset) (nth i L [])) 0%Q).
      split; [apply scale_row|]. split; [apply scale_row|]. unfold axis.
      apply (nth_map_combine (fun a : vec * nat => linspace (nth 0 (fst a) 0%Q) (nth 1 (fst a) 0%Q) (snd a) endpoint) (vscale (1 + offset)) L nums i [] 0 []); lia. }
    assert (forall k, k < num -> (nth k axis 0 == lo + inject_Z (Z.of_nat k) * ((hi - lo) / inject_Z (Z.of_nat (if endpoint then num - 1 else num))))%Q) as Hk.
    { intros k Hk. rewrite Ea, linspace_nth by auto. rewrite El, Eh. reflexivity. }
    assert (length axis = num) as Hal by (rewrite Ea; unfold linspace; rewrite map_length, seq_length; reflexivity).
    clear Ea. split; [exact Hal|]. split; [|split; [|split]].
    + intro H. rewrite Hk by auto. change (inject_Z (Z.of_nat 0)) with 0%Q. change (lo + 0 * ((hi - lo) / inject_Z (Z.of_nat (if endpoint then num - 1 else num))) == lo)%Q. generalize ((hi - lo) / inject_Z (Z.of_nat (if endpoint then num - 1 else num)))%Q. intro s. ring.
    + intros k H. rewrite !Hk by lia. rewrite !Nat2Z.inj_add, !inject_Z_plus. change (inject_Z (Z.of_nat 1)) with 1%Q. change (inject_Z (Z.of_nat 2)) with 2%Q.
      generalize ((hi - lo) / inject_Z (Z.of_nat (if endpoint then num - 1 else num)))%Q. intro s. ring.
    + intros -> H. rewrite Hk by lia. transitivity hi; [|reflexivity]. field. intro F.
      assert (Z.of_nat (num - 1) = 0)%Z as G by (apply inject_Z_injective; exact F). unfold num in *. lia.
    + intros -> H. rewrite !Hk by lia. transitivity hi; [|reflexivity]. change (inject_Z (Z.of_nat 0)) with 0%Q. change (inject_Z (Z.of_nat 1)) with 1%Q.
      replace (Z.of_nat (num - 1)) with (Z.of_nat num + -1)%Z by lia. rewrite inject_Z_plus. change (inject_Z (-1)) with (-1)%Q. field.
      intro F. assert (Z.of_nat num = 0)%Z as G by (apply inject_Z_injective; exact F). unfold num in *. lia.
Qed.

Lemma steps_in lo hi step x : (0 < step)%Q ->
  (exists y, In y (steps_from lo step (num_steps lo hi step)) /\ (y == x)%Q) <-> exists k : nat, (x == lo + inject_Z (Z.of_nat k) * step)%Q /\ (x < hi)%Q.
Proof.
  intro Hs. unfold steps_from, num_steps.
  assert (forall k : Z, (k < Qceiling ((hi - lo) / step))%Z <-> (lo + inject_Z k * step < hi)%Q) as Hk.
  { intro k. assert (inject_Z k * step < hi - lo <-> inject_Z k < (hi - lo) / step)%Q as E.
    { split; intro H; [apply Qlt_shift_div_l; auto|]. assert (~ step == 0)%Q as Hne by (intro; lra).
      setoid_replace (hi - lo)%Q with ((hi - lo) / step * step)%Q by (field; auto). apply Qmult_lt_compat_r; auto. }
    split; intro H.
    - assert (inject_Z k < (hi - lo) / step)%Q as G.
      { apply Qnot_le_lt. intro G. apply (Qceiling_resp_le) in G. rewrite Qceiling_Z in G. lia. }
      apply E in G. lra.
    - assert (inject_Z k < (hi - lo) / step)%Q as G by (apply E; lra). pose proof (Qle_ceiling ((hi - lo) / step)) as C.
      rewrite Zlt_Qlt. lra. }
  split.
  - intros [y [Hy E]]. apply in_map_iff in Hy. destruct Hy as [k [<- Hin]]. apply In_zrange in Hin. exists (Z.to_nat k). rewrite Z2Nat.id by lia.
    split; [symmetry; exact E|]. rewrite <- E. apply Hk. lia.
  - intros [k [E H]]. exists (lo + inject_Z (Z.of_nat k) * step)%Q. split; [|symmetry; exact E]. apply in_map_iff. exists (Z.of_nat k).
    split; [reflexivity|]. apply In_zrange. split; [lia|]. apply Hk. rewrite <- E. exact H.
Qed.

(** [arange]: for every axis the values from the lower limit in steps, below the upper limit. *)
Theorem C81_arange :
  forall ws L steps offset,
    ws_limits ws = Some L -> length steps = length L -> (forall s, In s steps -> (0 < s)%Q) ->
    exists axes, ws_arange ws (Each steps) offset = Some axes /\ length axes = length L /\
      forall i x, i < length L -> let (lo, hi) := scaled offset L i in
        (exists y, In y (nth i axes []) /\ (y == x)%Q) <->
        exists k : nat, (x == lo + inject_Z (Z.of_nat k) * nth i steps 0 /\ x < hi)%Q.
Proof.
  intros ws L steps offset HL Hlen Hpos. unfold ws_arange, ws_scaled_limits. rewrite HL. cbn [option_map spread].
  assert (existsb (fun a : vec * Q => Qeq_bool (snd a) 0) (combine (map (vscale (1 + offset)) L) steps) = false) as ->.
  { apply Bool.not_true_iff_false. rewrite existsb_exists. intros [[row s] [Hin E]]. apply in_combine_r in Hin. apply Hpos in Hin.
    cbn in E. apply Qeq_bool_iff in E. lra. }
  eexists. split; [reflexivity|]. split; [rewrite map_length, combine_length, map_length; lia|].
  intros i x Hi. unfold scaled.
  set (f := fun a : vec * Q => steps_from (nth 0 (fst a) 0%Q) (snd a) (num_steps (nth 0 (fst a) 0%Q) (nth 1 (fst a) 0%Q) (snd a))).
  assert (exists lo' hi', (lo' == (1 + offset) * nth 0 (nth i L []) 0)%Q /\ (hi' == (1 + offset) * nth 1 (nth i L []) 0)%Q /\
    nth i (map f (combine (map (vscale (1 + offset)) L) steps)) [] = steps_from lo' (nth i steps 0%Q) (num_steps lo' hi' (nth i steps 0%Q))) as [lo' [hi' [El [Eh Ea]]]].
  { exists (nth 0 (vscale (1 + offset) (nth i L [])) 0%Q), (nth 1 (vscale (1 + offset) (nth i L [])) 0%Q).
    split; [apply scale_row|]. split; [apply scale_row|].
    apply (nth_map_combine f (vscale (1 + offset)) L steps i [] 0%Q []); lia. }
  match goal with |- context [In _ (nth i ?l [])] => replace (nth i l []) with (steps_from lo' (nth i steps 0%Q) (num_steps lo' hi' (nth i steps 0%Q))) by (symmetry; exact Ea) end.
  rewrite steps_in by (apply Hpos, nth_In; lia).
  split; intros [k [E H]]; exists k; (split; [rewrite E; apply Qplus_inj_r; [exact El || (symmetry; exact El)]|]).
  - exact (Qlt_le_trans _ _ _ H (proj2 (Qle_lteq _ _) (or_intror Eh))).
  - exact (Qlt_le_trans _ _ _ H (proj2 (Qle_lteq _ _) (or_intror (Qeq_sym _ _ Eh)))).
Qed.

Lemma In_mesh_points axes p : In p (mesh_points axes) <-> Forall2 (fun x l => In x l) p axes.
Proof.
  unfold mesh_points. destruct axes as [|x [|y rest]]; try apply In_product. rewrite in_map_iff. split.
  - intros [q [<- Hq]]. apply In_product in Hq. inversion Hq as [|b ? q1 ? Hb H1]; subst. inversion H1 as [|a ? q2 ? Ha H2]; subst. repeat constructor; auto.
  - intro H. inversion H as [|a ? q1 ? Ha H1]; subst. inversion H1 as [|b ? q2 ? Hb H2]; subst. exists (b :: a :: q2). split; [reflexivity|].
    apply In_product. repeat constructor; auto.
Qed.

Lemma product_count {A} (ls : list (list A)) : length (product ls) = fold_right Nat.mul 1 (map (@length A) ls).
Proof.
  induction ls as [|l ls IH]; cbn [product map fold_right]; [reflexivity|]. rewrite <- IH. generalize (product ls). intro m. clear IH.
  induction l as [|x l IH]; cbn [flat_map length Nat.mul]; [reflexivity|]. rewrite app_length, map_length, IH. reflexivity.
Qed.

(** [meshgrid]: one entry per combination of the values of the axes; an entry is kept if the point is inside the cell
    and NaN otherwise; with [check=False] all are kept. *)
Theorem C81_meshgrid :
  forall near ws nums steps offset check endpoint axes,
    (match nums, steps with Some n, _ => ws_linspace ws n offset endpoint | None, Some s => ws_arange ws s offset | None, None => None end) = Some axes ->
    ws_meshgrid near ws None None offset check endpoint = None /\
    exists points, ws_meshgrid near ws nums steps offset check endpoint = Some points /\
      length points = fold_right Nat.mul 1 (map (@length Q) axes) /\
      (forall p, In (Some p) points <->
         Forall2 (fun x axis => In x axis) p axes /\ (check = true -> ws_check near ws p = true)) /\
      (In None points <-> check = true /\ exists p, Forall2 (fun x axis => In x axis) p axes /\ ws_check near ws p = false).
Proof.
  intros near ws nums steps offset check endpoint axes H. unfold ws_meshgrid. rewrite H. cbn [option_map].
  split; [reflexivity|]. eexists. split; [reflexivity|]. split; [|split].
  - rewrite map_length. unfold mesh_points. destruct axes as [|x [|y rest]]; try apply product_count.
    rewrite map_length, product_count. cbn [map fold_right]. lia.
  - intro p. rewrite in_map_iff. split.
    + intros [q [E Hq]]. apply In_mesh_points in Hq. destruct (check && negb (ws_check near ws q)) eqn:C; [discriminate|]. injection E as <-.
      split; auto. intros ->. cbn in C. apply negb_false_iff in C. exact C.
    + intros [Hp Hc]. exists p. split; [|apply In_mesh_points; exact Hp]. destruct check; [rewrite Hc by reflexivity|]; reflexivity.
  - rewrite in_map_iff. split.
    + intros [q [E Hq]]. apply In_mesh_points in Hq. destruct (check && negb (ws_check near ws q)) eqn:C; [|discriminate].
      apply andb_true_iff in C. destruct C as [C1 C2]. split; auto. exists q. split; auto. apply negb_true_iff. exact C2.
    + intros [-> [p [Hp Hc]]]. exists p. split; [rewrite Hc; reflexivity|apply In_mesh_points; exact Hp].
Qed.

(** ** Examples *)

(** A nearest-point search: the first of the nearest points. *)
Fixpoint arg_min (best : Q) (bi i : nat) (l : list Q) : nat :=
  match l with
  | [] => bi
  | x :: r => if Qle_bool best x then arg_min best bi (S i) r else arg_min x i (S i) r
  end.
Definition first_nearest (P : list vec) (x : vec) : nat :=
  match map (sqdist x) P with [] => 0 | q :: l => arg_min q 0 1 l end.

Lemma arg_min_spec l : forall pre best bi, bi < length pre -> nth bi pre 0%Q = best -> (forall q, In q pre -> (best <= q)%Q) ->
  let k := arg_min best bi (length pre) l in k < length pre + length l /\ forall q, In q (pre ++ l) -> (nth k (pre ++ l) 0 <= q)%Q.
Proof.
  induction l as [|x l IH]; intros pre best bi H1 H2 H3; cbn [arg_min].
  - rewrite app_nil_r, Nat.add_0_r. split; auto. intros q Hq. rewrite H2. auto.
  - assert (forall b', (b' = best \/ b' = x) -> (b' <= best)%Q -> (b' <= x)%Q -> forall i', nth i' (pre ++ [x]) 0%Q = b' -> i' < length (pre ++ [x]) ->
      let k := arg_min b' i' (S (length pre)) l in k < length pre + S (length l) /\ forall q, In q (pre ++ x :: l) -> (nth k (pre ++ x :: l) 0 <= q)%Q) as G.
    { intros b' _ L1 L2 i' N I. specialize (IH (pre ++ [x]) b' i' I N). rewrite app_length in IH. cbn [length] in IH.
      replace (length pre + 1) with (S (length pre)) in IH by lia. rewrite <- app_assoc in IH. cbn [app] in IH.
      assert (forall q, In q (pre ++ [x]) -> (b' <= q)%Q) as Hall.
      { intros q Hq. apply in_app_iff in Hq. destruct Hq as [Hq|[<-|[]]]; auto. apply Qle_trans with best; auto. }
      specialize (IH Hall). cbv zeta in IH. destruct IH as [A B]. split; [lia|exact B]. }
    destruct (Qle_bool best x) eqn:E.
    + apply Qle_bool_iff in E. apply G; auto; [apply Qle_refl|rewrite app_nth1; auto|rewrite app_length; lia].
    + apply Qle_bool_false_iff in E. apply G; auto; [apply Qlt_le_weak; exact E|apply Qle_refl| |rewrite app_length; cbn; lia].
      rewrite app_nth2 by lia. rewrite Nat.sub_diag. reflexivity.
Qed.

Lemma first_nearest_ok : finds_nearest first_nearest.
Proof.
  intros P x HP. unfold first_nearest. destruct P as [|p P]; [contradiction|]. cbn [map].
  destruct (arg_min_spec (map (sqdist x) P) [sqdist x p] (sqdist x p) 0 ltac:(cbn; lia) eq_refl) as [H1 H2].
  { intros q [<-|[]]. apply Qle_refl. }
  cbn [length app] in H1, H2. rewrite map_length in H1. cbn [length]. split; [lia|]. intros q Hq.
  change (sqdist x p :: map (sqdist x) P) with (map (sqdist x) (p :: P)) in H2.
  specialize (H2 _ (in_map (sqdist x) _ _ Hq)). set (k := arg_min _ _ _ _) in *.
  rewrite (nth_indep _ 0%Q (sqdist x [])) in H2 by (rewrite map_length; cbn; lia). rewrite map_nth in H2. exact H2.
Qed.

(** The square lattice with the constant 2 and the diagram of its five points. *)
Definition square2 : basis := mkBasis [[2; 0]; [0; 2]]%Q [[1 # 2; 0]; [0; 1 # 2]]%Q.
Lemma square2_valid : valid_basis square2. Proof. apply inverse2_check; reflexivity. Qed.
Lemma square2_cubic : cubic_lattice 2 (b_mat square2) 2.
Proof. split; [reflexivity|]. intros [|[|i]] [|[|j]] Hi Hj; try lia; reflexivity. Qed.

Definition square2_points : list vec := Eval vm_compute in
  match get_neighbor_cells square2 0 true isclose2 with Some c => map (cell_point square2) c | None => [] end.

(** Points: the origin, (-2, 0), (0, -2), (0, 2), (2, 0). *)
Definition square2_diagram : diagram := mkDiagram
  [[-1; -1]; [-1; 1]; [1; -1]; [1; 1]]%Q
  [(0, 1); (0, 2); (0, 3); (0, 4); (1, 2); (1, 3); (2, 4); (3, 4)]
  [[0; 1]; [0; 2]; [1; 3]; [2; 3]; [-1; 0]; [-1; 1]; [-1; 2]; [-1; 3]]%Z.

Definition Q_eq_dec (x y : Q) : {x = y} + {x <> y}.
Proof. decide equality; [apply Pos.eq_dec|apply Z.eq_dec]. Defined.

Definition voronoi_square2 (P : list vec) : option diagram :=
  if list_eq_dec (list_eq_dec Q_eq_dec) P square2_points then Some square2_diagram else None.

Definition square2_cell : ws_cell := mkWS 2 square2_points [[0; 1]; [0; 2]; [1; 3]; [2; 3]] (dg_vertices square2_diagram) 0.
Lemma square2_ws : wigner_seitz_cell voronoi_square2 first_nearest square2 = Some square2_cell.
Proof. vm_compute. reflexivity. Qed.

Lemma nearest_check P x p : existsb (fun q => if list_eq_dec Q_eq_dec p q then true else false) P && forallb (fun q => Qle_bool (sqdist x p) (sqdist x q)) P = true -> is_nearest P x p.
Proof.
  intro H. apply andb_true_iff in H. destruct H as [H1 H2]. rewrite forallb_forall in H2. apply existsb_exists in H1. destruct H1 as [q [Hq E]].
  destruct (list_eq_dec Q_eq_dec p q) as [<-|]; [|discriminate]. split; auto. intros r Hr. apply Qle_bool_iff. auto.
Qed.

Lemma voronoi_square2_ok P dg : voronoi_square2 P = Some dg -> is_diagram 2 P (dg_vertices dg) (dg_ridge_points dg) (dg_ridge_vertices dg).
Proof.
  unfold voronoi_square2. destruct (list_eq_dec (list_eq_dec Q_eq_dec) P square2_points) as [->|]; [|discriminate]. intro H. injection H as <-.
  assert (forall x, voronoi_vertex 2 square2_points x <-> length x = 2 /\ forall i, i < 2 -> (Qabs (nth i x 0) == 2 / 2)%Q) as Hv.
  { exact (cubic_vertex square2 2 square2_valid ltac:(cbn; lia) ltac:(discriminate) square2_cubic voronoi_square2 first_nearest square2_cell square2_ws). }
  split; [|split; [|split]].
  - intros v H. apply Hv. split; [|intros i Hi]; repeat destruct H as [<-|H]; try destruct H; auto; destruct i as [|[|i]]; try lia; reflexivity.
  - intros x H. apply Hv in H. destruct H as [L H]. destruct x as [|x [|y [|]]]; try discriminate L.
    pose proof (H 0 ltac:(lia)) as H0. pose proof (H 1 ltac:(lia)) as H1. cbn [nth] in H0, H1. change (2 / 2)%Q with (2 # 2) in *.
    assert (forall t, (Qabs t == 2 # 2)%Q -> (t == -1)%Q \/ (t == 1)%Q) as G.
    { intros t. apply (Qabs_case t); intros ? E; [right|left]; lra. }
    destruct (G x H0) as [E0|E0], (G y H1) as [E1|E1].
    + exists [-1; -1]%Q. split; [cbn; auto|]. rewrite !same_cons. repeat split; try (symmetry; assumption). 
    + exists [-1; 1]%Q. split; [cbn; auto|]. rewrite !same_cons. repeat split; try (symmetry; assumption).
    + exists [1; -1]%Q. split; [cbn; auto|]. rewrite !same_cons. repeat split; try (symmetry; assumption).
    + exists [1; 1]%Q. split; [cbn; auto|]. rewrite !same_cons. repeat split; try (symmetry; assumption).
  - reflexivity.
  - intros k i j r H1 H2. do 8 (destruct k as [|k]; [cbn in H1, H2; injection H1 as <- <-; injection H2 as <-;
      (split; [cbn; lia|]); (split; [cbn; lia|]); (split; [discriminate|]); (split; [discriminate|]);
      intros z [<-|[<-|[]]]; (split; [cbn; lia|]); intro Hz; try (exfalso; lia); (split; apply nearest_check; vm_compute; reflexivity)|]).
    destruct k; discriminate H1.
Qed.

Example C81_example :
  valid_basis square2 /\ cubic_lattice 2 (b_mat square2) 2 /\ finds_nearest first_nearest /\
  (forall P dg, voronoi_square2 P = Some dg -> is_diagram 2 P (dg_vertices dg) (dg_ridge_points dg) (dg_ridge_vertices dg)) /\
  wigner_seitz_cell voronoi_square2 first_nearest square2 = Some square2_cell /\
  ws_check first_nearest square2_cell [1 # 2; - (9 # 10)]%Q = true /\ ws_check first_nearest square2_cell [1 # 2; - (11 # 10)]%Q = false /\
  ws_limits square2_cell = Some [[-1; 1]; [-1; 1]]%Q /\
  option_map (map (map Qred)) (ws_linspace square2_cell (Each [3; 2]) 0 true) = Some [[-1; 0; 1]; [-1; 1]]%Q /\
  option_map (map (map Qred)) (ws_arange square2_cell (Same (3 # 4)) 0) = Some [[-1; - (1 # 4); 1 # 2]; [-1; - (1 # 4); 1 # 2]]%Q /\
  option_map (map (option_map (map Qred))) (ws_meshgrid first_nearest square2_cell None (Some (Each [2; 1]%Q)) (1 # 2) true false) =
    Some [None; None; None; Some [(1 # 2); - (1 # 2)]; None; Some [1 # 2; 1 # 2]]%Q.
Proof.
  split; [exact square2_valid|]. split; [exact square2_cubic|]. split; [exact first_nearest_ok|]. split; [exact voronoi_square2_ok|].
  split; [exact square2_ws|]. repeat split; vm_compute; reflexivity.
Qed.

(** Symmetry points of the square, and its Brillouin zone (with 4 in place of 2 pi the lattice is its own reciprocal). *)
Example C81_example_square :
  ws_symmetry_points square2_cell =
    Some ([0; 0], dg_vertices square2_diagram, Some [[-2 # 2; 0 # 2]; [0 # 2; -2 # 2]; [0 # 2; 2 # 2]; [2 # 2; 0 # 2]], None)%Q /\
  inverts inverse22 2 /\
  (exists ws, brillouin_zone inverse22 4 (fun P => voronoi_square2 (map (map Qred) P)) first_nearest false square2 = Some ws /\
     ws_check first_nearest ws [9 # 10; 9 # 10]%Q = true /\ ws_check first_nearest ws [11 # 10; 0]%Q = false).
Proof.
  split; [vm_compute; reflexivity|]. split; [exact inverse22_inverts|].
  eexists. split; [vm_compute; reflexivity|]. split; vm_compute; reflexivity.
Qed.

(** Cells of the chain and of the cubic lattices with two atoms per cube edge. *)
Definition any_diagram (P : list vec) : option diagram := Some (mkDiagram [] [] []).
Lemma fcc2_valid : valid_basis (fcc inverse_small 2).
Proof.
  apply (inverse_small_3 (b_mat (fcc inverse_small 2))). exists [[1 # 2; 1 # 2; - (1 # 2)]; [1 # 2; - (1 # 2); 1 # 2]; [- (1 # 2); 1 # 2; 1 # 2]]%Q.
  matrix_check; reflexivity.
Qed.
Lemma bcc2_valid : valid_basis (bcc inverse_small 2).
Proof.
  apply (inverse_small_3 (b_mat (bcc inverse_small 2))). exists [[1 # 2; 1 # 2; 0]; [0; - (1 # 2); 1 # 2]; [- (1 # 2); 0; 1 # 2]]%Q.
  matrix_check; reflexivity.
Qed.

Example C81_example_more :
  (exists ws, wigner_seitz_cell any_diagram first_nearest (mkBasis [[2]] [[1 # 2]])%Q = Some ws /\
     map (map Qred) (ws_vertices ws) = [[-1]; [1]]%Q /\ ws_size ws = None /\ ws_check first_nearest ws [9 # 10]%Q = true) /\
  (exists ws, wigner_seitz_cell any_diagram first_nearest (fcc inverse_small 2) = Some ws /\ length (ws_points ws) = 13 /\
     ws_check first_nearest ws [4 # 5; 1 # 10; - (1 # 10)]%Q = true /\ ws_check first_nearest ws [4 # 5; 3 # 10; 0]%Q = false) /\
  (exists ws, wigner_seitz_cell any_diagram first_nearest (bcc inverse_small 2) = Some ws /\ length (ws_points ws) = 9 /\
     ws_check first_nearest ws [6 # 5; 0; 0]%Q = true).
Proof.
  split; [|split]; (eexists; split; [vm_compute; reflexivity|]); repeat split; vm_compute; reflexivity.
Qed.

Print Assumptions C81_check.
Print Assumptions C81_hypercubic.
Print Assumptions C81_limits.
Print Assumptions C81_size_refuted.
Print Assumptions C81_fcc.
Print Assumptions C81_bcc_refuted.
Print Assumptions C81_rhombic_refuted.
Print Assumptions C81_rectangular_refuted.
Print Assumptions C81_brillouin_hypercubic.
Print Assumptions C81_brillouin_fcc_refuted.
Print Assumptions C81_symmetry_points.
Print Assumptions C81_linspace.
Print Assumptions C81_arange.
Print Assumptions C81_meshgrid.
