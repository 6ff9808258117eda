(** * Distances in a hypercubic lattice *)
From Coq Require Import List ZArith QArith Bool Arith Lia Lqa Permutation Sorting.Sorted.
From Verif Require Import Np NpFacts LinAlg LinFacts SpecUtils SpecBasis SpecSpatial SpecData BasisModel BasisProofs PropBasis SpatialModel SpatialProofs
  SpecStructure StructureModel StructureFacts RoundFacts AnalyzeProofs KDProofs StructureProofs PropStructure PropAnalyze SpecNeighbors RangeProofs SpecGrid.
Import ListNotations.
Open Scope nat_scope.
Open Scope list_scope.

(** ** Sums of squares *)

Fixpoint zs (d : nat) (g : nat -> Z) : Z := match d with 0 => 0%Z | S n => (zs n g + g n * g n)%Z end.

Lemma zs_nonneg d g : (0 <= zs d g)%Z.
Proof. induction d; cbn; [lia|]. nia. Qed.

Lemma zs_zero d g : zs d g = 0%Z -> forall k, k < d -> g k = 0%Z.
Proof.
  induction d as [|d IH]; cbn; intros H k Hk; [lia|]. pose proof (zs_nonneg d g).
  assert (zs d g = 0 /\ g d = 0)%Z as [H1 H2] by (split; nia). destruct (Nat.eq_dec k d) as [->|]; auto. apply IH; auto. lia.
Qed.

Lemma zs_all_zero d g : (forall k, k < d -> g k = 0%Z) -> zs d g = 0%Z.
Proof. induction d as [|d IH]; cbn; intro H; auto. rewrite IH, (H d) by (auto; lia). reflexivity. Qed.

Lemma zs_ext d f g : (forall k, k < d -> f k = g k) -> zs d f = zs d g.
Proof. induction d as [|d IH]; cbn; intro H; auto. rewrite IH, (H d) by (auto; lia). reflexivity. Qed.

Lemma zs_one d g : (zs d g <= 1)%Z ->
  (forall k, k < d -> g k = 0%Z) \/ exists a, a < d /\ Z.abs (g a) = 1%Z /\ forall k, k < d -> k <> a -> g k = 0%Z.
Proof.
  induction d as [|d IH]; cbn; intro H; [left; intros; lia|]. pose proof (zs_nonneg d g).
  destruct (Z.eq_dec (g d) 0) as [E|E].
  - destruct IH as [H1|[a [Ha [H1 H2]]]]; [nia| |].
    + left. intros k Hk. destruct (Nat.eq_dec k d) as [->|]; auto. apply H1. lia.
    + right. exists a. split; [lia|]. split; auto. intros k Hk Hka. destruct (Nat.eq_dec k d) as [->|]; auto. apply H2; auto. lia.
  - assert (g d * g d = 1 /\ zs d g = 0)%Z as [H1 H2] by nia. right. exists d. split; [lia|]. split; [nia|].
    intros k Hk Hkd. apply (zs_zero d g H2). lia.
Qed.

Lemma zs_unit d g a : a < d -> Z.abs (g a) = 1%Z -> (forall k, k < d -> k <> a -> g k = 0%Z) -> zs d g = 1%Z.
Proof.
  induction d as [|d IH]; intros Ha H1 H2; [lia|]. cbn. destruct (Nat.eq_dec a d) as [->|].
  - rewrite zs_all_zero; [nia|]. intros k Hk. apply H2; lia.
  - rewrite IH by (auto; try lia; intros; apply H2; lia). rewrite (H2 d) by lia. reflexivity.
Qed.

Lemma zs_entry d g k : k < d -> (g k * g k <= zs d g)%Z.
Proof.
  induction d as [|d IH]; intro H; [lia|]. cbn. pose proof (zs_nonneg d g). destruct (Nat.eq_dec k d) as [->|]; [lia|]. specialize (IH ltac:(lia)). nia.
Qed.

Lemma sum_squares d a g : (sum_upto d (fun k => (a * inject_Z (g k)) * (a * inject_Z (g k))) == a * a * inject_Z (zs d g))%Q.
Proof.
  induction d as [|d IH]; cbn [sum_upto zs]; [change (inject_Z 0) with 0%Q; ring|]. rewrite IH, inject_Z_plus, inject_Z_mult. ring.
Qed.

Section Cubic.
  Variables (d : nat) (V : list (list Q)) (a : Q).
  Hypothesis HV : cubic_lattice d V a.

  Lemma row_sum n i : i < d -> (sum_upto d (fun k => entry V i k * inject_Z (nth k n 0%Z)) == a * inject_Z (nth i n 0%Z))%Q.
  Proof.
    intro Hi. rewrite (sum_ext d _ (fun k => a * (delta i k * inject_Z (nth k n 0%Z)))%Q).
    - rewrite sum_scale, sum_delta by auto. reflexivity.
    - intros k Hk. destruct HV as [_ H]. rewrite (H i k) by auto. ring.
  Qed.

  Lemma cell_sq_cubic n : (cell_sq d V n == a * a * inject_Z (zs d (fun k => nth k n 0%Z)))%Q.
  Proof.
    rewrite <- sum_squares. unfold cell_sq. apply sum_ext. intros i Hi. cbv zeta. rewrite row_sum by auto. reflexivity.
  Qed.

  Lemma point_sq r n m : length r = d ->
    (sqdist (lattice_point d V r n) (lattice_point d V r m) == a * a * inject_Z (zs d (fun k => nth k m 0 - nth k n 0)%Z))%Q.
  Proof.
    intro Hr. rewrite <- sum_squares. unfold sqdist. rewrite lattice_point_length. apply sum_ext. intros i Hi.
    rewrite !nth_lattice_point by auto. rewrite !row_sum by auto. unfold Z.sub. rewrite inject_Z_plus, inject_Z_opp. ring.
  Qed.

  Lemma origin_sq r n : length r = d -> (sqdist r (lattice_point d V r n) == a * a * inject_Z (zs d (fun k => nth k n 0%Z)))%Q.
  Proof.
    intro Hr. rewrite <- sum_squares. unfold sqdist. rewrite Hr. apply sum_ext. intros i Hi.
    rewrite !nth_lattice_point by auto. rewrite !row_sum by auto. ring.
  Qed.

  Lemma unit_step_sq n m : unit_step d n m <-> zs d (fun k => nth k m 0 - nth k n 0)%Z = 1%Z.
  Proof.
    split.
    - intros [k [Hk [H1 H2]]]. apply (zs_unit d _ k); auto; [lia|]. intros i Hi Hik. rewrite (H2 i Hi Hik). lia.
    - intro H. destruct (zs_one d (fun k => nth k m 0 - nth k n 0)%Z) as [H1|[k [Hk [H1 H2]]]]; [lia| |].
      + rewrite zs_all_zero in H by auto. discriminate.
      + exists k. split; auto. split; [lia|]. intros i Hi Hik. specialize (H2 i Hi Hik). lia.
  Qed.

  (** The unit vectors. *)
  Definition unit_vector (k : nat) (s : Z) : list Z := map (fun i => if i =? k then s else 0%Z) (seq 0 d).

  Lemma unit_vector_nth k s i : i < d -> nth i (unit_vector k s) 0%Z = if i =? k then s else 0%Z.
  Proof. intro Hi. unfold unit_vector. rewrite (nth_map_in _ _ _ 0) by (rewrite seq_length; auto). rewrite seq_nth by auto. reflexivity. Qed.

  Lemma unit_vector_length k s : length (unit_vector k s) = d.
  Proof. unfold unit_vector. rewrite map_length, seq_length. reflexivity. Qed.

  Lemma unit_vector_sq k s : k < d -> Z.abs s = 1%Z -> zs d (fun i => nth i (unit_vector k s) 0%Z) = 1%Z.
  Proof.
    intros Hk Hs. apply (zs_unit d _ k); auto.
    - rewrite unit_vector_nth, Nat.eqb_refl by auto. auto.
    - intros i Hi Hik. rewrite unit_vector_nth by auto. rewrite (proj2 (Nat.eqb_neq _ _) Hik). reflexivity.
  Qed.

  Definition steps : list (list Z) := flat_map (fun k => [unit_vector k 1; unit_vector k (-1)]) (seq 0 d).

  Lemma steps_length : length steps = 2 * d.
  Proof.
    unfold steps. assert (forall l, length (flat_map (fun k => [unit_vector k 1; unit_vector k (-1)]) l) = 2 * length l) as H.
    { induction l as [|x l IH]; cbn [flat_map app length]; [reflexivity|]. rewrite IH. lia. }
    rewrite H, seq_length. reflexivity.
  Qed.

  Lemma In_steps n : length n = d -> In n steps <-> zs d (fun k => nth k n 0%Z) = 1%Z.
  Proof.
    intro Hn. unfold steps. rewrite in_flat_map. split.
    - intros [k [Hk [<-|[<-|[]]]]]; apply in_seq in Hk; apply unit_vector_sq; auto; lia.
    - intro H. destruct (zs_one d (fun k => nth k n 0%Z)) as [H1|[k [Hk [H1 H2]]]]; [lia| |].
      + rewrite zs_all_zero in H by auto. discriminate.
      + exists k. split; [apply in_seq; lia|].
        assert (forall s, nth k n 0%Z = s -> unit_vector k s = n) as Hu.
        { intros s Hs. apply (list_eq_nth _ _ 0%Z); [rewrite unit_vector_length; auto|]. intros i Hi. rewrite unit_vector_length in Hi.
          rewrite unit_vector_nth by auto. destruct (Nat.eqb_spec i k) as [->|E]; auto. symmetry. apply H2; auto. }
        destruct (Z.eq_dec (nth k n 0%Z) 1) as [E|E]; [left; auto|right; left; apply Hu; lia].
  Qed.

  Lemma steps_NoDup : NoDup steps.
  Proof.
    unfold steps. apply NoDup_flat_map; [apply seq_NoDup| |].
    - intros k Hk. apply in_seq in Hk. constructor; [|constructor; [intros []|constructor]]. intros [E|[]].
      apply (f_equal (fun v => nth k v 0%Z)) in E. rewrite !unit_vector_nth, Nat.eqb_refl in E by lia. discriminate.
    - intros k k' v Hk Hk' Hv Hv'. apply in_seq in Hk. apply in_seq in Hk'.
      assert (nth k v 0%Z <> 0%Z) as H1. { destruct Hv as [<-|[<-|[]]]; rewrite unit_vector_nth, Nat.eqb_refl by lia; discriminate. }
      destruct (Nat.eq_dec k k') as [|E]; auto. exfalso. apply H1.
      destruct Hv' as [<-|[<-|[]]]; rewrite unit_vector_nth by lia; rewrite (proj2 (Nat.eqb_neq _ _) E); reflexivity.
  Qed.
End Cubic.

(** ** The analysis of a hypercubic lattice with one atom and its nearest neighbours *)
Section Analysis.
  Variables (query : kd_tree) (b : basis) (r0 : vec) (cells : list (list Z)) (a : Q) (za : Z).
  Let d := b_dim b.
  Let V := b_mat b.
  Let R := [r0].
  Hypothesis (Hq : correct_tree query) (Hb : valid_basis b) (Hd : 1 <= d) (Hr0 : length r0 = d).
  Hypothesis (Hcells : get_neighbor_cells b 2 true Qle_bool = Some cells).
  Hypothesis (HV : cubic_lattice d V a) (Hza : rounds_to_micro (a * a)%Q za) (H6 : (6 <= za)%Z).

  Lemma step_cells n : length n = d -> zs d (fun k => nth k n 0%Z) = 1%Z -> In n cells.
  Proof.
    intros Hn H1.
    destruct (C14_neighbor_cells b 2 true Qle_bool Hb Hd) as [cells' [cut [E [Hin [_ [_ [[smaller [lengths [[Hs1 Hs2] [_ Hsl]]]] _]]]]]]].
    { intros x x' y y' E1 E2. apply Bool.eq_iff_eq_true. rewrite !Qle_bool_iff, E1, E2. reflexivity. }
    rewrite Hcells in E. injection E as <-. fold d V in Hin, Hs2. apply Hin. left. split; [|split].
    - split; auto. intros k Hk. apply (In_nth _ _ 0%Z) in Hk. destruct Hk as [i [Hi <-]].
      pose proof (zs_entry d (fun k => nth k n 0%Z) i ltac:(lia)) as H. cbv beta in H. rewrite H1 in H. nia.
    - intros ->. rewrite zs_all_zero in H1; [discriminate|]. intros k _. apply nth_repeat.
    - apply Qle_bool_iff. rewrite (cell_sq_cubic d V a HV), H1.
      assert (exists x y, nth_error smaller 0 = Some x /\ nth_error smaller 1 = Some y) as [x [y [Ex Ey]]].
      { destruct smaller as [|x [|y sm]]; cbn [length] in Hsl; [lia|lia|]. exists x, y. split; reflexivity. }
      pose proof (Hs1 0 1 x y ltac:(lia) Ex Ey) as Hxy.
      assert (exists x', In x' smaller /\ x' == x)%Q as Hx by (exists x; split; [eapply nth_error_In; eauto|reflexivity]).
      assert (exists y', In y' smaller /\ y' == y)%Q as Hy by (exists y; split; [eapply nth_error_In; eauto|reflexivity]).
      apply Hs2 in Hx. apply Hs2 in Hy. destruct Hx as [_ [nx [_ Enx]]]. destruct Hy as [Hyc [ny [_ Eny]]].
      rewrite (cell_sq_cubic d V a HV) in Enx. rewrite (cell_sq_cubic d V a HV) in Eny.
      pose proof (zs_nonneg d (fun k => nth k nx 0%Z)) as Zx. pose proof (zs_nonneg d (fun k => nth k ny 0%Z)) as Zy.
      set (zx := zs d (fun k => nth k nx 0%Z)) in *. set (zy := zs d (fun k => nth k ny 0%Z)) in *. destruct HV as [Ha _].
      assert (zx < zy)%Z as Hlt.
      { rewrite Zlt_Qlt. rewrite <- Enx, <- Eny in Hxy. nra. }
      assert (1 <= inject_Z zy)%Q by (change 1%Q with (inject_Z 1); rewrite <- Zle_Qle; lia).
      change (inject_Z 1) with 1%Q. nra.
  Qed.

  Lemma occurs_cubic x : occurs d V R cells 0 0 x -> exists z, x = Fin z /\ (za <= z)%Z.
  Proof.
    intros [Hx [n [Hn [z [-> Hz]]]]]. exists z. split; auto. cbn [nth R] in Hz. change (nth 0 R []) with r0 in Hz.
    pose proof (zs_nonneg d (fun k => nth k n 0%Z)) as Z0. destruct HV as [Ha _].
    assert (rounds_to_micro (a * a * inject_Z (zs d (fun k => nth k n 0%Z)))%Q z) as Hz'.
    { eapply rounds_ext; [|exact Hz]. apply origin_sq; auto. }
    destruct (Z.eq_dec (zs d (fun k => nth k n 0%Z)) 0) as [E|E].
    - exfalso. apply Hx. f_equal. rewrite E in Hz'.
      assert (rounds_to_micro 0 0) as H0 by (change 0%Z with (sqrt_micro 0); apply sqrt_micro_rounds; lra).
      eapply rounds_unique; [exact Hz'|exact H0|]. change (inject_Z 0) with 0%Q. ring.
    - assert (1 <= inject_Z (zs d (fun k => nth k n 0%Z)))%Q by (change 1%Q with (inject_Z 1); rewrite <- Zle_Qle; lia).
      eapply rounds_mono; [exact Hza|exact Hz'|]. nra.
  Qed.

  Lemma unit_distance n : length n = d -> zs d (fun k => nth k n 0%Z) = 1%Z -> pair_distance d V R 0 0 n (Fin za).
  Proof.
    intros Hn H1. exists za. split; auto. cbn [nth R]. change (nth 0 R []) with r0. eapply rounds_ext; [|exact Hza].
    rewrite (origin_sq d V a HV) by auto. rewrite H1. change (inject_Z 1) with 1%Q. ring.
  Qed.

  Lemma occurs_unit : occurs d V R cells 0 0 (Fin za).
  Proof.
    split; [intro E; injection E; lia|]. exists (unit_vector d 0 1). pose proof (unit_vector_sq d 0 1 ltac:(lia) eq_refl) as H1. split.
    - apply step_cells; auto. apply unit_vector_length.
    - apply unit_distance; auto. apply unit_vector_length.
  Qed.

  Lemma first_cubic x : among_first 1 (occurs d V R cells 0 0) x <-> x = Fin za.
  Proof.
    split.
    - intros [L [H1 [H2 [i [Hi E]]]]]. assert (i = 0) as -> by lia. destruct L as [|y L]; [discriminate|]. cbn in E. injection E as ->.
      assert (In (Fin za) (x :: L)) as Hin by (apply H2, occurs_unit). assert (occurs d V R cells 0 0 x) as Hx by (apply H2; left; auto).
      destruct (occurs_cubic x Hx) as [z [-> Hz]]. apply (increasing_head _ _ H1) in Hin. apply Z.leb_le in Hin. f_equal. lia.
    - intros ->. assert (forall r, In r R -> length r = b_dim b) as HR by (intros r [<-|[]]; auto).
      destruct (full_keys query b R 1 Hq Hb Hd HR cells Hcells 0 0 ltac:(cbn; lia) ltac:(cbn; lia)) as [Hinc Hocc].
      eexists. split; [exact Hinc|]. split; [exact Hocc|]. exists 0. split; [lia|].
      pose proof occurs_unit as Hu. apply Hocc in Hu. destruct (dd_keys (full_dict query b R cells 0 0)) as [|y L] eqn:E; [destruct Hu|]. cbn. f_equal.
      assert (occurs d V R cells 0 0 y) as Hy by (apply Hocc; left; auto). destruct (occurs_cubic y Hy) as [z [-> Hz]].
      apply (increasing_head _ _ Hinc) in Hu. apply Z.leb_le in Hu. f_equal. lia.
  Qed.
End Analysis.
