(** * Periodic blocks of cells of any lattice *)
From Coq Require Import String List ZArith QArith Qabs Qround Bool Arith Lia Lqa Permutation Sorting.Sorted.
From Verif Require Import Np NpFacts LinAlg LinFacts SpecUtils SpecBasis BasisModel BasisProofs PropBasis SpatialModel SpecSpatial SpatialProofs SpecStructure StructureModel RoundFacts StructureFacts
  AnalyzeProofs SpecNeighbors SpecLattice DataModel SpecData DataFacts DataProofs DataAppend LatticeModel SpecGrid GridProofs TranslationFacts PropMinDist RepeatProofs SpecSeam PropSeam SpecJoin JoinProofs BoxProofs RangeProofs SpecTorus TorusProofs SpecBlock.
Import ListNotations.
Open Scope nat_scope.
Open Scope list_scope.

(** ** The translations along two axes *)

Lemma In_pairs_both {A} (l : list A) x y : In x l -> In y l -> In (x, y) (pairs_with_replacement l) \/ In (y, x) (pairs_with_replacement l).
Proof.
  induction l as [|z l IH]; [intros []|]. intros Hx Hy. cbn [pairs_with_replacement]. destruct Hx as [->|Hx].
  - left. apply in_or_app. left. apply in_map. auto.
  - destruct Hy as [->|Hy]; [right; apply in_or_app; left; apply in_map; right; auto|].
    destruct (IH Hx Hy) as [H|H]; [left|right]; apply in_or_app; right; auto.
Qed.

Lemma flip_tail_zero v : nth 0 (flip_tail v) 0%Z = nth 0 v 0%Z.
Proof. destruct v; auto. Qed.

Lemma flip_tail_succ v k : k <> 0 -> nth k (flip_tail v) 0%Z = (- nth k v 0)%Z.
Proof. intro H. destruct v as [|x v], k as [|k]; try congruence; cbn; auto. apply (map_nth Z.opp v 0%Z k). Qed.

Lemma box_pairs d l L axes items : built d l -> lt_indices l <> [] -> (lt_primitive l = Some true \/ axis_aligned d (b_mat (lt_basis l))) ->
  (forall a, In a axes -> a < d) -> (forall a, In a axes -> extent (lt_indices l) a (nth a L 0%Z)) ->
  periodic_translation_vectors (lt_basis l) (is_primitive l) (lt_indices l) axes = Some items ->
  forall k k', In k axes -> In k' axes -> k < k' ->
  (exists ax n, In (ax, n) items /\ nth k n 0%Z = nth k L 0%Z /\ nth k' n 0%Z = nth k' L 0%Z /\ forall b, b < d -> b <> k -> b <> k' -> nth b n 0%Z = 0%Z) /\
  (k = 0 -> exists ax n, In (ax, n) items /\ nth k n 0%Z = nth k L 0%Z /\ nth k' n 0%Z = (- nth k' L 0)%Z /\ forall b, b < d -> b <> k -> b <> k' -> nth b n 0%Z = 0%Z).
Proof.
  intros B Hne Hpa Ha Hext E k k' Hk Hk' Hlt.
  assert (exists p ys its v, (p = (k, k') \/ p = (k', k)) /\ items = concat ys /\ In its ys /\
    its = [([fst p; snd p], v); ([fst p; snd p], flip_tail v)] /\ translation_vector (lt_basis l) [fst p; snd p] (is_primitive l) (lt_indices l) = Some v) as (p & ys & its & v & Hp & -> & Hits & -> & Ev).
  { unfold periodic_translation_vectors in E. destruct axes as [|a [|a' r]] eqn:Eax; [destruct Hk|exfalso; destruct Hk as [<-|[]], Hk' as [<-|[]]; lia|].
    rewrite <- Eax in *. destruct (all_some _) as [ys|] eqn:Eys in E; [|discriminate E]. injection E as <-.
    assert (exists p, (p = (k, k') \/ p = (k', k)) /\ In p (pairs_with_replacement axes)) as [p [Hp Hin]].
    { destruct (In_pairs_both axes k k' Hk Hk') as [H|H]; [exists (k, k')|exists (k', k)]; auto. }
    destruct (all_some_pick _ _ _ p Eys Hin) as [its [Ef Hits]]. cbv zeta in Ef.
    destruct (translation_vector (lt_basis l) [fst p; snd p] _ _) as [v|] eqn:Ev; [|discriminate]. cbn [option_map] in Ef.
    assert (forallb (Nat.eqb (nth 0 axes 0)) [fst p; snd p] = false) as Ef0.
    { destruct (forallb _ _) eqn:E0; auto. exfalso. cbn [forallb] in E0. rewrite andb_true_r in E0. apply andb_true_iff in E0. destruct E0 as [E1 E2].
      apply Nat.eqb_eq in E1. apply Nat.eqb_eq in E2. destruct Hp as [->| ->]; cbn in E1, E2; lia. }
    rewrite Ef0 in Ef. injection Ef as <-. exists p, ys, [([fst p; snd p], v); ([fst p; snd p], flip_tail v)], v. auto 6. }
  assert (length v = d /\ forall b, b < d -> nth b v 0%Z = if (Nat.eqb b k || Nat.eqb b k')%bool then nth b L 0%Z else 0%Z) as [Lv Hv].
  { assert (forall x, In x [fst p; snd p] <-> x = k \/ x = k') as Hx.
    { intro x. destruct Hp as [->| ->]; cbn; split; intros [H|H]; auto; try (destruct H as [H|[]]; auto). }
    destruct (wraps_translation d l [fst p; snd p] B Hne Hpa) as [v' [Ev' [Lv W]]].
    { intros x H. apply Hx in H. destruct H as [->| ->]; auto. }
    rewrite Ev in Ev'. injection Ev' as <-. split; auto. intros b Hb. destruct (W b Hb) as [W1 W2].
    destruct (Nat.eqb_spec b k) as [->|N1]; cbn [orb].
    - eapply extent_unique; [apply W1, Hx; auto|]. apply Hext. auto.
    - destruct (Nat.eqb_spec b k') as [->|N2].
      + eapply extent_unique; [apply W1, Hx; auto|]. apply Hext. auto.
      + apply W2. rewrite Hx. intros [H|H]; auto. }
  pose proof (Ha k Hk) as Lk. pose proof (Ha k' Hk') as Lk'.
  assert (nth k v 0%Z = nth k L 0%Z) as Ek by (rewrite Hv, Nat.eqb_refl by auto; reflexivity).
  assert (nth k' v 0%Z = nth k' L 0%Z) as Ek' by (rewrite Hv, Nat.eqb_refl, orb_true_r by auto; reflexivity).
  assert (forall b, b < d -> b <> k -> b <> k' -> nth b v 0%Z = 0%Z) as Eo.
  { intros b Hb N1 N2. rewrite Hv by auto. rewrite (proj2 (Nat.eqb_neq _ _) N1), (proj2 (Nat.eqb_neq _ _) N2). reflexivity. }
  split.
  - exists [fst p; snd p], v. split; auto. apply in_concat. eexists. split; [exact Hits|left; auto].
  - intro K0. exists [fst p; snd p], (flip_tail v). split; [apply in_concat; eexists; split; [exact Hits|right; left; auto]|].
    split; [rewrite K0, flip_tail_zero, <- K0; auto|]. split; [rewrite flip_tail_succ by lia; lia|].
    intros b Hb N1 N2. rewrite flip_tail_succ by congruence. rewrite Eo by auto. lia.
Qed.

(** Every translation [t] that the bonds [m] across the boundary need is there. *)
Lemma block_cover d l L axes items : built d l -> lt_indices l <> [] -> (lt_primitive l = Some true \/ axis_aligned d (b_mat (lt_basis l))) ->
  (forall a, In a axes -> a < d) -> NoDup axes -> (forall a, In a axes -> (1 <= nth a L 0)%Z) -> (forall a, In a axes -> extent (lt_indices l) a (nth a L 0%Z)) ->
  periodic_translation_vectors (lt_basis l) (is_primitive l) (lt_indices l) axes = Some items ->
  forall m t, along_two axes m -> length t = d -> wrapping d L axes t ->
  (forall k, k < d -> nth k t 0%Z <> 0%Z -> (nth k t 0 * nth k m 0 < 0)%Z) ->
  exists ax n, In (ax, n) items /\ (n = t \/ n = map Z.opp t).
Proof.
  intros B Hne Hpa Ha HN H1 Hext E m t Hm Lt [[k0 [Hk0 Hn0]] Hw] Hsg.
  destruct (box_items d l L axes items B Hne Hpa Ha HN H1 Hext E) as [It1 [_ It3]].
  pose proof (box_pairs d l L axes items B Hne Hpa Ha Hext E) as It4.
  assert (forall k, k < d -> nth k t 0%Z <> 0%Z -> In k axes) as Hin by (intros k Hk Hn; destruct (Hw k Hk) as [|[A _]]; [contradiction|auto]).
  assert (forall n, length n = d -> (forall k, k < d -> nth k n 0%Z = nth k t 0%Z) -> n = t) as Q1.
  { intros n Ln H. apply (list_eq_nth _ _ 0%Z); [congruence|]. intros i Hi. apply H. lia. }
  assert (forall n, length n = d -> (forall k, k < d -> nth k n 0%Z = (- nth k t 0)%Z) -> n = map Z.opp t) as Q2.
  { intros n Ln H. apply (list_eq_nth _ _ 0%Z); [rewrite map_length; congruence|]. intros i Hi.
    rewrite (map_nth Z.opp t 0%Z i : nth i (map Z.opp t) 0%Z = _). apply H. lia. }
  assert ((forall k, k < d -> k <> k0 -> nth k t 0%Z = 0%Z) \/ exists k1, k1 < d /\ k1 <> k0 /\ nth k1 t 0%Z <> 0%Z) as [Hone|Htwo].
  { assert (forall r, (forall k, k < r -> k <> k0 -> nth k t 0%Z = 0%Z) \/ exists k1, k1 < r /\ k1 <> k0 /\ nth k1 t 0%Z <> 0%Z) as H; [|apply H].
    induction r as [|r IH]; [left; lia|]. destruct IH as [IH|[k1 [A1 A2]]]; [|right; exists k1; split; [lia|auto]].
    destruct (Nat.eq_dec r k0) as [Er|Er]; [left; intros k Hk Nk; apply IH; [lia|auto]|].
    destruct (Z.eq_dec (nth r t 0%Z) 0) as [Ez|Ez]; [|right; exists r; auto].
    left. intros k Hk Nk. destruct (Nat.eq_dec k r) as [->|]; auto. apply IH; [lia|auto]. }
  - destruct (It3 k0 (Hin k0 Hk0 Hn0)) as [ax [n [Hi [En Eo]]]]. exists ax, n. split; auto. destruct (It1 ax n Hi) as [Ln _].
    destruct (Hw k0 Hk0) as [|[_ Hab]]; [contradiction|]. destruct (Z_le_gt_dec 0 (nth k0 t 0%Z)).
    + left. apply Q1; auto. intros k Hk. destruct (Nat.eq_dec k k0) as [->|Nk]; [lia|]. rewrite Eo, Hone; auto.
    + right. apply Q2; auto. intros k Hk. destruct (Nat.eq_dec k k0) as [->|Nk]; [lia|]. rewrite Eo, Hone; auto.
  - assert (exists k k', k < d /\ k' < d /\ k < k' /\ nth k t 0%Z <> 0%Z /\ nth k' t 0%Z <> 0%Z) as (k & k' & Hk & Hk' & Hlt & Nk & Nk').
    { destruct Htwo as [k1 [A1 [A2 A3]]]. destruct (Nat.lt_ge_cases k0 k1); [exists k0, k1; auto|exists k1, k0; repeat split; auto; lia]. }
    clear k0 Hk0 Hn0 Htwo. pose proof (Hsg k Hk Nk) as Sk. pose proof (Hsg k' Hk' Nk') as Sk'.
    destruct (Hm k k' (Hin k Hk Nk) (Hin k' Hk' Nk') Hlt) as [Hsame Hrest]; [nia|nia|].
    assert (forall b, b < d -> b <> k -> b <> k' -> nth b t 0%Z = 0%Z) as Hz.
    { intros b Hb N1 N2. destruct (Z.eq_dec (nth b t 0%Z) 0) as [|Nb]; auto. exfalso. specialize (Hsg b Hb Nb). rewrite (Hrest b (Hin b Hb Nb) N1 N2) in Hsg. lia. }
    destruct (Hw k Hk) as [|[_ Hab]]; [contradiction|]. destruct (Hw k' Hk') as [|[_ Hab']]; [contradiction|].
    destruct (It4 k k' (Hin k Hk Nk) (Hin k' Hk' Nk') Hlt) as [[ax [n [Hi [E1 [E2 E3]]]]] Hflip].
    assert (forall ax n z, In (ax, n) items -> (z = 1 \/ z = -1)%Z -> nth k n 0%Z = (z * nth k t 0)%Z -> nth k' n 0%Z = (z * nth k' t 0)%Z -> (forall b, b < d -> b <> k -> b <> k' -> nth b n 0%Z = 0%Z) ->
      exists ax n, In (ax, n) items /\ (n = t \/ n = map Z.opp t)) as Fin'.
    { clear ax n Hi E1 E2 E3. intros ax n z Hi Hz1 E1 E2 E3. exists ax, n. split; auto. destruct (It1 ax n Hi) as [Ln _]. destruct Hz1 as [->| ->]; [left; apply Q1|right; apply Q2]; auto;
        intros b Hb; destruct (Nat.eq_dec b k) as [->|N1]; [lia| |lia|]; (destruct (Nat.eq_dec b k') as [->|N2]; [lia|]); rewrite E3, Hz; auto. }
    destruct (Z_le_gt_dec 0 (nth k t 0 * nth k' t 0)%Z) as [Hp|Hp].
    + apply (Fin' ax n (Z.sgn (nth k t 0%Z)) Hi); auto; nia.
    + destruct Hsame as [K0|Hsame]; [|exfalso; nia]. destruct (Hflip K0) as [ax' [n' [Hi' [F1 [F2 F3]]]]].
      apply (Fin' ax' n' (Z.sgn (nth k t 0%Z)) Hi'); auto; nia.
Qed.

(** The extent of a block. *)
Lemma block_extent d o L na ax I : (forall k, k < d -> (1 <= nth k L 0)%Z) -> 0 < na -> ax < d ->
  (forall s, In s I <-> exists n a, s = n ++ [Z.of_nat a] /\ length n = d /\ box d o L n /\ a < na) -> extent I ax (nth ax L 0%Z).
Proof.
  intros HL Hna Hax HI. set (c := map (fun k => nth k o 0%Z) (seq 0 d)).
  assert (forall k, k < d -> nth k c 0%Z = nth k o 0%Z) as Hc.
  { intros k Hk. unfold c. rewrite (nth_map_in _ _ _ 0) by (rewrite seq_length; auto). rewrite seq_nth by auto. reflexivity. }
  assert (length c = d) as Lc by (unfold c; rewrite map_length, seq_length; auto).
  set (c' := step_to d c ax (nth ax L 0 - 1)%Z). assert (length c' = d) as Lc' by apply step_to_length.
  exists (nth ax o 0%Z), (nth ax o 0 + nth ax L 0 - 1)%Z. split; [lia|]. split; [|split].
  - exists (c ++ [Z.of_nat 0]). split; [|rewrite app_nth1 by lia; auto]. apply HI. exists c, 0. split; auto. split; auto. split; auto. intros k Hk. rewrite Hc by auto. specialize (HL k Hk). lia.
  - exists (c' ++ [Z.of_nat 0]). split.
    + apply HI. exists c', 0. split; auto. split; auto. split; auto. intros k Hk. unfold c'. rewrite nth_step_to by auto. rewrite Hc by auto. specialize (HL k Hk).
      destruct (Nat.eqb_spec k ax) as [->|]; lia.
    + rewrite app_nth1 by lia. unfold c'. rewrite nth_step_to, Nat.eqb_refl, Hc by auto. lia.
  - intros s Hs. apply HI in Hs. destruct Hs as [n [a [-> [Ln [Hn _]]]]]. rewrite app_nth1 by lia. specialize (Hn ax Hax). lia.
Qed.

(** ** Bonds *)

(** The difference of the cells [t] and [s], less [u]. *)
Definition cell_diff (d : nat) (s t u : list Z) : list Z := map (fun k => (nth k t 0 - nth k s 0 - nth k u 0)%Z) (seq 0 d).

Lemma cell_diff_length d s t u : length (cell_diff d s t u) = d.
Proof. unfold cell_diff. rewrite map_length, seq_length. auto. Qed.

Lemma nth_cell_diff d s t u k : k < d -> nth k (cell_diff d s t u) 0%Z = (nth k t 0 - nth k s 0 - nth k u 0)%Z.
Proof. intro H. unfold cell_diff. rewrite (nth_map_in _ _ _ 0) by (rewrite seq_length; auto). rewrite seq_nth by auto. reflexivity. Qed.

Lemma sum_cells d V i s t u : (sum_upto d (fun k => entry V i k * inject_Z (nth k (cell_diff d s t u) 0%Z)) ==
  sum_upto d (fun k => entry V i k * inject_Z (nth k t 0%Z)) - sum_upto d (fun k => entry V i k * inject_Z (nth k s 0%Z)) - sum_upto d (fun k => entry V i k * inject_Z (nth k u 0%Z)))%Q.
Proof.
  rewrite (sum_ext d _ (fun k => entry V i k * inject_Z (nth k t 0%Z) - entry V i k * inject_Z (nth k s 0%Z) - entry V i k * inject_Z (nth k u 0%Z))%Q).
  - clear. induction d as [|d IH]; cbn [sum_upto]; [ring|]. rewrite IH. ring.
  - intros k Hk. rewrite nth_cell_diff by auto. unfold Z.sub. rewrite !inject_Z_plus, !inject_Z_opp. ring.
Qed.

Lemma translated_distance d V ra rb s t u p q : length ra = d ->
  same p (lattice_point d V ra s) -> same q (lattice_point d V rb t) ->
  (sqdist (lattice_point d V p u) q == sqdist ra (lattice_point d V rb (cell_diff d s t u)))%Q.
Proof.
  intros La [_ Hp] [_ Hq]. unfold sqdist. rewrite lattice_point_length, La. apply sum_ext. intros k Hk.
  rewrite nth_lattice_point by auto. rewrite Hp, Hq. rewrite !nth_lattice_point by auto. rewrite sum_cells. ring.
Qed.
