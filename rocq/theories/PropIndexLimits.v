(** * C88: limits of the lattice indices *)
From Coq Require Import String List ZArith QArith Bool Arith Lia.
From Verif Require Import Np NpFacts LinAlg LinFacts SpecUtils UtilsModel SpecBasis AtomModel BasisModel SpatialModel ShapeModel StructureModel
  SpecSpatial SpecStructure SpecNeighbors SpecLattice DataModel SpecData LatticeModel LatticeExamples SpecGrid SpecJoin StructureFacts TranslationFacts.
Import ListNotations.
Open Scope nat_scope.
Open Scope list_scope.

(** [(lo, hi)] are the smallest and the largest entry in column [j] of the rows. *)
Definition column_range (rows : list (list Z)) (j : nat) (lo hi : Z) : Prop :=
  (exists r, In r rows /\ nth j r 0%Z = lo) /\ (exists r, In r rows /\ nth j r 0%Z = hi) /\
  forall r, In r rows -> (lo <= nth j r 0 <= hi)%Z.

Lemma index_limits_spec rows w : rows <> [] -> (forall r, In r rows -> length r = w) ->
  length (index_limits rows) = w /\ forall j, j < w -> let (lo, hi) := nth j (index_limits rows) (0, 0)%Z in column_range rows j lo hi.
Proof.
  destruct rows as [|r0 rest]; [congruence|]. intros _ H. unfold index_limits. split; [rewrite map_length, seq_length; apply H; left; auto|].
  intros j Hj. rewrite (nth_map_in _ _ _ 0) by (rewrite seq_length, H; [auto|left; auto]). rewrite seq_nth by (rewrite H; [auto|left; auto]). cbn [Nat.add].
  assert (forall y, In y (nth j r0 0%Z :: map (fun i => nth j i 0%Z) rest) <-> exists r, In r (r0 :: rest) /\ nth j r 0%Z = y) as HI.
  { intro y. split.
    - intros [<-|Hy]; [exists r0; cbn; auto|]. apply in_map_iff in Hy. destruct Hy as [r [<- Hr]]. exists r. cbn. auto.
    - intros [r [[<-|Hr] <-]]; [left; auto|right]. apply in_map_iff. exists r. auto. }
  destruct (fold_zmin (map (fun i => nth j i 0%Z) rest) (nth j r0 0%Z)) as [A1 A2].
  destruct (fold_zmax (map (fun i => nth j i 0%Z) rest) (nth j r0 0%Z)) as [B1 B2].
  split; [apply HI; auto|]. split; [apply HI; auto|]. intros r Hr. split; [apply A2|apply B2]; apply HI; eauto.
Qed.

Lemma column_range_unique rows j lo hi lo' hi' : column_range rows j lo hi -> column_range rows j lo' hi' -> lo = lo' /\ hi = hi'.
Proof.
  intros [[r1 [H1 E1]] [[r2 [H2 E2]] H]] [[r3 [H3 E3]] [[r4 [H4 E4]] H']].
  pose proof (H' r1 H1). pose proof (H' r2 H2). pose proof (H r3 H3). pose proof (H r4 H4). lia.
Qed.

(** [removelast] and [firstn]. *)
Lemma removelast_firstn_ {A} (l : list A) : removelast l = firstn (length l - 1) l.
Proof.
  induction l as [|x l IH]; [reflexivity|]. destruct l as [|y l]; [reflexivity|]. change (removelast (x :: y :: l)) with (x :: removelast (y :: l)).
  rewrite IH. cbn [length]. replace (S (S (length l)) - 1) with (S (S (length l) - 1)) by lia. reflexivity.
Qed.

Lemma nth_firstn_ {A} (l : list A) k n d : k < n -> nth k (firstn n l) d = nth k l d.
Proof. revert l n. induction k as [|k IH]; intros [|x l] [|n] H; cbn; auto; try lia. apply IH. lia. Qed.

Lemma nth_removelast_ {A} (l : list A) k d : k < length l - 1 -> nth k (removelast l) d = nth k l d.
Proof. intro H. rewrite removelast_firstn_. apply nth_firstn_. auto. Qed.

(** The limits fail exactly for empty data; they are the smallest and the largest index of every column.  The limits of the
    cells, and those of the translations, are the ones of the index without the number of the atom. *)
Theorem C88_limits :
  forall dim d, (forall s, In s (d_indices d) -> length s = S dim) ->
    (get_index_limits d = None <-> d_indices d = []) /\
    get_cell_limits d = get_translation_limits d /\
    (data_bool d = true <-> get_index_limits d <> None) /\
    forall lim, get_index_limits d = Some lim ->
      length lim = S dim /\ (forall j, j <= dim -> let (lo, hi) := nth j lim (0, 0)%Z in column_range (d_indices d) j lo hi) /\
      get_cell_limits d = Some (firstn dim lim).
Proof.
  intros dim d H. unfold get_cell_limits, get_translation_limits, get_index_limits, data_bool.
  destruct (d_indices d) as [|i0 rest] eqn:E.
  { split; [tauto|]. split; [reflexivity|]. split; [split; [discriminate|congruence]|discriminate]. }
  rewrite <- E in *. assert (d_indices d <> []) as Hne by (rewrite E; discriminate).
  destruct (index_limits_spec (d_indices d) (S dim) Hne H) as [L1 H1].
  destruct (index_limits_spec (map site_cell (d_indices d)) dim) as [L2 H2].
  { rewrite E. discriminate. }
  { intros r Hr. apply in_map_iff in Hr. destruct Hr as [s [<- Hs]]. unfold site_cell. rewrite removelast_firstn_, firstn_length, (H s Hs). lia. }
  assert (index_limits (map site_cell (d_indices d)) = removelast (index_limits (d_indices d))) as ER.
  { apply nth_ext with (d := (0, 0)%Z) (d' := (0, 0)%Z); [rewrite removelast_firstn_, firstn_length, L1, L2; lia|]. rewrite L2. intros j Hj.
    rewrite nth_removelast_ by lia. specialize (H1 j ltac:(lia)). specialize (H2 j Hj).
    destruct (nth j (index_limits (map site_cell (d_indices d))) (0, 0)%Z) as [lo hi].
    destruct (nth j (index_limits (d_indices d)) (0, 0)%Z) as [lo' hi'].
    assert (column_range (d_indices d) j lo hi) as H3.
    { destruct H2 as [[r1 [A1 A2]] [[r2 [B1 B2]] C]]. apply in_map_iff in A1, B1. destruct A1 as [s1 [<- A1]]. destruct B1 as [s2 [<- B1]].
      assert (forall s, In s (d_indices d) -> nth j (site_cell s) 0%Z = nth j s 0%Z) as HS by (intros s Hs; apply nth_removelast_; rewrite (H s Hs); lia).
      rewrite HS in A2, B2 by auto. split; [eauto|]. split; [eauto|]. intros s Hs. rewrite <- HS by auto. apply C. apply in_map. auto. }
    destruct (column_range_unique _ _ _ _ _ _ H1 H3). congruence. }
  split; [split; congruence|]. split; [cbn [option_map]; rewrite ER; reflexivity|]. split.
  { rewrite E. cbn. split; [discriminate|reflexivity]. }
  intros lim EL. injection EL as <-. split; auto. split; [intros; apply H1; lia|]. f_equal. rewrite ER, removelast_firstn_, L1. f_equal. lia.
Qed.

(** The limits of a box of cells, and with them its number of cells: the box is known from its limits. *)
Theorem C88_box_limits :
  forall dim a za r0 o L m d, length o = dim -> grid_data dim a za r0 (box dim o L) m d -> (forall k, k < dim -> (1 <= nth k L 0)%Z) ->
    exists lim, get_cell_limits d = Some lim /\ length lim = dim /\
      forall k, k < dim -> nth k lim (0, 0)%Z = (nth k o 0, nth k o 0 + nth k L 0 - 1)%Z.
Proof.
  intros dim a za r0 o L m d Lo G HL.
  assert (forall s, In s (d_indices d) -> length s = S dim) as Hlen.
  { intros s Hs. apply (gd_cells _ _ _ _ _ _ _ G) in Hs. destruct Hs as [n [-> [Ln _]]]. rewrite app_length, Ln. cbn. lia. }
  assert (In (o ++ [0%Z]) (d_indices d)) as Ho.
  { apply (gd_cells _ _ _ _ _ _ _ G). exists o. split; auto. split; auto. intros k Hk. specialize (HL k Hk). lia. }
  destruct (C88_limits dim d Hlen) as [H1 [H2 [_ H3]]]. destruct (get_index_limits d) as [lim|] eqn:E.
  2: { destruct H1 as [H1 _]. rewrite (H1 eq_refl) in Ho. destruct Ho. }
  destruct (H3 lim eq_refl) as [Llim [Hr Hc]]. exists (firstn dim lim). split; auto. split; [rewrite firstn_length, Llim; lia|].
  intros k Hk. rewrite nth_firstn_ by auto. specialize (Hr k ltac:(lia)). destruct (nth k lim (0, 0)%Z) as [lo hi].
  assert (column_range (d_indices d) k (nth k o 0) (nth k o 0 + nth k L 0 - 1))%Z as HB.
  { split; [exists (o ++ [0%Z]); split; auto; rewrite app_nth1 by lia; auto|]. split.
    - set (n := map (fun j => (nth j o 0 + nth j L 0 - 1)%Z) (seq 0 dim)).
      assert (forall j, j < dim -> nth j n 0%Z = (nth j o 0 + nth j L 0 - 1)%Z) as Hn.
      { intros j Hj. unfold n. rewrite (nth_map_in _ _ _ 0) by (rewrite seq_length; auto). rewrite seq_nth; auto. }
      assert (length n = dim) as Ln by (unfold n; rewrite map_length, seq_length; auto).
      exists (n ++ [0%Z]). split; [|rewrite app_nth1 by lia; auto]. apply (gd_cells _ _ _ _ _ _ _ G). exists n. split; auto. split; auto.
      intros j Hj. rewrite Hn by auto. specialize (HL j Hj). lia.
    - intros s Hs. apply (gd_cells _ _ _ _ _ _ _ G) in Hs. destruct Hs as [n [-> [Ln Hb]]]. rewrite app_nth1 by lia. specialize (Hb k Hk). lia. }
  destruct (column_range_unique _ _ _ _ _ _ Hr HB). congruence.
Qed.

(** Periodic translations along lattice vectors are one cell longer than the limits are apart. *)
Theorem C88_primitive_translation :
  forall b axes d, (forall s, In s (d_indices d) -> length s = S (b_dim b)) -> d_indices d <> [] -> (forall k, In k axes -> k < b_dim b) ->
    exists lim v, get_cell_limits d = Some lim /\ translation_vector b axes true (d_indices d) = Some v /\
      forall k, k < b_dim b -> nth k v 0%Z = if in_dec Nat.eq_dec k axes then (snd (nth k lim (0, 0)) - fst (nth k lim (0, 0)) + 1)%Z else 0%Z.
Proof.
  intros b axes d H Hne Hax. destruct (C88_limits (b_dim b) d H) as [H1 [_ [_ H3]]].
  assert (get_index_limits d = Some (index_limits (d_indices d))) as E.
  { unfold get_index_limits. destruct (d_indices d); [congruence|reflexivity]. }
  destruct (H3 _ E) as [L [_ Hc]]. eexists. enough (exists v, translation_vector b axes true (d_indices d) = Some v /\ forall k, k < b_dim b ->
    nth k v 0%Z = if in_dec Nat.eq_dec k axes then (snd (nth k (index_limits (d_indices d)) (0, 0)) - fst (nth k (index_limits (d_indices d)) (0, 0)) + 1)%Z else 0%Z) as [v [E1 E2]].
  { exists v. split; [exact Hc|]. split; auto. intros k Hk. rewrite nth_firstn_ by auto. auto. }
  unfold translation_vector.
  assert (forallb (fun a => a <? b_dim b) axes = true) as -> by (apply forallb_forall; intros k Hk; apply Nat.ltb_lt; auto).
  cbn [negb]. destruct (d_indices d) as [|i0 rest] eqn:Ed; [congruence|]. eexists. split; [reflexivity|]. intros k Hk.
  rewrite (fold_set_nth (fun ax => snd (nth ax (index_limits (i0 :: rest)) (0, 0)) - fst (nth ax (index_limits (i0 :: rest)) (0, 0)) + 1)%Z); auto;
    [|rewrite repeat_length; auto].
  unfold isin. destruct (existsb (Nat.eqb k) axes) eqn:Ex; destruct (in_dec Nat.eq_dec k axes) as [Hi|Hi]; auto.
  - exfalso. apply Hi. apply existsb_exists in Ex. destruct Ex as [x [Hx Ex]]. apply Nat.eqb_eq in Ex. congruence.
  - assert (existsb (Nat.eqb k) axes = true) as Ex' by (apply existsb_exists; exists k; split; [auto|apply Nat.eqb_refl]). congruence.
  - apply nth_repeat.
Qed.

(** The pairs of the lattice [pairs3]: three cells with two atoms. *)
Example C88_example :
  (forall s, In s (d_indices pairs3_data) -> length s = 2) /\ d_indices pairs3_data <> [] /\
  get_index_limits pairs3_data = Some [(0, 2); (0, 1)]%Z /\ get_cell_limits pairs3_data = Some [(0, 2)]%Z /\
  translation_vector (lt_basis pairs3) [0] true (d_indices pairs3_data) = Some [3]%Z /\
  get_index_limits (mkData 1 0 [] [] [] [] [] [] [] [] 0 0 None) = None.
Proof.
  split; [apply Forall_forall; repeat constructor|]. split; [discriminate|]. vm_compute. repeat split.
Qed.

Print Assumptions C88_limits.
Print Assumptions C88_box_limits.
Print Assumptions C88_primitive_translation.
Print Assumptions C88_example.
