(** * C76: number of cells, volume, position and shape of a lattice *)
From Coq Require Import String List ZArith QArith Qabs Bool Arith Lia Permutation.
From Verif Require Import Np NpFacts LinAlg LinFacts AtomModel BasisModel SpatialModel ShapeModel StructureModel DataModel KDBrute
  SpecUtils SpecBasis SpecSpatial SpecBuild SpecData SpecStructure SpecLattice BasisProofs StructureFacts DataFacts DataProofs ShapeProofs
  AnalyzeProofs StructureProofs VolumeProofs PropBasis PropData PropStructure PropBuild LatticeModel LatticeExamples PropMinDist PropFailed RepeatProofs PropRepeat.
Import ListNotations.
Open Scope nat_scope.
Open Scope list_scope.

(** ** The order of rows *)

Lemma row_leb_total u v : row_leb u v = true \/ row_leb v u = true.
Proof.
  revert v. induction u as [|x u IH]; intros [|y v]; cbn; auto.
  destruct (x <? y)%Z eqn:E1; auto. destruct (y <? x)%Z eqn:E2; auto.
  apply Z.ltb_ge in E1. apply Z.ltb_ge in E2. replace (x =? y)%Z with true by (symmetry; apply Z.eqb_eq; lia).
  replace (y =? x)%Z with true by (symmetry; apply Z.eqb_eq; lia). apply IH.
Qed.

Lemma row_leb_cons x u y v : row_leb (x :: u) (y :: v) = true <-> (x < y)%Z \/ (x = y /\ row_leb u v = true).
Proof.
  cbn. destruct (x <? y)%Z eqn:E1; [apply Z.ltb_lt in E1; intuition|]. apply Z.ltb_ge in E1.
  destruct (x =? y)%Z eqn:E2; [apply Z.eqb_eq in E2; intuition; lia|]. apply Z.eqb_neq in E2. intuition; lia.
Qed.

Lemma row_leb_trans u v w : row_leb u v = true -> row_leb v w = true -> row_leb u w = true.
Proof.
  revert v w. induction u as [|x u IH]; intros [|y v] [|z w]; auto; try discriminate. rewrite !row_leb_cons.
  intros [H1|[H1 H1']] [H2|[H2 H2']]; try (left; lia). right. split; [lia|]. eauto.
Qed.

Lemma row_leb_antisym u v : row_leb u v = true -> row_leb v u = true -> u = v.
Proof.
  revert v. induction u as [|x u IH]; intros [|y v]; auto; try discriminate. rewrite !row_leb_cons.
  intros [H1|[H1 H1']] [H2|[H2 H2']]; try lia. f_equal; auto.
Qed.

(** ** Cells *)

(** [n] is the cell of some site. *)
Definition occupied (I : list (list Z)) (n : list Z) : Prop := exists a, In (n ++ [a]) I.

(** There are exactly [k] rows with [P]. *)
Definition exactly (k : nat) (P : list Z -> Prop) : Prop := exists L, NoDup L /\ length L = k /\ forall n, In n L <-> P n.

Lemma cells_unique I :
  (forall ind, In ind I -> ind <> []) ->
  NoDup (unique row_leb (map site_cell I)) /\ forall n, In n (unique row_leb (map site_cell I)) <-> occupied I n.
Proof.
  intro Hne. split; [apply unique_NoDup; [exact row_leb_total|exact row_leb_trans|exact row_leb_antisym]|].
  intro n. rewrite In_unique by (first [exact row_leb_total|exact row_leb_trans|exact row_leb_antisym]). unfold occupied. rewrite in_map_iff. split.
  - intros [ind [<- Hi]]. exists (last ind 0%Z). unfold site_cell. rewrite <- app_removelast_last; auto.
  - intros [a Ha]. exists (n ++ [a]). split; auto. unfold site_cell. apply removelast_last.
Qed.

(** Each cell holds each of [m] atoms at most once: the number of sites is between the one of the cells and [m] times that. *)
Lemma cells_count I m k :
  NoDup I -> (forall ind, In ind I -> exists n a, ind = n ++ [Z.of_nat a] /\ a < m) -> exactly k (occupied I) ->
  k <= length I <= k * m /\
  (length I = k * m <-> forall n a, occupied I n -> a < m -> In (n ++ [Z.of_nat a]) I).
Proof.
  intros Hnd Hat [L [HL [Lk HL2]]].
  set (full := flat_map (fun n => map (fun a => n ++ [Z.of_nat a]) (seq 0 m)) L).
  assert (length full = k * m) as Lf.
  { unfold full. rewrite <- Lk. clear. induction L as [|n L IH]; cbn; auto. rewrite app_length, map_length, seq_length, IH. auto. }
  assert (forall ind, In ind full <-> exists n a, ind = n ++ [Z.of_nat a] /\ occupied I n /\ a < m) as Hf.
  { intro ind. unfold full. rewrite in_flat_map. split.
    - intros [n [Hn Hi]]. apply in_map_iff in Hi. destruct Hi as [a [<- Ha]]. apply in_seq in Ha. exists n, a. split; auto. split; [apply HL2; auto|lia].
    - intros [n [a [-> [Hn Ha]]]]. exists n. split; [apply HL2; auto|]. apply in_map_iff. exists a. split; auto. apply in_seq. lia. }
  assert (NoDup full) as Nf.
  { unfold full. clear -HL. induction HL as [|n L Hn HL IH]; cbn; [constructor|].
    assert (forall (l1 l2 : list (list Z)), NoDup l1 -> NoDup l2 -> (forall x, In x l1 -> In x l2 -> False) -> NoDup (l1 ++ l2)) as NA.
    { clear. induction 1 as [|x l1 Hx H IH]; intros H2 Hd; cbn; auto. constructor.
      - rewrite in_app_iff. intros [K|K]; [auto|]. apply (Hd x); auto. left; auto.
      - apply IH; auto. intros y Hy. apply Hd. right; auto. }
    apply NA; auto.
    - apply FinFun.Injective_map_NoDup; [|apply seq_NoDup]. intros a c E. apply app_inv_head in E. injection E as E. lia.
    - intros x Hx Hy. apply in_map_iff in Hx. destruct Hx as [a [<- _]]. apply in_flat_map in Hy. destruct Hy as [n' [Hn' Hy]].
      apply in_map_iff in Hy. destruct Hy as [c [E _]]. apply app_inj_tail in E. destruct E as [-> _]. auto. }
  assert (incl I full) as Hinc.
  { intros ind Hi. apply Hf. destruct (Hat ind Hi) as [n [a [-> Ha]]]. exists n, a. split; auto. split; auto. exists (Z.of_nat a). auto. }
  split; [split|].
  - rewrite <- Lk. rewrite <- (map_length site_cell I). apply NoDup_incl_length; auto. intros n Hn. apply HL2 in Hn. destruct Hn as [a Ha].
    apply in_map_iff. exists (n ++ [a]). split; auto. unfold site_cell. apply removelast_last.
  - rewrite <- Lf. apply NoDup_incl_length; auto.
  - rewrite <- Lf. split.
    + intros E n a Hn Ha. assert (incl full I) as Hr by (apply NoDup_length_incl; auto; lia). apply Hr. apply Hf. eauto.
    + intro H. apply Nat.le_antisymm; [apply NoDup_incl_length; auto|]. apply NoDup_incl_length; auto. intros ind Hi. apply Hf in Hi.
      destruct Hi as [n [a [-> [Hn Ha]]]]. auto.
Qed.

Theorem C76_cells :
  forall l, (forall ind, In ind (lt_indices l) -> ind <> []) ->
    exactly (num_cells l) (occupied (lt_indices l)) /\
    (forall d, 1 <= d <= 3 -> square d (b_vectors (lt_basis l)) -> exists v, volume l = Some v /\
       (v == Qabs (det d (b_vectors (lt_basis l))) * inject_Z (Z.of_nat (num_cells l)))%Q) /\
    (forall m, NoDup (lt_indices l) -> (forall ind, In ind (lt_indices l) -> exists n a, ind = n ++ [Z.of_nat a] /\ a < m) ->
       num_cells l <= lt_num_sites l <= num_cells l * m /\
       (lt_num_sites l = num_cells l * m <->
        forall n a, occupied (lt_indices l) n -> a < m -> In (n ++ [Z.of_nat a]) (lt_indices l))).
Proof.
  intros l Hne. destruct (cells_unique _ Hne) as [U1 U2].
  assert (exactly (num_cells l) (occupied (lt_indices l))) as HE by (exists (unique row_leb (map site_cell (lt_indices l))); auto).
  split; auto. split.
  - intros d Hd Hs. destruct (cell_volume_det d _ Hd Hs) as [v [Hv E]]. unfold volume. rewrite Hv. eexists. split; [reflexivity|]. rewrite E. reflexivity.
  - intros m Hnd Hat. apply cells_count; auto.
Qed.

(** ** Position and shape *)

(** [o] and [s]: the lower corner and the edges of the smallest box with all points of [P]. *)
Definition bounding_box (d : nat) (P : list (list Q)) (o s : list Q) : Prop :=
  length o = d /\ length s = d /\
  forall k, k < d -> is_min (map (fun p => nth k p 0%Q) P) (nth k o 0%Q) /\ is_max (map (fun p => nth k p 0%Q) P) (nth k o 0 + nth k s 0)%Q.

(** [pos] and [shape] of the lattice belong to the positions of its sites. *)
Definition shape_current (d : nat) (l : lattice) : Prop :=
  exists o s, lt_pos l = Some o /\ lt_shape l = Some s /\ bounding_box d (lt_positions l) o s.

Lemma update_shape_current d l :
  lt_positions l <> [] -> (forall p, In p (lt_positions l) -> length p = d) -> shape_current d (update_shape l).
Proof.
  intros Hne Hd. unfold shape_current, update_shape, limits. destruct (lt_positions l) as [|p0 rest] eqn:E; [congruence|].
  rewrite <- E in *. pose proof (point_limits_length (lt_positions l) d ltac:(congruence) Hd) as L. set (lim := point_limits (lt_positions l)) in *.
  exists (map fst lim), (vsub (map snd lim) (map fst lim)). split; [reflexivity|]. split; [reflexivity|].
  assert (lt_positions (mkLattice (lt_structure l) (lt_data l) (Some (vsub (map snd lim) (map fst lim))) (Some (map fst lim)) (lt_axes l) (lt_primitive l)) = lt_positions l) as -> by reflexivity.
  split; [rewrite map_length; auto|]. split; [rewrite vsub_length; rewrite !map_length; auto|].
  intros k Hk. destruct (nth_error lim k) as [[lo hi]|] eqn:Ek; [|apply nth_error_None in Ek; lia].
  destruct (point_limits_spec _ _ _ _ Ek) as [[[x [Hx Ex]] Hlo] [[y [Hy Ey]] Hhi]].
  assert (nth k (map fst lim) 0%Q = lo) as E1 by (apply nth_error_nth; rewrite nth_error_map', Ek; reflexivity).
  assert (nth k (map snd lim) 0%Q = hi) as E2 by (apply nth_error_nth; rewrite nth_error_map', Ek; reflexivity).
  assert (nth k (vsub (map snd lim) (map fst lim)) 0 == hi - lo)%Q as E3.
  { rewrite nth_vsub by (rewrite !map_length; lia). rewrite E1, E2. reflexivity. }
  assert (lo + nth k (vsub (map snd lim) (map fst lim)) 0 == hi)%Q as E4 by (rewrite E3; ring).
  rewrite E1. split; split.
  - eauto.
  - auto.
  - exists y. split; auto. rewrite Ey, E4. reflexivity.
  - intros z Hz. rewrite E4. auto.
Qed.

Lemma periodic_current d query argsort l axis : shape_current d l -> shape_current d (fst (set_periodic query argsort l axis)).
Proof.
  intros [o [s [H1 [H2 H3]]]]. destruct (lattice_periodic_sites query argsort l axis) as [_ [_ [K3 [_ [_ [K6 K7]]]]]].
  exists o, s. rewrite K6, K7, K3. auto.
Qed.

Lemma append_section_current d ball argsort w l sec ax side sort_axis rv prim l' :
  append_section ball argsort w l sec ax side sort_axis rv prim = Some l' ->
  lt_positions l' <> [] -> (forall p, In p (lt_positions l') -> length p = d) -> shape_current d l'.
Proof.
  unfold append_section. destruct (lt_data l) as [dt|]; [|discriminate]. destruct (st_analysis (lt_structure l)) as [an|]; [|discriminate].
  destruct (translation_vector _ _ _ _) as [n|]; [|discriminate]. destruct (append _ _ _ _ _ _ _ _ _) as [d1|]; [|discriminate].
  destruct (connection_neighbors _ _ _ _) as [pairs|]; [|discriminate]. destruct (add_connecting _ _ _) as [d2|]; [|discriminate].
  destruct (match sort_axis with None => _ | Some a => _ end) as [d3|]; [|discriminate]. intro E. injection E as <-.
  unfold lt_positions. destruct (update_shape_same (set_data l (Some d3))) as [_ [-> _]]. apply update_shape_current.
Qed.

(** The sites of a lattice in [d] dimensions. *)
Record sized (d : nat) (l : lattice) : Prop := {
  sz_dim : b_dim (lt_basis l) = d;
  sz_basis : valid_basis (lt_basis l);
  sz_some : lt_positions l <> [];
  sz_positions : forall p, In p (lt_positions l) -> length p = d;
  sz_sites : length (lt_indices l) = length (lt_positions l) }.

Lemma append_section_sized d ball argsort w l sec ax side sort_axis rv prim l' :
  append_section ball argsort w l sec ax side sort_axis rv prim = Some l' ->
  sized d l -> length (sec_indices sec) = length (sec_positions sec) -> (forall p, In p (sec_positions sec) -> length p = d) ->
  sized d l' /\ shape_current d l'.
Proof.
  intros H [D B N P S] Hl Hp. pose proof (append_section_sites _ _ _ _ _ _ _ _ _ _ _ H S Hl) as [E1 [_ [_ [E2 [n [_ [Hperm _]]]]]]].
  assert (forall p, In p (lt_positions l') -> length p = d) as Hd.
  { intros p Hpp. apply In_nth_error in Hpp. destruct Hpp as [k Hk]. destruct (nth_error (lt_indices l') k) as [ind|] eqn:Ek.
    2:{ apply nth_error_None in Ek. apply nth_error_length_lt in Hk. lia. }
    assert (In (ind, p) (lsites l')) as Hin.
    { unfold lsites. apply (nth_error_In _ k). rewrite nth_error_combine, Ek, Hk. reflexivity. }
    eapply Permutation_in in Hin; [|exact Hperm]. apply in_app_or in Hin. destruct Hin as [Hin|Hin].
    - apply P. unfold lsites in Hin. apply in_combine_r in Hin. auto.
    - apply in_map_iff in Hin. destruct Hin as [[i0 p0] [E Hin]]. apply in_combine_r in Hin. apply Hp in Hin.
      assert (p = vadd p0 (translate (lt_basis l) (directed side n) (vzero (b_dim (lt_basis l))))) as -> by (unfold copied in E; cbn [fst snd] in E; injection E; auto).
      assert (length (translate (lt_basis l) (directed side n) (vzero (b_dim (lt_basis l)))) = d) as L by (rewrite translate_length; unfold vzero; rewrite ?repeat_length; auto).
      rewrite vadd_length by lia. auto. }
  assert (lt_positions l' <> []) as Hne.
  { intro E. apply Permutation_length in Hperm. unfold lsites in Hperm. rewrite app_length, map_length, !combine_length, E in Hperm. cbn in Hperm.
    rewrite S in Hperm. destruct (lt_positions l); [congruence|]. cbn in Hperm. lia. }
  split; [|eapply append_section_current; eauto].
  assert (lt_basis l' = lt_basis l) as Eb by (unfold lt_basis; congruence).
  constructor; auto; rewrite Eb; auto.
Qed.

Lemma repeat_loop_sized d ball argsort ws : forall l sec later ax side sort_axis rv l',
  repeat_loop ball argsort ws l sec later ax side sort_axis rv = Some l' ->
  sized d l -> length (sec_indices sec) = length (sec_positions sec) -> (forall p, In p (sec_positions sec) -> length p = d) ->
  length (sec_indices later) = length (sec_positions later) -> (forall p, In p (sec_positions later) -> length p = d) ->
  sized d l' /\ (ws <> [] -> shape_current d l').
Proof.
  induction ws as [|w ws IH]; intros l sec later ax side sort_axis rv l' H Sl L1 P1 L2 P2; cbn in H.
  - injection H as <-. split; auto. congruence.
  - destruct (append_section _ _ _ _ _ _ _ _ _ _) as [l1|] eqn:E; [|discriminate].
    destruct (append_section_sized _ _ _ _ _ _ _ _ _ _ _ _ E Sl L1 P1) as [S1 C1].
    destruct (IH _ _ _ _ _ _ _ _ H S1 L2 P2 L2 P2) as [S2 C2]. split; auto. intros _.
    destruct ws; [injection H as <-; auto|]. apply C2. discriminate.
Qed.

Lemma data_positions l d : lt_data l = Some d -> lt_positions l = d_positions d /\ lt_indices l = d_indices d.
Proof. intro E. unfold lt_positions, lt_indices. rewrite E. auto. Qed.

(** A built lattice has sites. *)
Lemma compute_neighbors_rows query argsort an I P rows : compute_neighbors query argsort an I P = Some rows -> length rows <= length P.
Proof.
  unfold compute_neighbors. destruct (query_radius an) as [r|]; [|discriminate]. intro H. injection H as <-.
  set (raw := map (fun x => query P x (query_count an) (Some (r * r)%Q)) P).
  assert (length (kd_query (length P) (Some (r * r)%Q) false true raw) = length P) as L.
  { unfold kd_query. rewrite !map_length. destruct (negb false && _); rewrite ?map_length; unfold raw; apply map_length. }
  match goal with |- context [filter_neighbors _ _ _ _ ?R] => assert (length R = length P) as L0 by (rewrite map_length; exact L); generalize R L0 end.
  clear. intros rows0 L0. unfold filter_neighbors.
  assert (forall pairs (R : list (Z * list (nat * dist))), length (fold_left (disconnect I (an_distmat an)) pairs R) = length R) as Lf.
  { induction pairs as [|[a1 a2] pairs IH]; intro R; cbn [fold_left]; auto. rewrite IH. unfold disconnect. apply map_length. }
  destruct (negb _); rewrite !map_length, Lf, combine_length, map_length; lia.
Qed.

Lemma build_tables_some query argsort norms s sh primitive pos check m callback I P T d :
  build_tables query argsort norms s sh primitive pos check m callback = Ok (I, P, T) ->
  data_set I P (map (map fst) T) (map (map snd) T) = Some d -> P <> [].
Proof.
  intros Ht Hd EP. assert (T = []) as ET.
  { unfold build_tables in Ht. destruct (no_connections s); [discriminate|]. destruct (not_analyzed s); [discriminate|]. destruct (negb _); [discriminate|].
    destruct (build_indices _ _ _ _ _ _ _ _) as [[I0 P0]|]; [|destruct (st_analysis s); discriminate]. destruct (st_analysis s) as [an|]; [|discriminate].
    destruct (compute_neighbors query argsort an I0 P0) as [rows|] eqn:Er; [|discriminate]. apply compute_neighbors_rows in Er.
    destruct m as [m|]; [|injection Ht as -> -> ->; rewrite EP in Er; destruct T; cbn in Er; auto; lia].
    unfold filter_dangling in Ht. destruct (_ =? 0); [injection Ht as -> -> ->; rewrite EP in Er; destruct T; cbn in Er; auto; lia|].
    destruct (_ =? length I0); [discriminate|]. set (sites := where_ _) in Ht. injection Ht as _ HP HT. rewrite EP in HP.
    rewrite (delete_kept ([] : vec)) in HP. apply map_eq_nil in HP.
    assert (delete sites rows = []) as Ed.
    { rewrite (delete_kept ([] : list (nat * dist))). replace (kept_sites (length rows) sites) with (@nil nat); auto. symmetry.
      unfold kept_sites in *. replace (length P0) with (length rows + (length P0 - length rows)) in HP by lia.
      rewrite seq_app, filter_app in HP. apply app_eq_nil in HP. destruct HP; auto. }
    rewrite Ed in HT. rewrite <- HT. cbn [map]. assert (forall l, fold_left drop_one l [] = []) as Hf by (induction l as [|[c i] l IH]; cbn; auto).
    rewrite Hf. reflexivity. }
  rewrite ET in Hd. discriminate.
Qed.

Theorem C76_shape :
  (forall query argsort norms l sh primitive pos check min_neighbors periodic callback l',
     valid_basis (lt_basis l) -> (primitive = true -> length norms = b_dim (lt_basis l)) ->
     (forall r, In r (st_positions (lt_structure l)) -> length r = b_dim (lt_basis l)) ->
     build query argsort norms l sh primitive pos check min_neighbors periodic callback = (l', Ok tt) ->
     sized (b_dim (lt_basis l)) l' /\ shape_current (b_dim (lt_basis l)) l') /\
  (forall d query argsort l axis, sized d l -> shape_current d l ->
     let l' := fst (set_periodic query argsort l axis) in sized d l' /\ shape_current d l') /\
  (forall d ball argsort w l other ax side sort_axis rv l', sized d l -> sized d other ->
     append_lattice ball argsort w l other ax side sort_axis rv = Some l' -> sized d l' /\ shape_current d l') /\
  (forall d ball argsort ws l ax side sort_axis rv l', sized d l -> shape_current d l ->
     repeat_lattice ball argsort ws l ax side sort_axis rv = Some l' -> sized d l' /\ shape_current d l') /\
  (forall d query ball argsort norms w l size ax side sort_axis rv l', sized d l ->
     (is_primitive l = true -> length norms = d) -> (forall r, In r (st_positions (lt_structure l)) -> length r = d) ->
     extend query ball argsort norms w l size ax side sort_axis rv = Some l' -> sized d l' /\ shape_current d l').
Proof.
  split; [|split; [|split; [|split]]].
  - intros query argsort norms l sh primitive pos check m periodic callback l' Hb Hn HR H. pose proof H as H0.
    apply C53_successful_build in H0; auto. destruct H0 as [_ [_ [F1 [F4 [F5 [F2 [F3 _]]]]]]].
    assert (lt_basis l' = lt_basis l) as Eb by (unfold lt_basis; congruence).
    assert (forall p, In p (lt_positions l') -> length p = b_dim (lt_basis l)) as HP.
    { intros p Hp. apply In_nth_error in Hp. destruct Hp as [k Hk]. destruct (nth_error (lt_indices l') k) as [s|] eqn:Es.
      2:{ apply nth_error_None in Es. apply nth_error_length_lt in Hk. unfold lt_num_sites in F2. lia. }
      destruct (F3 k s p Es Hk) as [n [a [r [_ [_ [_ [L _]]]]]]]. rewrite L. apply lattice_point_length. }
    unfold build in H. destruct (build_tables _ _ _ _ _ _ _ _ _ _) as [[[I P] T]|e] eqn:Et; [|discriminate].
    destruct (data_set I P (map (map fst) T) (map (map snd) T)) as [dt|] eqn:Ed; [|discriminate].
    set (l1 := mkLattice (lt_structure (set_data l None)) (Some dt) (lt_shape (set_data l None)) (lt_pos (set_data l None)) (lt_axes (set_data l None)) (Some primitive)) in *.
    assert (l' = update_shape l1 \/ exists axis, l' = fst (set_periodic query argsort (update_shape l1) axis)) as Hl'.
    { destruct periodic as [[|bb|a]|]; try (injection H as <-; left; reflexivity); right; eexists; rewrite H; reflexivity. }
    assert (lt_positions l' = lt_positions l1) as EP.
    { destruct (update_shape_same l1) as [_ [U2 _]]. assert (lt_positions (update_shape l1) = lt_positions l1) as EU by (unfold lt_positions; rewrite U2; auto).
      destruct Hl' as [->|[axis ->]]; auto. destruct (lattice_periodic_sites query argsort (update_shape l1) axis) as [_ [_ [K3 _]]]. congruence. }
    assert (lt_positions l1 <> []) as Hne.
    { change (lt_positions l1) with (d_positions dt). assert (d_positions dt = P) as ->; [|eapply build_tables_some; eauto].
      unfold data_set in Ed. destruct (UtilsModel.create_lookup_table2 _ _ _) as [? ?]. destruct (nat_max _); [|discriminate]. injection Ed as <-. auto. }
    rewrite EP in HP. split.
    + constructor; try (rewrite Eb; auto); try (rewrite EP; auto). unfold lt_num_sites in F2. congruence.
    + pose proof (update_shape_current _ l1 Hne HP) as C. destruct Hl' as [->|[axis ->]]; auto. apply periodic_current; auto.
  - intros d query argsort l axis [D B N P S] C l'. split; [|apply periodic_current; auto].
    destruct (lattice_periodic_sites query argsort l axis) as [K1 [K2 [K3 _]]]. fold l' in K1, K2, K3.
    assert (lt_basis l' = lt_basis l) as Eb by (unfold lt_basis; congruence). constructor; rewrite ?Eb, ?K2, ?K3; auto.
  - intros d ball argsort w l other ax side sort_axis rv l' Sl So H. unfold append_lattice in H.
    destruct (lt_data other) as [e|] eqn:Ee; [|discriminate]. destruct (data_positions _ _ Ee) as [E1 E2]. destruct So as [_ _ _ P S]. rewrite E1 in *. rewrite E2 in S.
    eapply append_section_sized; eauto.
  - intros d ball argsort ws l ax side sort_axis rv l' Sl Cl H. unfold repeat_lattice in H. destruct (lt_data l) as [e|] eqn:Ee; [|discriminate].
    destruct (data_positions _ _ Ee) as [E1 E2]. pose proof Sl as [_ _ _ P S]. rewrite E1 in P, S. rewrite E2 in S.
    destruct (repeat_loop_sized d _ _ _ _ _ _ _ _ _ _ _ H Sl) as [S1 C1]; auto. split; auto.
    destruct ws; [cbn in H; injection H as <-; auto|]. apply C1. discriminate.
  - intros d query ball argsort norms w l size ax side sort_axis rv l' Sl Hn HR H. unfold extend in H.
    destruct (lt_shape l) as [shape|]; [|discriminate]. destruct (st_analysis (lt_structure l)) as [an|]; [|discriminate].
    destruct (negb _); [discriminate|]. destruct (build_indices _ _ _ _ _ _ _ _) as [[I P]|e] eqn:Eb; [|discriminate].
    destruct (compute_neighbors _ _ _ _ _) as [rows|]; [|discriminate]. pose proof Sl as [D B _ _ _].
    assert (st_basis (lt_structure l) = lt_basis l) as Est by reflexivity. rewrite Est in Eb. rewrite <- D in Hn, HR.
    destruct (C31_indices_and_positions_aligned (lt_basis l) norms _ _ _ _ _ _ I P B Hn HR Eb) as [L0 [S0 _]].
    eapply append_section_sized; eauto. cbn. intros p Hp. apply In_nth_error in Hp. destruct Hp as [k Hk]. destruct (nth_error I k) as [s|] eqn:Es.
    2:{ apply nth_error_None in Es. apply nth_error_length_lt in Hk. lia. }
    destruct (S0 k s p Es Hk) as [n [a [r [_ [_ [_ [L _]]]]]]]. rewrite L, lattice_point_length. auto.
Qed.

(** Three cells of a chain with the atoms A at 0 and B at 3/10, without the last B. *)
Example C76_example :
  (forall ind, In ind (lt_indices pairs3) -> ind <> []) /\ square 1 (b_vectors (lt_basis pairs3)) /\ NoDup (lt_indices pairs3) /\
  (forall ind, In ind (lt_indices pairs3) -> exists n a, ind = n ++ [Z.of_nat a] /\ a < 2) /\
  num_cells pairs3 = 3 /\ lt_num_sites pairs3 = 5 /\ volume pairs3 = Some 3%Q.
Proof.
  split. { intros ind Hi. vm_compute in Hi. intuition (subst; discriminate). }
  split. { split; [reflexivity|]. intros r [<-|[]]. reflexivity. }
  split. { vm_compute. repeat constructor; cbn; intuition discriminate. }
  split. { intros ind Hi. exists (removelast ind), (Z.to_nat (last ind 0%Z)). vm_compute in Hi. intuition (subst; cbn; auto; lia). }
  vm_compute. auto.
Qed.

(** The example in the documentation of [append]: shapes (5, 2) and (2, 2) give (8, 2). *)
Definition square52 : lattice :=
  Eval vm_compute in fst (build brute dist_argsort [1; 1]%Q (new_lattice square_atom) (ASize [5; 2]%Q) false None true None None None).
Definition square22 : lattice :=
  Eval vm_compute in fst (build brute dist_argsort [1; 1]%Q (new_lattice square_atom) (ASize [2; 2]%Q) false None true None None None).

Example C76_shape_example :
  sized 2 square52 /\ sized 2 square22 /\ shape_current 2 square52 /\
  exists l', append_lattice brute_ball dist_argsort keep square52 square22 0 1 None false = Some l' /\
    exists s, lt_shape l' = Some s /\ same s [8; 2]%Q.
Proof.
  assert (inverse_of 2 [[1; 0]; [0; 1]]%Q [[1; 0]; [0; 1]]%Q) as Hinv by (apply inverse2_check; reflexivity).
  assert (forall l, b_dim (lt_basis l) = 2 -> valid_basis (lt_basis l) -> lt_positions l <> [] ->
    forallb (fun p => length p =? 2) (lt_positions l) = true -> length (lt_indices l) = length (lt_positions l) -> sized 2 l) as Hs.
  { intros l H1 H2 H3 H4 H5. constructor; auto. intros p Hp. rewrite forallb_forall in H4. apply Nat.eqb_eq. auto. }
  assert (sized 2 square52) as S1 by (apply Hs; try reflexivity; try discriminate; exact Hinv).
  assert (sized 2 square22) as S2 by (apply Hs; try reflexivity; try discriminate; exact Hinv).
  split; auto. split; auto. split.
  { apply (update_shape_current 2 square52); [discriminate|]. apply S1. }
  eexists. split; [vm_compute; reflexivity|]. eexists. split; [reflexivity|]. apply same_veq. repeat constructor.
Qed.

Print Assumptions C76_cells.
Print Assumptions C76_shape.
