(** * Properties C30 to C33 (lattpy/structure.py: building sites) *)
From Coq Require Import List ZArith QArith Qround Qminmax Bool Arith Lia Lqa Permutation Sorting.Sorted.
From Verif Require Import Np NpFacts UtilsModel UtilsProofs LinAlg LinFacts SpecUtils SpecBasis SpecSpatial BasisModel BasisProofs
  NeighborCellProofs SpatialModel SpatialProofs PropBasis PropSpatial ShapeModel KDProofs ShapeProofs PropShape SpecStructure SpecBuild StructureModel
  StructureFacts AnalyzeProofs BuildProofs SpecVoronoi PropHull.
Import ListNotations.
Open Scope nat_scope.
Open Scope list_scope.

(** ** C30 *)

Lemma in_box_inside d size pos tol p : length size = d -> length pos = d ->
  (StructureModel.in_box d size pos tol p = true <-> inside d pos size tol p).
Proof.
  intros Hs Hp. unfold StructureModel.in_box, inside. rewrite forallb_forall.
  assert (forall i, i < d -> (nth i (map (fun x => x - tol) pos) 0 == nth i pos 0 - tol)%Q) as E1.
  { intros i Hi. rewrite (nth_map_in _ _ _ 0%Q) by lia. reflexivity. }
  assert (forall i, i < d -> (nth i (map (fun x => x + tol) (vadd (map (fun x => x - tol) pos) size)) 0 == nth i pos 0 + nth i size 0)%Q) as E2.
  { intros i Hi. rewrite (nth_map_in _ _ _ 0%Q) by (rewrite vadd_length; rewrite map_length; lia).
    rewrite nth_vadd by (rewrite map_length; lia). rewrite (nth_map_in _ _ _ 0%Q) by lia. ring. }
  split; intros H i Hi.
  - specialize (H i). rewrite in_seq in H. specialize (H ltac:(lia)). apply andb_true_iff in H. destruct H as [H1 H2].
    apply Qle_bool_iff in H1. apply Qle_bool_iff in H2. rewrite E1 in H1 by auto. rewrite E2 in H2 by auto. auto.
  - apply in_seq in Hi. specialize (H i ltac:(lia)). apply andb_true_iff. rewrite !Qle_bool_iff, E1, E2 by lia. auto.
Qed.

(** The upper sides are not moved by the tolerance. *)
Theorem C30_check_points_box :
  forall b norms points size pos tol,
    let d := b_dim b in
    let lower := match pos with None => repeat 0%Q d | Some p => p end in
    (length size <> d \/ length lower <> d ->
       check_points b norms points (ASize size) false pos tol = Raise ValueError) /\
    (length size = d -> length lower = d ->
       exists mask, check_points b norms points (ASize size) false pos tol = Ok mask /\
         length mask = length points /\
         forall k p, nth_error points k = Some p -> (nth k mask false = true <-> inside d lower size tol p)).
Proof.
  intros b norms points size pos tol d lower. unfold check_points, vec. fold d.
  assert (match pos with None => vzero d | Some p => p end = lower) as El by (unfold lower; destruct pos; reflexivity).
  rewrite El. clearbody lower. split.
  - intros H. destruct (length size =? d) eqn:E1; cbn [negb]; [|reflexivity]. apply Nat.eqb_eq in E1.
    destruct (length lower =? d) eqn:E2; cbn [negb]; [|reflexivity].
    apply Nat.eqb_eq in E2. tauto.
  - intros E1 E2. rewrite (proj2 (Nat.eqb_eq _ _) E1). cbn [negb].
    rewrite (proj2 (Nat.eqb_eq _ _) E2). cbn [negb]. eexists. split; [reflexivity|]. rewrite map_length. split; auto.
    intros k p Hk. rewrite (nth_of_nth_error _ _ _ (StructureModel.in_box d size lower tol p)); [apply in_box_inside; auto|].
    rewrite nth_error_map', Hk. reflexivity.
Qed.

Example C30_example :
  check_points (mkBasis [[1; 0]; [0; 1]] [[1; 0]; [0; 1]])%Q [1; 1]%Q
    [[0; 0]; [-1#2000; 1]; [1; 1]; [2001#2000; 1]; [1; -1#100]]%Q (ASize [1; 1]%Q) false None (1#1000) =
  Ok [true; true; true; false; false].
Proof. vm_compute. reflexivity. Qed.

(** With [relative] the box is enlarged by the largest components of the lattice vectors minus a tenth of their
    lengths. *)
Theorem C30_check_points_relative :
  forall b norms points size lower tol,
    let d := b_dim b in
    square d (b_mat b) -> length norms = d -> length size = d -> length lower = d ->
    exists mask, check_points b norms points (ASize size) true (Some lower) tol = Ok mask /\
      length mask = length points /\
      forall k p (m : nat -> Q), nth_error points k = Some p ->
        (forall i, i < d -> is_max (map (fun v => nth i v 0%Q) (b_vectors b)) (m i)) ->
        (nth k mask false = true <->
         forall i, i < d -> (nth i lower 0 - tol <= nth i p 0 <=
                             nth i lower 0 + (nth i size 0 + (m i - (1#10) * nth i norms 0)))%Q).
Proof.
  intros b norms points size lower tol d Hsq Hn Hs Hl. unfold check_points. fold d.
  rewrite (proj2 (Nat.eqb_eq _ _) Hs), (proj2 (Nat.eqb_eq _ _) Hl). cbn [negb].
  eexists. split; [reflexivity|]. rewrite map_length. split; auto. intros k p m Hk Hm.
  rewrite (nth_of_nth_error _ _ _ (StructureModel.in_box d (vadd size (relative_extra b norms)) lower tol p))
    by (rewrite nth_error_map', Hk; reflexivity).
  assert (length (b_vectors b) = d) as Hv.
  { unfold b_vectors, transpose. rewrite map_length, seq_length. reflexivity. }
  assert (forall v, In v (b_vectors b) -> length v = d) as Hvl.
  { intros v Hin. unfold b_vectors, transpose in Hin. apply in_map_iff in Hin. destruct Hin as [j [<- _]]. rewrite map_length. apply Hsq. }
  assert (length (max_vectors b) = d) as Hmv.
  { unfold max_vectors. destruct (b_vectors b) as [|v0 rest] eqn:E; [cbn in *; lia|]. rewrite map_length, seq_length. apply Hvl. left. auto. }
  assert (length (relative_extra b norms) = d) as Hre.
  { unfold relative_extra. rewrite vsub_length; auto. unfold vscale. rewrite map_length. lia. }
  rewrite in_box_inside by (auto; rewrite vadd_length; lia).
  assert (forall i, i < d -> (nth i (vadd size (relative_extra b norms)) 0 == nth i size 0 + (m i - (1#10) * nth i norms 0))%Q) as E.
  { intros i Hi. rewrite nth_vadd by lia. unfold relative_extra. rewrite nth_vsub by (unfold vscale; rewrite map_length; lia).
    unfold vscale. rewrite (nth_map_in _ _ _ 0%Q) by lia.
    assert (nth i (max_vectors b) 0 == m i)%Q as Em; [|rewrite Em; reflexivity].
    specialize (Hm i Hi). unfold max_vectors. destruct (b_vectors b) as [|v0 rest] eqn:Ev; [cbn in *; lia|].
    rewrite (nth_map_in _ _ _ 0) by (rewrite seq_length, (Hvl v0) by (left; auto); auto). rewrite seq_nth by (rewrite (Hvl v0) by (left; auto); auto).
    cbn [Nat.add]. pose proof (qmax_list_is_max (nth i v0 0%Q) (map (fun v => nth i v 0%Q) rest)) as Hq.
    destruct Hm as [[x [Hx Ex]] Hle], Hq as [[y [Hy Ey]] Hle'].
    cbn [map] in *. specialize (Hle _ Hy). specialize (Hle' _ Hx). lra. }
  unfold inside. split; intros H i Hi; specialize (H i Hi); rewrite (E i Hi) in *; auto.
Qed.


Example C30_relative_example :
  let b := mkBasis [[2; 0]; [0; 1]]%Q [[1#2; 0]; [0; 1]]%Q in
  (forall i, i < 2 -> is_max (map (fun v => nth i v 0%Q) (b_vectors b)) (nth i [2; 1]%Q 0%Q)) /\
  check_points b [2; 1]%Q [[28#10; 0]; [29#10; 0]; [0; 19#10]; [0; 2]]%Q (ASize [1; 1]%Q) true (Some [0; 0]%Q) (1#1000) =
  Ok [true; false; true; false].
Proof.
  cbv zeta. split; [|vm_compute; reflexivity]. intros [|[|i]] Hi; [| |lia]; cbn.
  - split; [exists 2%Q; split; [left|]; reflexivity|]. intros x [<-|[<-|[]]]; lra.
  - split; [exists 1%Q; split; [right; left|]; reflexivity|]. intros x [<-|[<-|[]]]; lra.
Qed.

(** ** C31 *)

Lemma sublist_refl {A} (l : list A) : sublist l l.
Proof. induction l; constructor; auto. Qed.

Lemma sublist_trans {A} (l m : list A) : sublist l m -> forall o, sublist m o -> sublist l o.
Proof.
  induction 1 as [|x l m H IH|x l m H IH]; intros o Ho; auto.
  - inversion Ho; subst; constructor; auto.
  - constructor. auto.
Qed.

Lemma sublist_select {A} mask : forall (l : list A), sublist l (select mask l).
Proof.
  assert (forall l : list A, sublist l []) as Hnil by (induction l; constructor; auto).
  induction mask as [|[] mask IH]; intros [|x l]; cbn; auto; constructor; auto.
Qed.

Lemma sublist_In {A} (l m : list A) x : sublist l m -> In x m -> In x l.
Proof. induction 1; cbn; tauto. Qed.

Lemma sublist_NoDup {A} (l m : list A) : sublist l m -> NoDup l -> NoDup m.
Proof.
  induction 1 as [|x l m H IH|x l m H IH]; intro Hn; auto.
  - inversion Hn; subst. constructor; auto. intro Hin. apply (sublist_In _ _ _ H) in Hin. contradiction.
  - inversion Hn; subst. auto.
Qed.

Lemma max_vectors_length b : valid_basis b -> length (max_vectors b) = b_dim b.
Proof.
  intros [[Hl Hr] _]. unfold max_vectors, b_vectors, transpose. fold (b_dim b). destruct (b_dim b) as [|d] eqn:E; cbn [seq map]; auto.
  rewrite map_length, seq_length, map_length. exact Hl.
Qed.

(** The box that is requested: lower corner and size. *)
Definition requested_box (b : basis) (sh : shape_arg) (pos : option (list Q)) : list Q * list Q :=
  match sh with
  | ASize size => (match pos with None => repeat 0%Q (b_dim b) | Some p => p end, size)
  | AShape s => (map fst (shape_limits s), vsub (map snd (shape_limits s)) (map fst (shape_limits s)))
  end.

Lemma build_cells_eq b norms sh primitive pos check :
  build_translation_vectors b norms sh primitive pos check 0 =
  let (lower, size) := requested_box b sh pos in
  if negb (length size =? b_dim b) then Raise ValueError
  else
    let size := if primitive then vsub (map2 Qmult size (max_vectors b)) (vscale (1#10) norms) else size in
    if negb (length lower =? b_dim b) then Raise ValueError
    else match vindices (nvec_limits b lower size 0) (Some 0) with
         | None => Raise ValueError
         | Some nvecs =>
           if check then
             match check_points b norms (map (fun n => matvec (b_mat b) (of_Z n)) nvecs) (ASize size) primitive (Some lower) (1#1000) with
             | Raise e => Raise e
             | Ok mask => Ok (select mask nvecs)
             end
           else Ok nvecs
         end.
Proof. destruct sh; [destruct pos|]; reflexivity. Qed.

(** The cells before the sites are checked. *)
Lemma cells_any b norms sh primitive pos cells : valid_basis b -> (primitive = true -> length norms = b_dim b) ->
  build_translation_vectors b norms sh primitive pos false 0 = Ok cells ->
  NoDup cells /\ lex_sorted 0 cells /\ forall n, In n cells -> length n = b_dim b.
Proof.
  intros Hb Hnorms. rewrite build_cells_eq. destruct (requested_box b sh pos) as [lower size].
  destruct (length size =? b_dim b) eqn:E1; cbn [negb]; [|discriminate]. apply Nat.eqb_eq in E1. cbv zeta.
  set (size' := if primitive then _ else _).
  assert (length size' = b_dim b) as Hs.
  { unfold size'. destruct primitive; auto. rewrite vsub_length; rewrite map2_length, max_vectors_length by auto; [lia|].
    unfold vscale. rewrite map_length, Hnorms by auto. lia. }
  destruct (length lower =? b_dim b) eqn:E2; cbn [negb]; [|discriminate]. apply Nat.eqb_eq in E2.
  destruct (vindices _ (Some 0)) as [vs|] eqn:Ev; [|discriminate]. intro E. injection E as <-.
  destruct (vindices_any _ _ _ Ev) as [H1 [H2 H3]]. split; auto. split; auto. intros n Hn. rewrite (H2 n Hn).
  apply nvec_limits_length; auto.
Qed.

Lemma build_indices_eq b norms R sh primitive pos check callback : valid_basis b -> (primitive = true -> length norms = b_dim b) ->
  (forall r, In r R -> length r = b_dim b) ->
  build_indices b norms R sh primitive pos check callback =
  match build_indices b norms R sh primitive pos check None, callback with
  | Raise e, _ => Raise e
  | Ok r, None => Ok r
  | Ok (J, P), Some f => apply_mask (f J P) J P
  end.
Proof.
  intros Hb Hn HR. unfold build_indices. destruct (build_translation_vectors _ _ _ _ _ _ _) as [cells|e]; auto.
  destruct (interweave _ _) as [positions|]; auto.
  destruct check; [destruct (check_points _ _ _ _ _ _ _) as [mask|e]; auto|]; destruct callback; auto;
    destruct (apply_mask _ _ _) as [[I P]|e]; auto.
Qed.

Lemma build_unchecked b norms R sh primitive pos I P : valid_basis b -> (primitive = true -> length norms = b_dim b) ->
  (forall r, In r R -> length r = b_dim b) ->
  build_indices b norms R sh primitive pos false None = Ok (I, P) ->
  exists cells, build_translation_vectors b norms sh primitive pos false 0 = Ok cells /\
    I = cell_sites (length R) cells /\ length I = length P /\
    forall k s p, nth_error I k = Some s -> nth_error P k = Some p ->
      exists n a r, s = n ++ [Z.of_nat a] /\ In n cells /\ length n = b_dim b /\ nth_error R a = Some r /\
        veq p (lattice_point (b_dim b) (b_mat b) r n).
Proof.
  intros Hb Hn HR. unfold build_indices.
  destruct (build_translation_vectors _ _ _ _ _ _ _) as [cells|e] eqn:Ec; [|discriminate].
  destruct (cells_any _ _ _ _ _ _ Hb Hn Ec) as [Hnd [Hlex Hlen]].
  destruct (interweave _ _) as [positions|] eqn:Ei; [|discriminate]. intro E. injection E as <- <-.
  exists cells. split; auto. rewrite site_indices_eq by auto. change (sites_of (length R) cells) with (cell_sites (length R) cells).
  split; auto. destruct (all_sites b R cells positions Hb HR Hlen Ei) as [Hl H]. split; auto.
  intros k s p Hs Hp. destruct (H k s p Hs Hp) as [n [a [r [E1 [E2 [E3 E4]]]]]]. exists n, a, r. auto 6.
Qed.

Lemma build_checked b norms R sh primitive pos I P : valid_basis b -> (primitive = true -> length norms = b_dim b) ->
  (forall r, In r R -> length r = b_dim b) ->
  build_indices b norms R sh primitive pos true None = Ok (I, P) ->
  exists I0 P0 mask, build_indices b norms R sh primitive pos false None = Ok (I0, P0) /\
    check_points b norms P0 sh primitive pos (1#1000) = Ok mask /\ length mask = length I0 /\ length I0 = length P0 /\
    I = select mask I0 /\ P = select mask P0.
Proof.
  intros Hb Hn HR H.
  destruct (build_indices b norms R sh primitive pos false None) as [[I0 P0]|e] eqn:E0.
  2:{ unfold build_indices in *. destruct (build_translation_vectors _ _ _ _ _ _ _); [|discriminate].
      destruct (interweave _ _); discriminate. }
  destruct (build_unchecked _ _ _ _ _ _ _ _ Hb Hn HR E0) as [cells [_ [_ [Hl _]]]].
  unfold build_indices in *. destruct (build_translation_vectors _ _ _ _ _ _ _); [|discriminate].
  destruct (interweave _ _) as [positions|]; [|discriminate]. injection E0 as <- <-.
  destruct (check_points _ _ _ _ _ _ _) as [mask|e] eqn:Em; [|discriminate].
  unfold apply_mask in H. destruct (length mask =? _) eqn:El; [|discriminate]. apply Nat.eqb_eq in El. injection H as <- <-.
  exists (site_indices (b_dim b) (length R) a), positions, mask. auto 8.
Qed.

Lemma apply_mask_spec {A B} mask (x : list A) (y : list B) x' y' : length x = length y -> apply_mask mask x y = Ok (x', y') ->
  length mask = length x /\ x' = select mask x /\ y' = select mask y.
Proof.
  intros Hl. unfold apply_mask. destruct (length mask =? length x) eqn:E; [|discriminate]. intro H. injection H as <- <-.
  apply Nat.eqb_eq in E. auto.
Qed.

Lemma aligned_select {A B} mask : forall (x : list A) (y : list B), length x = length y ->
  length (select mask x) = length (select mask y) /\
  forall k u v, nth_error (select mask x) k = Some u -> nth_error (select mask y) k = Some v ->
    exists j, nth_error x j = Some u /\ nth_error y j = Some v.
Proof.
  induction mask as [|m mask IH]; intros [|x0 x] [|y0 y] Hl; try discriminate; cbn [select].
  1-3: split; auto; intros [|k] u v H; discriminate.
  destruct (IH x y) as [H1 H2]; [cbn in Hl; lia|]. destruct m.
  - split; [cbn; lia|]. intros [|k] u v Hu Hv.
    + exists 0. auto.
    + destruct (H2 k u v Hu Hv) as [j Hj]. exists (S j). auto.
  - split; auto. intros k u v Hu Hv. destruct (H2 k u v Hu Hv) as [j Hj]. exists (S j). auto.
Qed.

Theorem C31_indices_and_positions_aligned :
  forall b norms R sh primitive pos check callback I P,
    let d := b_dim b in
    valid_basis b -> (primitive = true -> length norms = d) -> (forall r, In r R -> length r = d) ->
    build_indices b norms R sh primitive pos check callback = Ok (I, P) ->
    length I = length P /\
    (forall k s p, nth_error I k = Some s -> nth_error P k = Some p ->
       exists n a r, s = n ++ [Z.of_nat a] /\ length n = d /\ nth_error R a = Some r /\
         same p (lattice_point d (b_mat b) r n)) /\
    exists cells, build_translation_vectors b norms sh primitive pos false 0 = Ok cells /\
      NoDup cells /\ lex_sorted 0 cells /\ sublist (cell_sites (length R) cells) I.
Proof.
  intros b norms R sh primitive pos check callback I P d Hb Hn HR H. rewrite build_indices_eq in H by auto.
  destruct (build_indices b norms R sh primitive pos check None) as [[I1 P1]|e] eqn:E1; [|destruct callback; discriminate].
  assert (exists I0 P0, build_indices b norms R sh primitive pos false None = Ok (I0, P0) /\ length I0 = length P0 /\
            exists mask, I1 = select mask I0 /\ P1 = select mask P0) as [I0 [P0 [E0 [Hl0 [mask1 [-> ->]]]]]].
  { destruct check.
    - destruct (build_checked _ _ _ _ _ _ _ _ Hb Hn HR E1) as [I0 [P0 [mask [E0 [_ [_ [Hl [-> ->]]]]]]]]. exists I0, P0. split; auto. split; auto.
      exists mask. auto.
    - destruct (build_unchecked _ _ _ _ _ _ _ _ Hb Hn HR E1) as [cells [_ [_ [Hl _]]]]. exists I1, P1. split; auto. split; auto.
      exists (repeat true (length I1)). split; [symmetry|rewrite Hl; symmetry]; [generalize I1|generalize P1];
        intro l; induction l; cbn; congruence. }
  destruct (build_unchecked _ _ _ _ _ _ _ _ Hb Hn HR E0) as [cells [Ec [EI [_ Hal]]]].
  destruct (cells_any _ _ _ _ _ _ Hb Hn Ec) as [Hnd [Hlex Hlen]].
  destruct (aligned_select mask1 I0 P0 Hl0) as [Hl1 Ha1].
  assert (exists mask, I = select mask (select mask1 I0) /\ P = select mask (select mask1 P0)) as [mask [-> ->]].
  { destruct callback as [f|].
    - destruct (apply_mask_spec _ _ _ _ _ Hl1 H) as [_ [-> ->]]. eexists. eauto.
    - injection H as <- <-. exists (repeat true (length (select mask1 I0))). rewrite Hl1 at 2.
      split; [generalize (select mask1 I0)|generalize (select mask1 P0)]; intro l; induction l; cbn; congruence. }
  destruct (aligned_select mask (select mask1 I0) (select mask1 P0) Hl1) as [Hl2 Ha2].
  split; auto. split.
  - intros k s p Hs Hp. destruct (Ha2 k s p Hs Hp) as [j [Hj1 Hj2]]. destruct (Ha1 j s p Hj1 Hj2) as [i [Hi1 Hi2]].
    destruct (Hal i s p Hi1 Hi2) as [n [a [r [F1 [F2 [F3 [F4 F5]]]]]]]. exists n, a, r. split; auto. split; auto. split; auto.
    apply same_veq. exact F5.
  - exists cells. split; auto. split; auto. split; auto. rewrite <- EI.
    eapply sublist_trans; [apply sublist_select|apply sublist_select].
Qed.

Theorem C31_filters_select :
  forall b norms R sh primitive pos I P,
    valid_basis b -> (primitive = true -> length norms = b_dim b) -> (forall r, In r R -> length r = b_dim b) ->
    (build_indices b norms R sh primitive pos true None = Ok (I, P) ->
     exists I0 P0 mask, build_indices b norms R sh primitive pos false None = Ok (I0, P0) /\
       check_points b norms P0 sh primitive pos (1#1000) = Ok mask /\
       selected (fun k => nth k mask false = true) I0 I /\ selected (fun k => nth k mask false = true) P0 P) /\
    (forall check f, build_indices b norms R sh primitive pos check (Some f) = Ok (I, P) ->
     exists I0 P0, build_indices b norms R sh primitive pos check None = Ok (I0, P0) /\ length (f I0 P0) = length I0 /\
       selected (fun k => nth k (f I0 P0) false = true) I0 I /\ selected (fun k => nth k (f I0 P0) false = true) P0 P) /\
    (forall check f I0 P0, build_indices b norms R sh primitive pos check None = Ok (I0, P0) -> length (f I0 P0) <> length I0 ->
     build_indices b norms R sh primitive pos check (Some f) = Raise IndexError).
Proof.
  intros b norms R sh primitive pos I P Hb Hn HR. split; [|split].
  - intro H. destruct (build_checked _ _ _ _ _ _ _ _ Hb Hn HR H) as [I0 [P0 [mask [E0 [Em [Hl1 [Hl2 [-> ->]]]]]]]].
    exists I0, P0, mask. split; auto. split; auto. split; apply select_selected; lia.
  - intros check f H. rewrite build_indices_eq in H by auto.
    destruct (build_indices b norms R sh primitive pos check None) as [[I0 P0]|e] eqn:E0; [|discriminate].
    destruct (C31_indices_and_positions_aligned _ _ _ _ _ _ _ _ _ _ Hb Hn HR E0) as [Hl _].
    destruct (apply_mask_spec _ _ _ _ _ Hl H) as [Hm [-> ->]]. exists I0, P0. split; auto. split; auto.
    split; apply select_selected; lia.
  - intros check f I0 P0 E0 Hl. rewrite build_indices_eq, E0 by auto. unfold apply_mask.
    rewrite (proj2 (Nat.eqb_neq _ _) Hl). reflexivity.
Qed.

(** Without atoms nothing can be built. *)
Theorem C31_no_atoms :
  forall b norms sh primitive pos check callback cells,
    build_translation_vectors b norms sh primitive pos false 0 = Ok cells ->
    build_indices b norms [] sh primitive pos check callback = Raise IndexError.
Proof. intros. unfold build_indices. rewrite H. reflexivity. Qed.

(** Two atoms, a box of size (2, 1), and a callback keeping the second atom of each cell. *)
Definition square_lattice : basis := mkBasis [[1; 0]; [0; 1]]%Q [[1; 0]; [0; 1]]%Q.
Lemma square_lattice_valid : valid_basis square_lattice.
Proof. apply inverse2_check; reflexivity. Qed.

Example C31_example :
  valid_basis square_lattice /\
  (exists P, build_indices square_lattice [1; 1]%Q [[0; 0]; [1#2; 1#2]]%Q (ASize [2; 1]%Q) false None true None =
     Ok ([[0; 0; 0]; [0; 0; 1]; [0; 1; 0]; [1; 0; 0]; [1; 0; 1]; [1; 1; 0]; [2; 0; 0]; [2; 1; 0]]%Z, P) /\
     Forall2 same P [[0; 0]; [1#2; 1#2]; [0; 1]; [1; 0]; [3#2; 1#2]; [1; 1]; [2; 0]; [2; 1]]%Q) /\
  (exists P, build_indices square_lattice [1; 1]%Q [[0; 0]; [1#2; 1#2]]%Q (ASize [2; 1]%Q) false None true
     (Some (fun I _ => map (fun s => (last s 0 =? 1)%Z) I)) =
     Ok ([[0; 0; 1]; [1; 0; 1]]%Z, P) /\ Forall2 same P [[1#2; 1#2]; [3#2; 1#2]]%Q).
Proof.
  split; [exact square_lattice_valid|]. split.
  - eexists. split; [vm_compute; reflexivity|]. repeat constructor; cbn; auto; intros [|[|i]]; reflexivity.
  - eexists. split; [vm_compute; reflexivity|]. repeat constructor; cbn; auto; intros [|[|i]]; reflexivity.
Qed.

(** ** C32 *)

Theorem C32_cells_cover_the_box :
  forall b norms sh pos check lower size,
    let d := b_dim b in
    valid_basis b -> 1 <= d -> requested_box b sh pos = (lower, size) -> length lower = d -> length size = d ->
    (forall i, i < d -> (0 <= nth i size 0)%Q) ->
    (forall i, i < d -> reaches d (b_inv b) lower i) -> no_wrap (nvec_limits b lower size 0) ->
    exists cells, build_translation_vectors b norms sh false pos check 0 = Ok cells /\ NoDup cells /\ lex_sorted 0 cells /\
      forall n r, length n = d -> length r = d -> (forall i, i < d -> (0 <= coordinate d (b_inv b) r i < 2)%Q) ->
        inside d lower size 0 (lattice_point d (b_mat b) r n) ->
        (check = true -> inside d lower size 0 (lattice_point d (b_mat b) (repeat 0%Q d) n)) ->
        In n cells.
Proof.
  intros b norms sh pos check lower size d Hb Hd Ebox Hl Hs H0 Hreach Hwrap.
  pose proof (nvec_limits_length b lower size 0 Hb Hl Hs) as Hlen. fold d in Hlen.
  assert (nvec_limits b lower size 0 <> []) as Hne by (intro E; rewrite E in Hlen; cbn in Hlen; lia).
  assert (inside d lower size 0 lower) as Hin by (intros i Hi; specialize (H0 i Hi); lra).
  pose proof Hwrap as [w [Hw Hext]].
  destruct (C16_vindices_enumerates_the_grid (nvec_limits b lower size 0) (Some 0) w Hne
              (limits_ordered b lower size _ Hb Hl Hs Hreach Hin)) as [vs [E [Hnd [_ Hsort]]]]; auto.
  { intros a Ea. injection Ea as <-. lia. }
  assert (forall n r, length n = d -> length r = d -> (forall i, i < d -> (0 <= coordinate d (b_inv b) r i < 2)%Q) ->
    inside d lower size 0 (lattice_point d (b_mat b) r n) -> In n vs) as Hcover.
  { intros n r Hn Hr Hc Hp. apply (cells_cover b lower size vs n r); auto. }
  rewrite build_cells_eq, Ebox. cbv beta iota zeta. rewrite E. fold d. rewrite (proj2 (Nat.eqb_eq _ _) Hs), (proj2 (Nat.eqb_eq _ _) Hl). cbn [negb].
  destruct check.
  - set (points := map _ vs).
    destruct (C30_check_points_box b norms points size (Some lower) (1#1000)) as [_ H]. fold d in H.
    destruct (H Hs Hl) as [mask [Em [Hml Hmask]]]. rewrite Em. exists (select mask vs). split; auto.
    assert (length mask = length vs) as Hmv by (rewrite Hml; unfold points; apply map_length).
    split; [apply NoDup_select; auto|]. split.
    + specialize (Hsort 0 eq_refl). clear -Hsort. revert mask. unfold lex_sorted in *.
      induction Hsort as [|v vs H IH Hf]; intros [|m mask]; cbn; try constructor. destruct m; auto. constructor; auto.
      rewrite Forall_forall in *. intros u Hu. apply Hf. apply In_select in Hu. destruct Hu as [i [_ Hi]]. apply nth_error_In in Hi. auto.
    + intros n r Hn Hr Hc Hp Hcorner. specialize (Hcover n r Hn Hr Hc Hp). apply In_select.
      destruct (In_nth_error _ _ Hcover) as [k Hk]. exists k. split; auto.
      assert (nth_error points k = Some (matvec (b_mat b) (of_Z n))) as Hpk by (unfold points; rewrite nth_error_map', Hk; reflexivity).
      apply (Hmask k _ Hpk). intros i Hi. specialize (Hcorner eq_refl i Hi).
      assert (nth i (matvec (b_mat b) (of_Z n)) 0 == nth i (lattice_point d (b_mat b) (repeat 0%Q d) n) 0)%Q as Ep.
      { rewrite nth_lattice_point by auto. rewrite nth_repeat. rewrite (nth_matvec_sum d); [|apply Hb|rewrite of_Z_length; auto|auto].
        rewrite Qplus_0_l. apply sum_ext. intros k' _. rewrite nth_of_Z. reflexivity. }
      rewrite Ep. lra.
  - exists vs. split; auto. split; auto. split; auto. intros n r Hn Hr Hc Hp _. eapply Hcover; eauto.
Qed.

(** Nothing wraps if the coordinates of all points of the box, extended to the origin, are below 61. *)
Theorem C32_no_wrap_near_the_origin :
  forall b lower size,
    let d := b_dim b in
    valid_basis b -> length lower = d -> length size = d ->
    (forall p i, i < d -> length p = d ->
       (forall j, j < d -> (Qmin 0 (nth j lower 0) <= nth j p 0 <= Qmax 0 (nth j lower 0 + nth j size 0))%Q) ->
       (-61 <= coordinate d (b_inv b) p i <= 61)%Q) ->
    (forall j, j < d -> (0 <= nth j size 0)%Q) ->
    no_wrap (nvec_limits b lower size 0).
Proof.
  intros b lower size d Hb Hl Hs H61 H0.
  assert (forall p i, i < d -> length p = d ->
      (forall j, j < d -> (Qmin 0 (nth j lower 0) <= nth j p 0 <= Qmax 0 (nth j lower 0 + nth j size 0))%Q) ->
      (-61 <= Qfloor (coord b p i) <= 61)%Z) as Hf.
  { intros p i Hi Hp H. specialize (H61 p i Hi Hp H). unfold coord. fold d. split.
    - change (-61)%Z with (Qfloor (-61)). apply Qfloor_resp_le. apply H61.
    - change 61%Z with (Qfloor 61). apply Qfloor_resp_le. apply H61. }
  assert (forall l, In l (nvec_limits b lower size 0) -> (-62 <= fst l <= 60 /\ -60 <= snd l <= 62)%Z) as Hlim.
  { intros l Hin. destruct (limits_in b lower size l Hb Hl Hs Hin) as [i [lo [hi [Hi [E ->]]]]]. cbn [fst snd].
    destruct (range_attained b lower size lo hi Hb Hl Hs E i Hi) as [[p [Hp [-> Hpp]]] [q [Hq [-> Hqq]]]].
    assert (forall p, length p = b_dim b ->
      ((forall j, j < b_dim b -> (nth j p 0 == nth j lower 0)%Q) \/
       (forall j, j < b_dim b -> (nth j p 0 == 0 \/ nth j p 0 == nth j lower 0 + nth j size 0)%Q)) ->
      (-61 <= Qfloor (coord b p i) <= 61)%Z) as Hany.
    { clear p q Hp Hq Hpp Hqq. intros p Hp Hpp. apply Hf; auto. intros j Hj. specialize (H0 j Hj).
      pose proof (Q.le_min_l 0 (nth j lower 0))%Q. pose proof (Q.le_min_r 0 (nth j lower 0))%Q.
      pose proof (Q.le_max_l 0 (nth j lower 0 + nth j size 0))%Q. pose proof (Q.le_max_r 0 (nth j lower 0 + nth j size 0))%Q.
      destruct Hpp as [Hpp|Hpp]; specialize (Hpp j Hj); [lra|destruct Hpp; lra]. }
    pose proof (Hany p Hp Hpp). pose proof (Hany q Hq Hqq). lia. }
  exists 8%Z. split.
  - apply width8. intros x Hx. apply in_flat_map in Hx. destruct Hx as [l [Hl' [<-|[<-|[]]]]]; specialize (Hlim l Hl'); lia.
  - intros l Hin. specialize (Hlim l Hin). change (2 ^ (8 - 1))%Z with 128%Z. lia.
Qed.

(** At the origin of a lattice whose inverse has no negative entry boxes of any size work (up to int64). *)
Theorem C32_no_wrap_nonnegative :
  forall b size,
    let d := b_dim b in
    valid_basis b -> 1 <= d -> length size = d -> (forall j, j < d -> (0 <= nth j size 0)%Q) ->
    (forall i j, i < d -> j < d -> (0 <= entry (b_inv b) i j)%Q) ->
    (forall i, i < d -> (coordinate d (b_inv b) size i < inject_Z (2 ^ 62))%Q) ->
    no_wrap (nvec_limits b (repeat 0%Q d) size 0).
Proof.
  intros b size d Hb Hd Hs H0 HW H62. set (lower := repeat 0%Q d).
  assert (length lower = d) as Hl by apply repeat_length.
  assert (forall j, nth j lower 0 = 0)%Q as Hz by (intro j; apply nth_repeat).
  assert (forall l, In l (nvec_limits b lower size 0) -> (fst l = -1 /\ 1 <= snd l <= 2 ^ 62)%Z) as Hlim.
  { intros l Hin. destruct (limits_in b lower size l Hb Hl Hs Hin) as [i [lo [hi [Hi [E ->]]]]]. cbn [fst snd].
    fold d in Hi. destruct (range_attained b lower size lo hi Hb Hl Hs E i Hi) as [[p [Hp [Ep Hpp]]] [q [Hq [Eq Hqq]]]].
    fold d in Hp, Hq, Hpp, Hqq.
    assert (forall p, length p = d ->
      ((forall j, j < d -> (nth j p 0 == nth j lower 0)%Q) \/
       (forall j, j < d -> (nth j p 0 == 0 \/ nth j p 0 == nth j lower 0 + nth j size 0)%Q)) ->
      (0 <= Qfloor (coord b p i) < 2 ^ 62)%Z) as Hany.
    { clear p q Hp Hq Hpp Hqq Ep Eq. intros p Hp Hpp.
      assert (forall j, j < d -> (0 <= nth j p 0 <= nth j size 0)%Q) as Hb01.
      { intros j Hj. specialize (H0 j Hj). destruct Hpp as [Hpp|Hpp]; specialize (Hpp j Hj); rewrite (Hz j) in Hpp; [lra|destruct Hpp; lra]. }
      assert (0 <= coord b p i)%Q as Hge.
      { unfold coord, coordinate. fold d. eapply Qle_trans; [|apply (sum_le d (fun _ => 0%Q))].
        - rewrite sum_zero; [apply Qle_refl|reflexivity].
        - intros k Hk. specialize (HW i k Hi Hk). specialize (Hb01 k Hk). apply Qmult_le_0_compat; tauto. }
      assert (coord b p i <= coordinate d (b_inv b) size i)%Q as Hle.
      { unfold coord, coordinate. fold d. apply sum_le. intros k Hk. specialize (HW i k Hi Hk). specialize (Hb01 k Hk).
        rewrite !(Qmult_comm (entry _ _ _)). apply Qmult_le_compat_r; tauto. }
      split.
      - change 0%Z with (Qfloor 0). apply Qfloor_resp_le. auto.
      - rewrite Zlt_Qlt. eapply Qle_lt_trans; [apply Qfloor_le|]. eapply Qle_lt_trans; [exact Hle|]. apply H62; auto. }
    pose proof (Hany p Hp Hpp) as Hp1. pose proof (Hany q Hq Hqq) as Hq1. rewrite <- Ep in Hp1. rewrite <- Eq in Hq1.
    pose proof (range_spec b Hb lower (vadd lower size) Hl) as Hr. rewrite E in Hr.
    destruct Hr as [_ [_ Hr]]; [fold d; rewrite vadd_length; lia|]. destruct (Hr i Hi) as [Hlo _].
    assert (Qfloor (coord b lower i) = 0)%Z as E0.
    { rewrite (Qfloor_comp _ 0); [reflexivity|]. unfold coord, coordinate. apply sum_zero. intros k _. rewrite Hz. ring. }
    rewrite E0 in Hlo. lia. }
  apply no_wrap_from.
  - exists (2 ^ 62)%Z. split; [|lia]. intros l Hin. specialize (Hlim l Hin). lia.
  - intros l Hin. specialize (Hlim l Hin). lia.
  - intro E. pose proof (nvec_limits_length b lower size 0 Hb Hl Hs) as Hlen. rewrite E in Hlen. cbn in Hlen. fold d in Hlen. lia.
Qed.

(** A box of size (3, 2) on a skewed basis. *)
Example C32_example :
  valid_basis skew /\ requested_box skew (ASize [3; 2]%Q) None = ([0; 0]%Q, [3; 2]%Q) /\
  (forall i, i < 2 -> reaches 2 (b_inv skew) [0; 0]%Q i) /\ no_wrap (nvec_limits skew [0; 0]%Q [3; 2]%Q 0) /\
  build_translation_vectors skew [1; 1]%Q (ASize [3; 2]%Q) false None true 0 =
    Ok [[-1; 2]; [0; 0]; [0; 1]; [0; 2]; [1; 0]; [1; 1]; [1; 2]; [2; 0]; [2; 1]; [2; 2]; [3; 0]]%Z.
Proof.
  split; [exact skew_valid|]. split; [reflexivity|]. split; [|split].
  - intros [|[|i]] Hi; [| |lia]; right; (split; [intros [|[|j]] Hj; [reflexivity|reflexivity|lia]|]).
    + exists 0. split; [lia|]. unfold entry. cbn. lra.
    + exists 1. split; [lia|]. unfold entry. cbn. lra.
  - exists 8%Z. split.
    + apply width8. vm_compute. intros x H. repeat (destruct H as [<-|H]; [split; discriminate|]). destruct H.
    + vm_compute. intros l H. repeat (destruct H as [<-|H]; [discriminate|]). destruct H.
  - vm_compute. reflexivity.
Qed.

(** A long chain. *)
Example C32_nonnegative_example :
  let chain := mkBasis [[1%Q]] [[1%Q]] in
  valid_basis chain /\ no_wrap (nvec_limits chain [0%Q] [100000%Q] 0) /\
  (exists cells, build_translation_vectors chain [1%Q] (ASize [1000%Q]) false None true 0 = Ok cells /\ length cells = 1001).
Proof.
  cbv zeta.
  assert (valid_basis (mkBasis [[1%Q]] [[1%Q]])) as Hv.
  { split; [|split; [|split]].
    - split; [reflexivity|]. intros r [<-|[]]. reflexivity.
    - split; [reflexivity|]. intros r [<-|[]]. reflexivity.
    - intros [|i] [|j] Hi Hj; cbn in *; try lia. reflexivity.
    - intros [|i] [|j] Hi Hj; cbn in *; try lia. reflexivity. }
  split; auto. split.
  - apply (C32_no_wrap_nonnegative (mkBasis [[1%Q]] [[1%Q]]) [100000%Q]); auto.
    + intros [|j] Hj; [cbn; lra|cbn in Hj; lia].
    + intros [|i] [|j] Hi Hj; cbn in Hi, Hj; try lia. unfold entry. cbn. lra.
    + intros [|i] Hi; cbn in Hi; try lia. vm_compute. reflexivity.
  - eexists. split; [vm_compute; reflexivity|reflexivity].
Qed.

(** Sites inside the requested box that are not found. *)
Definition missing (b : basis) (size : list Q) (pos : option (list Q)) (n : list Z) : Prop :=
  valid_basis b /\ (forall i, i < b_dim b -> (0 < nth i size 0)%Q) /\
  inside (b_dim b) (fst (requested_box b (ASize size) pos)) size 0 (lattice_point (b_dim b) (b_mat b) (repeat 0%Q (b_dim b)) n) /\
  exists cells, build_translation_vectors b (repeat 1%Q (b_dim b)) (ASize size) false pos false 0 = Ok cells /\ ~ In n cells.

Lemma not_in_check (n : list Z) l : existsb (fun m => if list_eq_dec Z.eq_dec m n then true else false) l = false -> ~ In n l.
Proof.
  intros H Hin. apply not_true_iff_false in H. apply H. apply existsb_exists. exists n. split; auto.
  destruct (list_eq_dec Z.eq_dec n n); auto.
Qed.

Definition cells_lack (r : result (list (list Z))) (n : list Z) : bool :=
  match r with Ok l => negb (existsb (fun m => if list_eq_dec Z.eq_dec m n then true else false) l) | Raise _ => false end.

Lemma cells_lack_spec r n : cells_lack r n = true -> exists cells, r = Ok cells /\ ~ In n cells.
Proof.
  destruct r as [l|]; [|discriminate]. cbn. intro H. exists l. split; auto. apply not_in_check. apply negb_true_iff. exact H.
Qed.

(** A position other than the origin on a skewed basis: the corners are probed with zeros instead of the position. *)
Theorem C32_position_on_skewed_basis_refuted :
  exists b size pos n, missing b size (Some pos) n.
Proof.
  exists skew, [1; 1]%Q, [0; -10]%Q, [6; -10]%Z. split; [exact skew_valid|]. split; [|split].
  - intros [|[|i]] Hi; [reflexivity|reflexivity|cbn in Hi; lia].
  - intros [|[|i]] Hi; [| |cbn in Hi; lia]; vm_compute; split; discriminate.
  - apply cells_lack_spec. vm_compute. reflexivity.
Qed.

(** A lattice vector pointing backwards. *)
Theorem C32_negative_row_refuted :
  exists b size n, missing b size None n /\
    build_translation_vectors b [1%Q] (ASize [5%Q]) false None false 0 = Raise ValueError.
Proof.
  exists (mkBasis [[-1]]%Q [[-1]]%Q), [1%Q], [0%Z]. split; [|vm_compute; reflexivity].
  split; [|split; [|split]].
  - split; [|split; [|split]].
    + split; [reflexivity|]. intros r [<-|[]]. reflexivity.
    + split; [reflexivity|]. intros r [<-|[]]. reflexivity.
    + intros [|i] [|j] Hi Hj; cbn in *; try lia. reflexivity.
    + intros [|i] [|j] Hi Hj; cbn in *; try lia. reflexivity.
  - intros [|i] Hi; [reflexivity|cbn in Hi; lia].
  - intros [|i] Hi; [|cbn in Hi; lia]. vm_compute. split; discriminate.
  - apply cells_lack_spec. vm_compute. reflexivity.
Qed.

(** Index ranges longer than the integer type wrap around: a chain from -100 to 100, and a box at the origin of a
    skewed basis. *)
Theorem C32_wide_box_refuted :
  (exists b size pos n, b_dim b = 1 /\ missing b size (Some pos) n) /\
  (exists b size n, (forall i, i < b_dim b -> reaches (b_dim b) (b_inv b) (repeat 0%Q (b_dim b)) i) /\ missing b size None n).
Proof.
  split.
  - exists (mkBasis [[1%Q]] [[1%Q]]), [200%Q], [-100]%Q, [100%Z]. split; [reflexivity|]. split; [|split; [|split]].
    + split; [|split; [|split]].
      * split; [reflexivity|]. intros r [<-|[]]. reflexivity.
      * split; [reflexivity|]. intros r [<-|[]]. reflexivity.
      * intros [|i] [|j] Hi Hj; cbn in *; try lia. reflexivity.
      * intros [|i] [|j] Hi Hj; cbn in *; try lia. reflexivity.
    + intros [|i] Hi; [reflexivity|cbn in Hi; lia].
    + intros [|i] Hi; [|cbn in Hi; lia]. vm_compute. split; discriminate.
    + apply cells_lack_spec. vm_compute. reflexivity.
  - exists skew, [100; 55]%Q, [100; 0]%Z. split; [|split; [exact skew_valid|split; [|split]]].
    + intros [|[|i]] Hi; [| |cbn in Hi; lia]; right; (split; [intros [|[|j]] Hj; [reflexivity|reflexivity|cbn in Hj; lia]|]).
      * exists 0. split; [cbn; lia|]. unfold entry. cbn. lra.
      * exists 1. split; [cbn; lia|]. unfold entry. cbn. lra.
    + intros [|[|i]] Hi; [reflexivity|reflexivity|cbn in Hi; lia].
    + intros [|[|i]] Hi; [| |cbn in Hi; lia]; vm_compute; split; discriminate.
    + apply cells_lack_spec. vm_compute. reflexivity.
Qed.

(** ** C33 *)

Theorem C33_no_site_twice :
  forall b norms R sh primitive pos check callback I P,
    valid_basis b -> (primitive = true -> length norms = b_dim b) -> (forall r, In r R -> length r = b_dim b) ->
    build_indices b norms R sh primitive pos check callback = Ok (I, P) -> NoDup I.
Proof.
  intros b norms R sh primitive pos check callback I P Hb Hn HR H.
  destruct (C31_indices_and_positions_aligned _ _ _ _ _ _ _ _ _ _ Hb Hn HR H) as [_ [_ [cells [_ [Hnd [_ Hsub]]]]]].
  eapply sublist_NoDup; [exact Hsub|]. apply (NoDup_sites_of (length R) cells Hnd).
Qed.

(** The sites of a checked build, for a check that depends only on the values of the coordinates. *)
Lemma checked_members b norms R sh primitive pos (Pred : list Q -> Prop) cells :
  valid_basis b -> (primitive = true -> length norms = b_dim b) -> (forall r, In r R -> length r = b_dim b) -> R <> [] ->
  (forall p q, length p = b_dim b -> veq p q -> (Pred p <-> Pred q)) ->
  (forall points, (forall p, In p points -> length p = b_dim b) ->
     exists mask, check_points b norms points sh primitive pos (1#1000) = Ok mask /\ length mask = length points /\
       forall k p, nth_error points k = Some p -> (nth k mask false = true <-> Pred p)) ->
  build_translation_vectors b norms sh primitive pos false 0 = Ok cells ->
  exists I P, build_indices b norms R sh primitive pos true None = Ok (I, P) /\
    forall n a r, nth_error R a = Some r ->
      (In (n ++ [Z.of_nat a]) I <-> In n cells /\ Pred (lattice_point (b_dim b) (b_mat b) r n)).
Proof.
  intros Hb Hnorms HR Hne Hveq Hcheck Ec.
  destruct (cells_any _ _ _ _ _ _ Hb Hnorms Ec) as [Hnd [_ Hlen]].
  destruct (build_indices b norms R sh primitive pos false None) as [[I0 P0]|e] eqn:E0.
  2:{ exfalso. unfold build_indices in E0. rewrite Ec in E0.
      set (arrays := map (fun r => map (fun n => translate b n r) cells) R) in *.
      destruct (C17_interweave_equal_lengths vec arrays (repeat [] (length (concat arrays))) (length cells)) as [res [E' _]].
      - intro H. apply map_eq_nil in H. contradiction.
      - intros arr Ha. apply in_map_iff in Ha. destruct Ha as [r [<- _]]. apply map_length.
      - rewrite repeat_length. unfold arrays. rewrite map_length. clear. induction R as [|r R IH]; cbn; [lia|]. rewrite app_length, map_length, IH. lia.
      - unfold vec in *. rewrite E' in E0. discriminate. }
  destruct (build_unchecked _ _ _ _ _ _ _ _ Hb Hnorms HR E0) as [cells' [Ec' [EI [Hl Hal]]]].
  assert (cells' = cells) by congruence. subst cells'.
  assert (forall p, In p P0 -> length p = b_dim b) as HP.
  { intros p Hp. destruct (In_nth_error _ _ Hp) as [k Hk]. destruct (nth_error_lt I0 k) as [s Hs].
    - rewrite Hl. apply nth_error_length_lt in Hk. exact Hk.
    - destruct (Hal k s p Hs Hk) as [n [a [r [_ [_ [_ [_ Hv]]]]]]]. rewrite (veq_length _ _ Hv). apply lattice_point_length. }
  destruct (Hcheck P0 HP) as [mask [Em [Hml Hmask]]].
  exists (select mask I0), (select mask P0). split.
  - unfold build_indices in *. rewrite Ec in *. destruct (interweave _ _) as [positions|]; [|discriminate].
    injection E0 as <- <-. rewrite Em. unfold apply_mask. rewrite (proj2 (Nat.eqb_eq _ _) (eq_trans Hml (eq_sym Hl))). reflexivity.
  - intros n a r Hr. rewrite In_select. split.
    + intros [k [Hk Hs]]. destruct (nth_error_lt P0 k) as [p Hp].
      { rewrite <- Hl. apply nth_error_length_lt in Hs. exact Hs. }
      destruct (Hal k _ p Hs Hp) as [n' [a' [r' [Es [Hn' [Hln [Hr' Hv]]]]]]]. apply site_app_inj in Es. destruct Es as [<- <-].
      assert (r' = r) by congruence. subst r'. split; auto. apply (Hmask k p Hp) in Hk.
      apply (Hveq p); auto. apply HP. apply (nth_error_In _ _ Hp).
    + intros [Hn HQ].
      assert (In (n ++ [Z.of_nat a]) I0) as Hin.
      { rewrite EI. apply in_flat_map. exists n. split; auto. apply (in_map (fun a => n ++ [Z.of_nat a])). apply in_seq.
        apply nth_error_length_lt in Hr. lia. }
      destruct (In_nth_error _ _ Hin) as [k Hs]. exists k. split; auto.
      destruct (nth_error_lt P0 k) as [p Hp].
      { rewrite <- Hl. apply nth_error_length_lt in Hs. exact Hs. }
      destruct (Hal k _ p Hs Hp) as [n' [a' [r' [Es [Hn' [Hln [Hr' Hv]]]]]]]. apply site_app_inj in Es. destruct Es as [<- <-].
      assert (r' = r) by congruence. subst r'. apply (Hmask k p Hp). apply (Hveq p _ (HP p (nth_error_In _ _ Hp)) Hv). exact HQ.
Qed.

Lemma inside_veq d lower size tol p q : veq p q -> (inside d lower size tol p <-> inside d lower size tol q).
Proof.
  intro H. apply veq_nth in H. destruct H as [_ H]. unfold inside. split; intros Hi i Hd; specialize (Hi i Hd).
  - rewrite <- !(H i). auto.
  - rewrite !(H i). auto.
Qed.

Theorem C33_built_sites_of_a_box :
  forall b norms R size pos lower,
    let d := b_dim b in
    valid_basis b -> 1 <= d -> requested_box b (ASize size) pos = (lower, size) -> length lower = d -> length size = d ->
    (forall i, i < d -> (0 <= nth i size 0)%Q) ->
    (forall i, i < d -> reaches d (b_inv b) lower i) -> no_wrap (nvec_limits b lower size 0) ->
    R <> [] -> (forall r, In r R -> length r = d /\ forall i, i < d -> (0 <= coordinate d (b_inv b) r i < 2)%Q) ->
    exists I P, build_indices b norms R (ASize size) false pos true None = Ok (I, P) /\ NoDup I /\
      forall n a r, length n = d -> nth_error R a = Some r ->
        (inside d lower size 0 (lattice_point d (b_mat b) r n) -> In (n ++ [Z.of_nat a]) I) /\
        (In (n ++ [Z.of_nat a]) I -> inside d lower size (1#1000) (lattice_point d (b_mat b) r n)).
Proof.
  intros b norms R size pos lower d Hb Hd Ebox Hl Hs H0 Hreach Hwrap Hne HR.
  assert (forall r, In r R -> length r = d) as HRl by (intros; apply HR; auto).
  destruct (C32_cells_cover_the_box b norms (ASize size) pos false lower size Hb Hd Ebox Hl Hs H0 Hreach Hwrap) as [cells [Ec [Hnd [_ Hcov]]]].
  destruct (checked_members b norms R (ASize size) false pos (inside d lower size (1#1000)) cells Hb ltac:(discriminate) HRl Hne) as [I [P [E HI]]]; auto.
  - intros. apply inside_veq; auto.
  - intros points _. destruct (C30_check_points_box b norms points size pos (1#1000)) as [_ H].
    assert (match pos with None => repeat 0%Q (b_dim b) | Some p => p end = lower) as El by (cbn in Ebox; congruence).
    cbv zeta in H. rewrite El in H. apply H; auto.
  - exists I, P. split; auto. split; [eapply C33_no_site_twice; [exact Hb| |exact HRl|exact E]; discriminate|].
    intros n a r Hn Hr. specialize (HI n a r Hr). rewrite HI. split; [|tauto]. intro Hin. split.
    + apply nth_error_In in Hr. destruct (HR r Hr) as [Hrl Hrc]. apply (Hcov n r); auto. discriminate.
    + intros i Hi. specialize (Hin i Hi). fold d. lra.
Qed.

(** A shape of dimension [d]. *)
Definition well_formed (d : nat) (s : shape) : Prop :=
  (exists size pos, is_box d s size pos) \/
  (exists pos, length pos = d /\ ((exists r, s = SCircle pos r) \/ exists ro ri, s = SDonut pos ro ri)) \/
  (exists P E, is_hull d P E /\ s = SHull P E).

Lemma inner_veq u p q : veq p q -> (inner u p == inner u q)%Q.
Proof. intro H. apply veq_nth in H. destruct H as [_ H]. unfold inner. apply sum_ext. intros. rewrite (H k). reflexivity. Qed.

Lemma contains_veq d s p q tol : well_formed d s -> length p = d -> veq p q -> shape_contains s p tol = shape_contains s q tol.
Proof.
  intros Hw Hp Hv. pose proof (veq_length _ _ Hv) as Hl. apply eq_true_iff_eq. destruct Hw as [[size [pos [Hb [Hs Hpos]]]]|[[pos [Hpos Hs]]|[P [E [Hh ->]]]]].
  - destruct s as [sz ps|sz ps m inv| | |]; try contradiction.
    + destruct Hb as [-> ->]. cbn [shape_contains]. rewrite !(box_contains_spec d) by (auto; congruence).
      apply veq_nth in Hv. destruct Hv as [_ Hv]. split; intros H i Hi; specialize (H i Hi); [rewrite <- (Hv i)|rewrite (Hv i)]; auto.
    + destruct Hb as [-> [-> Hinv]]. cbn [shape_contains]. destruct Hinv as [_ [Hsq _]].
      rewrite !(box_contains_spec d) by (auto; apply matvec_len; auto).
      pose proof (matvec_proper inv _ _ Hv) as Hm. apply veq_nth in Hm. destruct Hm as [_ Hm].
      split; intros H i Hi; specialize (H i Hi); [rewrite <- (Hm i)|rewrite (Hm i)]; auto.
  - assert (sqdist p pos == sqdist q pos)%Q as E by (apply sqdist_veq; [auto|apply veq_refl]).
    destruct Hs as [[r ->]|[ro [ri ->]]].
    + rewrite !C24_circle_contains, E by congruence. reflexivity.
    + rewrite !C24_donut_contains, E by congruence. reflexivity.
  - rewrite !(hull_contains_iff d) by (auto; congruence).
    split; intros H e He; specialize (H e He); [rewrite <- (inner_veq (fst e) p q Hv)|rewrite (inner_veq (fst e) p q Hv)]; exact H.
Qed.

Lemma contains_more d s p : well_formed d s -> length p = d -> shape_contains s p 0 = true -> shape_contains s p (1#1000) = true.
Proof.
  intros [[size [pos Hb]]|[[pos [Hpos Hs]]|[P [E [Hh ->]]]]] Hp.
  - apply (C23_tolerance_monotone d s size pos); auto. lra.
  - destruct Hs as [[r ->]|[ro [ri ->]]].
    + rewrite !C24_circle_contains by congruence. intros [H1 H2]. split; [lra|]. nra.
    + rewrite !C24_donut_contains by congruence. intros [H1 [H2 H3]]. split; [|split; [lra|nra]].
      destruct H1 as [H1|H1]; [left; lra|]. destruct (Qlt_le_dec (ri - (1#1000)) 0); [left; lra|right; nra].
  - intro H. destruct (C83_tolerance d P E 0 Hh ltac:(lra)) as [_ [_ [H3 _]]]. apply (H3 p (1#1000)%Q Hp ltac:(lra) H).
Qed.

Lemma contains_limits d s p : well_formed d s -> length p = d -> shape_contains s p 0 = true ->
  length (shape_limits s) = d /\
  inside d (map fst (shape_limits s)) (vsub (map snd (shape_limits s)) (map fst (shape_limits s))) 0 p.
Proof.
  intros Hw Hp Hc.
  assert (length (shape_limits s) = d /\ forall j lo hi, nth_error (shape_limits s) j = Some (lo, hi) -> (lo <= nth j p 0 <= hi)%Q) as [Hl H].
  { destruct Hw as [[size [pos Hb]]|[[pos [Hpos Hs]]|[P [E [Hh ->]]]]].
    - apply (C23_contained_within_limits d s size pos); auto.
    - destruct (C24_contained_within_limits s pos p) as [H1 H2]; auto; try congruence. split; [congruence|auto].
    - destruct (C83_limits d P E Hh) as [H1 H2]. split; [exact H1|]. intros j lo hi Hj. apply (H2 j lo hi Hj); auto. }
  split; auto. intros i Hi. destruct (nth_error_lt (shape_limits s) i) as [[lo hi] Hn]; [lia|]. specialize (H i lo hi Hn).
  rewrite nth_vsub by (rewrite !map_length; auto).
  assert (nth i (map fst (shape_limits s)) 0%Q = lo) as -> by (apply nth_of_nth_error; rewrite nth_error_map', Hn; reflexivity).
  assert (nth i (map snd (shape_limits s)) 0%Q = hi) as -> by (apply nth_of_nth_error; rewrite nth_error_map', Hn; reflexivity).
  lra.
Qed.

Theorem C33_built_sites_of_a_shape :
  forall b norms R s pos lower size,
    let d := b_dim b in
    valid_basis b -> 1 <= d -> well_formed d s -> requested_box b (AShape s) pos = (lower, size) ->
    length (shape_limits s) = d -> (forall i, i < d -> (0 <= nth i size 0)%Q) ->
    (forall i, i < d -> reaches d (b_inv b) lower i) -> no_wrap (nvec_limits b lower size 0) ->
    R <> [] -> (forall r, In r R -> length r = d /\ forall i, i < d -> (0 <= coordinate d (b_inv b) r i < 2)%Q) ->
    exists I P, build_indices b norms R (AShape s) false pos true None = Ok (I, P) /\ NoDup I /\
      forall n a r, length n = d -> nth_error R a = Some r ->
        let p := lattice_point d (b_mat b) r n in
        (shape_contains s p 0 = true -> In (n ++ [Z.of_nat a]) I) /\
        (In (n ++ [Z.of_nat a]) I -> shape_contains s p (1#1000) = true) /\
        (inside d lower size 0 p -> shape_contains s p (1#1000) = true -> In (n ++ [Z.of_nat a]) I).
Proof.
  intros b norms R s pos lower size d Hb Hd Hw Ebox Hlim H0 Hreach Hwrap Hne HR.
  assert (forall r, In r R -> length r = d) as HRl by (intros; apply HR; auto).
  assert (length lower = d) as Hl by (cbn in Ebox; injection Ebox as <- <-; rewrite map_length; auto).
  assert (length size = d) as Hs by (cbn in Ebox; injection Ebox as <- <-; rewrite vsub_length; rewrite !map_length; auto).
  destruct (C32_cells_cover_the_box b norms (AShape s) pos false lower size Hb Hd Ebox Hl Hs H0 Hreach Hwrap) as [cells [Ec [Hnd [_ Hcov]]]].
  destruct (checked_members b norms R (AShape s) false pos (fun p => shape_contains s p (1#1000) = true) cells Hb ltac:(discriminate) HRl Hne) as [I [P [E HI]]]; auto.
  - intros p q Hp Hv. rewrite (contains_veq d s p q) by auto. reflexivity.
  - intros points _. cbn [check_points]. eexists. split; [reflexivity|]. rewrite map_length. split; auto. intros k p Hk.
    rewrite (nth_of_nth_error _ _ _ (shape_contains s p (1#1000))); [reflexivity|]. unfold vec. rewrite nth_error_map', Hk. reflexivity.
  - exists I, P. split; auto. split; [eapply C33_no_site_twice; [exact Hb| |exact HRl|exact E]; discriminate|].
    intros n a r Hn Hr. cbv zeta. specialize (HI n a r Hr). rewrite !HI. apply nth_error_In in Hr. destruct (HR r Hr) as [Hrl Hrc].
    split; [|split].
    + intro Hc. destruct (contains_limits d s _ Hw (lattice_point_length _ _ _ _) Hc) as [_ Hin].
      assert (lower = map fst (shape_limits s) /\ size = vsub (map snd (shape_limits s)) (map fst (shape_limits s))) as [-> ->]
        by (cbn in Ebox; injection Ebox as <- <-; auto).
      split; [apply (Hcov n r); auto; discriminate|]. apply (contains_more d); auto. apply lattice_point_length.
    + tauto.
    + intros Hin Hc. split; auto. apply (Hcov n r); auto. discriminate.
Qed.

(** The sites of a honeycomb-like lattice (two atoms on a skewed basis) in a box and in a disc. *)
Example C33_example :
  let R := [[0; 0]; [1#2; 1#3]]%Q in
  valid_basis skew /\
  (forall r, In r R -> length r = 2 /\ forall i, i < 2 -> (0 <= coordinate 2 (b_inv skew) r i < 2)%Q) /\
  (exists P, build_indices skew [1; 1]%Q R (ASize [1; 1]%Q) false None true None =
     Ok ([[0; 0; 0]; [0; 0; 1]; [0; 1; 0]; [1; 0; 0]]%Z, P)) /\
  well_formed 2 (SCircle [1; 1]%Q 1) /\
  (exists P, build_indices skew [1; 1]%Q R (AShape (SCircle [1; 1]%Q 1)) false None true None =
     Ok ([[0; 0; 1]; [0; 1; 0]; [0; 1; 1]; [0; 2; 0]; [1; 0; 0]; [1; 0; 1]; [1; 1; 0]]%Z, P)) /\
  let hull := SHull [[0; 0]; [4; 0]; [0; 3]]%Q [([-1; 0], 0); ([0; -1], 0); ([3 # 5; 4 # 5], - (12 # 5))]%Q in
  well_formed 2 hull /\
  (exists P, build_indices skew [1; 1]%Q R (AShape hull) false None true None =
     Ok ([[-1; 1; 1]; [-1; 2; 0]; [-1; 2; 1]; [0; 0; 0]; [0; 0; 1]; [0; 1; 0]; [0; 1; 1]; [0; 2; 0]; [1; 0; 0];
          [1; 0; 1]; [1; 1; 0]; [1; 1; 1]; [2; 0; 0]; [2; 0; 1]; [2; 1; 0]; [3; 0; 0]; [3; 0; 1]; [4; 0; 0]]%Z, P)).
Proof.
  cbv zeta. split; [exact skew_valid|]. split; [|split; [|split]].
  - intros r [<-|[<-|[]]]; (split; [reflexivity|]); intros [|[|i]] Hi; try lia; vm_compute; split; congruence.
  - eexists. vm_compute. reflexivity.
  - right. left. exists [1; 1]%Q. split; [reflexivity|]. left. eexists. reflexivity.
  - split; [eexists; vm_compute; reflexivity|]. split; [|eexists; vm_compute; reflexivity].
    right. right. eexists. eexists. split; [exact (proj1 C83_example)|reflexivity].
Qed.

Print Assumptions C30_check_points_box.
Print Assumptions C30_check_points_relative.
Print Assumptions C31_indices_and_positions_aligned.
Print Assumptions C31_filters_select.
Print Assumptions C31_no_atoms.
Print Assumptions C32_cells_cover_the_box.
Print Assumptions C32_no_wrap_near_the_origin.
Print Assumptions C32_no_wrap_nonnegative.
Print Assumptions C32_position_on_skewed_basis_refuted.
Print Assumptions C32_negative_row_refuted.
Print Assumptions C32_wide_box_refuted.
Print Assumptions C33_no_site_twice.
Print Assumptions C33_built_sites_of_a_box.
Print Assumptions C33_built_sites_of_a_shape.
