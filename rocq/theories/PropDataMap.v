(** * Properties C47-C52 and C68 (lattpy/data.py: selection of sites, data map, histories) *)
From Coq Require Import List ZArith QArith Bool Arith Lia Permutation Sorting.Sorted.
From Verif Require Import Np NpFacts LinAlg LinFacts UtilsModel SpecUtils UtilsProofs PropUtils NeighborCellProofs
  ShapeModel SpecSpatial ShapeProofs
  DataModel SpecData DataFacts DataProofs DataOps DataAppend DataMapProofs DataInv PropData.
Import ListNotations.
Open Scope nat_scope.

(** ** C47: selection of sites *)

(** The bound along an axis, if there is one. *)
Definition bound (b : option (list (option Q))) (ax : nat) : option Q :=
  match b with None => None | Some l => nth ax l None end.

Definition in_box (d : data) (mins maxs : option (list (option Q))) (p : vec) : Prop :=
  forall ax, ax < d_dim d ->
    (forall lo, bound mins ax = Some lo -> (lo <= nth ax p 0)%Q) /\
    (forall hi, bound maxs ax = Some hi -> (nth ax p 0 <= hi)%Q).

Lemma nth_app_repeat_None (m : list (option Q)) n ax : nth ax (m ++ repeat None n) None = nth ax m None.
Proof.
  destruct (Nat.lt_ge_cases ax (length m)) as [H|H].
  - apply app_nth1. auto.
  - rewrite app_nth2, (nth_overflow m) by lia. apply nth_repeat.
Qed.

Lemma site_mask_spec d mins maxs invert i p : nth_error (d_positions d) i = Some p ->
  exists b, nth_error (site_mask d mins maxs invert) i = Some b /\
    (b = true <-> (if invert then ~ in_box d mins maxs p else in_box d mins maxs p)).
Proof.
  intro Hp. unfold site_mask.
  match goal with |- context [map ?g (d_positions d)] => set (f := g) end.
  assert (f p = true <-> in_box d mins maxs p) as Hf.
  { unfold f. rewrite forallb_forall. unfold in_box. split.
    - intros H ax Hax. specialize (H ax). rewrite in_seq in H. specialize (H ltac:(lia)).
      apply andb_true_iff in H. destruct H as [H1 H2]. split.
      + intros lo Hlo. destruct mins as [m|]; [|discriminate]. simpl in Hlo.
        rewrite nth_app_repeat_None, Hlo in H1. apply Qle_bool_iff. exact H1.
      + intros hi Hhi. destruct maxs as [m|]; [|discriminate]. simpl in Hhi.
        rewrite nth_app_repeat_None, Hhi in H2. apply Qle_bool_iff. exact H2.
    - intros H ax Hax. apply in_seq in Hax. destruct (H ax ltac:(lia)) as [H1 H2]. apply andb_true_iff. split.
      + destruct mins as [m|]; [rewrite nth_app_repeat_None|rewrite nth_repeat; reflexivity].
        unfold bound in H1. destruct (nth ax m None) as [lo|]; auto. apply Qle_bool_iff. auto.
      + destruct maxs as [m|]; [rewrite nth_app_repeat_None|rewrite nth_repeat; reflexivity].
        unfold bound in H2. destruct (nth ax m None) as [hi|]; auto. apply Qle_bool_iff. auto. }
  exists (if invert then negb (f p) else f p). destruct invert.
  - split; [apply (map_nth_error negb), (map_nth_error f); exact Hp|]. rewrite <- Hf, negb_true_iff.
    destruct (f p); intuition congruence.
  - split; [apply (map_nth_error f); exact Hp|]. exact Hf.
Qed.

Lemma site_mask_length d mins maxs invert : length (site_mask d mins maxs invert) = length (d_positions d).
Proof. unfold site_mask. destruct invert; rewrite ?map_length; reflexivity. Qed.

Theorem C47_find_sites :
  forall d mins maxs invert,
    let r := find_sites d mins maxs invert in
    StronglySorted lt r /\
    forall i, In i r <-> exists p, nth_error (d_positions d) i = Some p /\
      (if invert then ~ in_box d mins maxs p else in_box d mins maxs p).
Proof.
  intros d mins maxs invert r. split; [apply where_sorted|]. intro i. unfold r, find_sites. rewrite In_where. split.
  - intro H. assert (i < length (site_mask d mins maxs invert)) as L.
    { destruct (Nat.lt_ge_cases i (length (site_mask d mins maxs invert))) as [L|L]; auto.
      rewrite nth_overflow in H by assumption. discriminate. }
    rewrite site_mask_length in L.
    destruct (nth_error_lt _ _ L) as [p Hp]. exists p. split; auto.
    destruct (site_mask_spec d mins maxs invert i p Hp) as [b [Hb Hs]].
    rewrite (nth_of_nth_error _ _ false _ Hb) in H. apply Hs. exact H.
  - intros [p [Hp Hs]]. destruct (site_mask_spec d mins maxs invert i p Hp) as [b [Hb Hiff]].
    apply Hiff in Hs. rewrite (nth_of_nth_error _ _ false _ Hb). exact Hs.
Qed.

Theorem C47_find_outer_sites :
  forall d ax offset, wf_core d -> 0 < nsites d -> ax < d_dim d ->
    exists lo hi r,
      is_min (map (fun p => nth ax p 0%Q) (d_positions d)) lo /\
      is_max (map (fun p => nth ax p 0%Q) (d_positions d)) hi /\
      find_outer_sites d ax offset = Some r /\ StronglySorted lt r /\
      forall i, In i r <-> exists p, nth_error (d_positions d) i = Some p /\
        ((nth ax p 0 < lo + offset)%Q \/ (hi - offset < nth ax p 0)%Q).
Proof.
  intros d ax offset W Hn Hax. unfold find_outer_sites, get_limits.
  assert (length (point_limits (d_positions d)) = d_dim d) as L.
  { apply point_limits_length; [|apply W]. intro E. pose proof (proj1 (wf_positions _ W)) as L0.
    rewrite E in L0. simpl in L0. lia. }
  destruct (nth_error (point_limits (d_positions d)) ax) as [[lo hi]|] eqn:E.
  2:{ apply nth_error_None in E. lia. }
  destruct (point_limits_spec _ _ _ _ E) as [Hlo Hhi].
  set (bd := fun v : Q => set_nth ax (Some v) (repeat None (d_dim d))).
  exists lo, hi, (find_sites d (Some (bd (lo + offset)%Q)) (Some (bd (hi - offset)%Q)) true).
  split; [exact Hlo|]. split; [exact Hhi|]. split; [reflexivity|].
  destruct (C47_find_sites d (Some (bd (lo + offset)%Q)) (Some (bd (hi - offset)%Q)) true) as [Hs Hiff].
  split; [exact Hs|]. intro i. rewrite Hiff.
  assert (forall v a, a < d_dim d -> nth a (bd v) None = if a =? ax then Some v else None) as Hb.
  { intros v a Ha. unfold bd. rewrite nth_set_nth, repeat_length, (proj2 (Nat.ltb_lt a (d_dim d)) Ha), andb_true_r.
    destruct (a =? ax); auto. apply nth_repeat. }
  assert (forall p, in_box d (Some (bd (lo + offset)%Q)) (Some (bd (hi - offset)%Q)) p <->
            (lo + offset <= nth ax p 0 /\ nth ax p 0 <= hi - offset)%Q) as Hbox.
  { intro p. unfold in_box, bound. split.
    - intro H. destruct (H ax Hax) as [H1 H2]. rewrite !Hb, Nat.eqb_refl in * by assumption. auto.
    - intros [H1 H2] a Ha. rewrite !Hb by assumption. destruct (a =? ax) eqn:Ea.
      + apply Nat.eqb_eq in Ea. subst a. split; intros x Hx; assert (Some x = Some x) by reflexivity.
        * assert (x = (lo + offset)%Q) as -> by congruence. auto.
        * assert (x = (hi - offset)%Q) as -> by congruence. auto.
      + split; intros; discriminate. }
  split; intros [p [Hp Hx]]; exists p; (split; [exact Hp|]).
  - rewrite Hbox in Hx. destruct (Qlt_le_dec (nth ax p 0%Q) (lo + offset)%Q) as [H1|H1]; auto.
    destruct (Qlt_le_dec (hi - offset)%Q (nth ax p 0%Q)) as [H2|H2]; auto. exfalso. apply Hx. auto.
  - rewrite Hbox. intros [H1 H2]. destruct Hx as [Hx|Hx]; [apply (Qlt_not_le _ _ Hx H1)|apply (Qlt_not_le _ _ Hx H2)].
Qed.

Example C47_example :
  wf_core chain3 /\ find_sites chain3 (Some [Some (1 # 2)%Q]) None false = [1; 2] /\
  find_sites chain3 (Some [Some (1 # 2)%Q]) None true = [0] /\
  find_outer_sites chain3 0 (1 # 2) = Some [0; 2].
Proof. split; [apply chain3_wf|]. repeat split. Qed.

(** ** C68: sites by atom *)

(** Atom index of a site. *)
Definition atom_of (d : data) (i : nat) : Z := last (nth i (d_indices d) []) 0%Z.

Lemma get_positions_select d alpha : wf_core d ->
  get_positions d alpha =
  map (fun i => nth i (d_positions d) []) (filter (fun i => (atom_of d i =? alpha)%Z) (seq 0 (nsites d))).
Proof.
  intro W. unfold get_positions.
  assert (length (d_positions d) = nsites d) as Lp by apply W.
  rewrite (select_seq ([] : vec)) by (rewrite map_length; unfold nsites in Lp; lia). unfold vec in Lp |- *. rewrite Lp.
  f_equal. apply filter_ext_seq. intros i _ Hi. rewrite (nth_map_lt _ _ _ []) by (unfold nsites in Hi; lia).
  reflexivity.
Qed.

Theorem C68_get_positions :
  forall d alpha, wf_core d ->
    get_positions d alpha =
      map (fun i => nth i (d_positions d) []) (filter (fun i => (atom_of d i =? alpha)%Z) (seq 0 (nsites d))).
Proof. apply get_positions_select. Qed.

Theorem C68_partition :
  forall d alphas, wf_core d -> NoDup alphas -> (forall i, i < nsites d -> In (atom_of d i) alphas) ->
    Permutation (concat (map (get_positions d) alphas)) (d_positions d).
Proof.
  intros d alphas W Hnd Hcov.
  rewrite (map_ext _ (fun a => map (fun i => nth i (d_positions d) [])
    (filter (fun i => (atom_of d i =? a)%Z) (seq 0 (nsites d))))) by (intro; apply get_positions_select; auto).
  rewrite <- (map_map (fun a => filter (fun i => (atom_of d i =? a)%Z) (seq 0 (nsites d)))
    (map (fun i => nth i (d_positions d) []))), <- concat_map.
  assert (map (fun i => nth i (d_positions d) []) (seq 0 (nsites d)) = d_positions d) as Eall.
  { pose proof (map_seq_nth ([] : vec) (d_positions d) 0) as M.
    etransitivity; [|exact M]. rewrite <- (proj1 (wf_positions _ W)).
    apply map_ext. intro. rewrite Nat.sub_0_r. reflexivity. }
  etransitivity; [|apply eq_Permutation; exact Eall]. apply Permutation_map.
  assert (forall l, (forall i, In i l -> In (atom_of d i) alphas) ->
    Permutation (concat (map (fun a => filter (fun i => (atom_of d i =? a)%Z) l) alphas)) l) as H.
  { clear -Hnd. induction l as [|i l IH]; intro Hc.
    - apply eq_Permutation. clear. induction alphas; simpl; auto.
    - specialize (IH (fun j H => Hc j (or_intror H))). specialize (Hc i (or_introl eq_refl)). cbn [filter].
      apply in_split in Hc. destruct Hc as [a1 [a2 Ea]].
      rewrite Ea in Hnd. apply NoDup_remove in Hnd. destruct Hnd as [_ Hni].
      assert (forall l', ~ In (atom_of d i) l' ->
        map (fun a => if (atom_of d i =? a)%Z then i :: filter (fun j => (atom_of d j =? a)%Z) l
                      else filter (fun j => (atom_of d j =? a)%Z) l) l' =
        map (fun a => filter (fun j => (atom_of d j =? a)%Z) l) l') as Hs.
      { intros l' H. apply map_ext_in. intros a Ha. rewrite (proj2 (Z.eqb_neq (atom_of d i) a)); auto. congruence. }
      rewrite Ea in IH |- *. rewrite map_app, concat_app in IH |- *. cbn [map concat] in IH |- *. rewrite Z.eqb_refl.
      rewrite !Hs by (intro; apply Hni; apply in_or_app; auto).
      cbn [app]. rewrite <- Permutation_middle. constructor. exact IH. }
  apply H. intros i Hi. apply in_seq in Hi. apply Hcov. lia.
Qed.

Example C68_example :
  wf_core chain3 /\ get_positions chain3 0 = [[0]; [1]; [2]]%Q /\ get_positions chain3 1 = [].
Proof. split; [apply chain3_wf|]. split; reflexivity. Qed.

(** ** C48: the data map *)

(** Labelled entries the map should have: diagonal elements and neighbour pairs. *)
Definition diagonal (d : data) : list (nat * nat * Z) :=
  map (fun i => (i, i, (- atom_of d i - 1)%Z)) (seq 0 (nsites d)).
Definition hoppings (d : data) : list (nat * nat * Z) :=
  flat_map (fun i => map (fun c => (i, nb d i c, Z.of_nat (di d i c))) (valid_slots d i)) (seq 0 (nsites d)).

(** Not more than 128 atoms. *)
Definition few_atoms (d : data) : Prop := forall i, i < nsites d -> (0 <= atom_of d i < 128)%Z.

Lemma int8_small z : (0 <= z < 128)%Z -> int8 z = z.
Proof. intro H. unfold int8, wrap_signed. change (2 ^ (8 - 1))%Z with 128%Z. change (2 ^ 8)%Z with 256%Z.
  rewrite Z.mod_small by lia. lia. Qed.

(** A map computed from the current data. *)
Definition fresh_map (argsort : list nat -> list nat) (d : data) : datamap :=
  datamap_init argsort (map (fun ind => int8 (last ind 0%Z)) (d_indices d)) (fst (pair_table d)) (snd (pair_table d)).

Lemma data_map_fresh argsort d : d_dmap d = None -> fst (data_map argsort d) = fresh_map argsort d.
Proof. intro H. unfold data_map, fresh_map. rewrite H. destruct (pair_table d). reflexivity. Qed.

Lemma fresh_map_spec argsort d : is_argsort Nat.leb argsort -> wf_core d -> few_atoms d ->
  let m := fresh_map argsort d in
  length (dm_indices m) = length (dm_map m) /\ StronglySorted le (dm_rows m) /\
  Permutation (entries m) (diagonal d ++ hoppings d).
Proof.
  intros Harg W Hfew m. destruct (pair_table_spec d W) as [Ep Lp].
  destruct (datamap_init_spec argsort (map (fun ind => int8 (last ind 0%Z)) (d_indices d)) _ _ Harg Lp) as [H1 [H2 H3]].
  fold (fresh_map argsort d) in H1, H2, H3. fold m in H1, H2, H3. split; auto. split; auto.
  rewrite H3. apply eq_Permutation. f_equal.
  - unfold diagonal. rewrite map_length. apply map_ext_in. intros i Hi. apply in_seq in Hi.
    rewrite (nth_map_lt _ _ _ []) by (unfold nsites in Hi; lia). change (last (nth i (d_indices d) []) 0%Z) with (atom_of d i).
    rewrite int8_small; auto. apply Hfew. unfold nsites in *; lia.
  - rewrite Ep. unfold pair_list, hoppings. rewrite map_flat_map. apply flat_map_ext_in. intros i _. cbn beta.
    rewrite map_map. reflexivity.
Qed.

Lemma entries_select m (f : Z -> bool) : length (dm_indices m) = length (dm_map m) ->
  select (map f (dm_map m)) (dm_indices m) = map fst (filter (fun e => f (snd e)) (entries m)).
Proof. intro H. unfold entries. apply select_map_filter. exact H. Qed.

Lemma Permutation_filter' {A} (f : A -> bool) l m : Permutation l m -> Permutation (filter f l) (filter f m).
Proof.
  induction 1; simpl; auto.
  - destruct (f x); auto.
  - destruct (f x), (f y); auto. constructor.
  - etransitivity; eauto.
Qed.

Lemma diagonal_filter d (f : Z -> bool) :
  map fst (filter (fun e => f (snd e)) (diagonal d)) =
  map (fun i => (i, i)) (filter (fun i => f (- atom_of d i - 1)%Z) (seq 0 (nsites d))).
Proof. unfold diagonal. rewrite map_filter_comm, map_map. reflexivity. Qed.

Lemma hoppings_filter d (f : Z -> bool) :
  map fst (filter (fun e => f (snd e)) (hoppings d)) =
  flat_map (fun i => map (fun c => (i, nb d i c)) (filter (fun c => valid d i c && f (Z.of_nat (di d i c)))
    (seq 0 (d_cols d)))) (seq 0 (nsites d)).
Proof.
  unfold hoppings. rewrite filter_flat_map, map_flat_map. apply flat_map_ext_in. intros i _. cbn beta.
  rewrite map_filter_comm. unfold valid_slots. rewrite filter_filter, map_map. reflexivity.
Qed.

Lemma flat_map_nil_all {A B} (f : A -> list B) l : (forall x, In x l -> f x = []) -> flat_map f l = [].
Proof. induction l as [|x l IH]; intro H; simpl; auto. rewrite H by (left; auto). apply IH. intros; apply H; right; auto. Qed.

Theorem C48_entries :
  forall argsort d, is_argsort Nat.leb argsort -> wf_core d -> few_atoms d -> d_dmap d = None ->
    let m := fst (data_map argsort d) in
    length (dm_indices m) = length (dm_map m) /\ StronglySorted le (dm_rows m) /\
    Permutation (combine (dm_indices m) (dm_map m)) (diagonal d ++ hoppings d).
Proof.
  intros argsort d Harg W Hfew Hm m. unfold m. rewrite data_map_fresh by assumption. apply fresh_map_spec; auto.
Qed.

Theorem C48_masks :
  forall argsort d, is_argsort Nat.leb argsort -> wf_core d -> few_atoms d -> d_dmap d = None ->
    let m := fst (data_map argsort d) in
    dm_hopping m None = map negb (dm_onsite m None) /\
    Permutation (select (dm_onsite m None) (dm_indices m)) (map (fun i => (i, i)) (seq 0 (nsites d))) /\
    Permutation (select (dm_hopping m None) (dm_indices m))
      (flat_map (fun i => map (fun l => (i, fst l)) (links d i)) (seq 0 (nsites d))) /\
    (forall a, (0 <= a)%Z -> Permutation (select (dm_onsite m (Some a)) (dm_indices m))
       (map (fun i => (i, i)) (filter (fun i => (atom_of d i =? a)%Z) (seq 0 (nsites d))))) /\
    (forall k, k < d_invalid_distidx d ->
       Permutation (select (dm_hopping m (Some (Z.of_nat k))) (dm_indices m))
         (flat_map (fun i => map (fun l => (i, fst l))
            (filter (fun l => deqb (snd l) (nth k (d_distvals d) Inf)) (links d i))) (seq 0 (nsites d)))).
Proof.
  intros argsort d Harg W Hfew Hm m. unfold m. rewrite data_map_fresh by assumption.
  destruct (fresh_map_spec argsort d Harg W Hfew) as [HL [HS HP]]. set (m' := fresh_map argsort d) in *.
  assert (forall f, Permutation (select (map f (dm_map m')) (dm_indices m'))
            (map (fun i => (i, i)) (filter (fun i => f (- atom_of d i - 1)%Z) (seq 0 (nsites d))) ++
             flat_map (fun i => map (fun c => (i, nb d i c)) (filter (fun c => valid d i c && f (Z.of_nat (di d i c)))
               (seq 0 (d_cols d)))) (seq 0 (nsites d)))) as G.
  { intro f. rewrite entries_select by assumption.
    rewrite <- diagonal_filter, <- hoppings_filter, <- map_app, <- filter_app.
    apply Permutation_map, Permutation_filter'. exact HP. }
  split; [|split; [|split; [|split]]].
  - unfold dm_hopping, dm_onsite. rewrite map_map. apply map_ext. intro x. apply Z.leb_antisym.
  - unfold dm_onsite. rewrite G.
    rewrite filter_all.
    2:{ intros i Hi. apply in_seq in Hi. specialize (Hfew i ltac:(lia)). apply Z.ltb_lt. lia. }
    rewrite flat_map_nil_all; [rewrite app_nil_r; reflexivity|].
    intros i _. rewrite filter_none; auto. intros c _. apply andb_false_iff. right. apply Z.ltb_ge. lia.
  - unfold dm_hopping. rewrite G.
    rewrite filter_none.
    2:{ intros i Hi. apply in_seq in Hi. specialize (Hfew i ltac:(lia)). apply Z.leb_gt. lia. }
    apply eq_Permutation. cbn [map app]. apply flat_map_ext_in. intros i _. unfold links, valid_slots.
    rewrite map_map. cbn [fst link_at]. f_equal. apply filter_ext. intro c.
    rewrite (proj2 (Z.leb_le 0 _)) by lia. apply andb_true_r.
  - intros a Ha. unfold dm_onsite. rewrite G.
    rewrite (flat_map_nil_all (fun i => map _ _)).
    + rewrite app_nil_r. apply eq_Permutation. f_equal. apply filter_ext. intro i.
      destruct (Z.eqb_spec (atom_of d i) a) as [E|E]; [apply Z.eqb_eq; lia|apply Z.eqb_neq; lia].
    + intros i _. rewrite filter_none; auto. intros c _. apply andb_false_iff. right. apply Z.eqb_neq. lia.
  - intros k Hk. unfold dm_hopping. rewrite G.
    pose proof (inf_last _ _ (wf_distvals _ W) (wf_invalid _ W)) as Hl.
    rewrite filter_none.
    2:{ intros i Hi. apply in_seq in Hi. specialize (Hfew i ltac:(lia)). apply Z.eqb_neq. lia. }
    apply eq_Permutation. cbn [map app]. apply flat_map_ext_in. intros i Hi. apply in_seq in Hi.
    unfold links, valid_slots. rewrite map_filter_comm, filter_filter, map_map. cbn [fst snd link_at]. f_equal.
    apply filter_ext_seq. intros c _ Hc. rewrite di_value by (auto; lia). f_equal.
    destruct (di d i c =? k) eqn:E; [apply Nat.eqb_eq in E; apply Z.eqb_eq; lia|].
    apply Nat.eqb_neq in E. apply Z.eqb_neq. lia.
Qed.

Definition nat_argsort : list nat -> list nat := argsort_stable Nat.leb 0.
Lemma nat_argsort_ok : is_argsort Nat.leb nat_argsort.
Proof. apply stable_is_argsort; intros; rewrite ?Nat.leb_le in *; lia. Qed.

Example C48_example :
  is_argsort Nat.leb nat_argsort /\ wf_core chain3 /\ few_atoms chain3 /\ d_dmap chain3 = None /\
  dm_indices (fst (data_map nat_argsort chain3)) = [(0, 0); (0, 1); (1, 1); (1, 0); (1, 2); (2, 2); (2, 1)] /\
  dm_map (fst (data_map nat_argsort chain3)) = [-1; 0; -1; 0; 0; -1; 0]%Z.
Proof.
  split; [apply nat_argsort_ok|]. split; [apply chain3_wf|]. split; [|repeat split].
  intros i Hi. unfold nsites in Hi. simpl in Hi. destruct i as [|[|[|]]]; try lia; vm_compute; intuition discriminate.
Qed.

(** Atoms with an index above 127 wrap around: the diagonal element is taken for a hopping. *)
Theorem C48_many_atoms_refuted :
  exists d, data_set [[0; 128]; [0; 0]]%Z [[0]; [1]]%Q [[2]; [2]] [[Inf]; [Inf]] = Some d /\
    dm_hopping (fst (data_map nat_argsort d)) None = [true; false].
Proof. eexists. split; reflexivity. Qed.

(** ** C49: compressed rows *)

Lemma map_fst_combine {A B} (l : list A) (m : list B) : length l = length m -> map fst (combine l m) = l.
Proof. revert m. induction l as [|x l IH]; intros [|y m] H; simpl in *; try lia; auto. f_equal. apply IH. lia. Qed.

Theorem C49_csr_equals_coo :
  forall {A} (x : A) argsort d values, is_argsort Nat.leb argsort -> wf_core d -> few_atoms d -> d_dmap d = None ->
    let m := fst (data_map argsort d) in
    length values = dm_size m ->
    let (indices, indptr) := indices_indptr m in
    length indptr = S (nsites d) /\ length indices = dm_size m /\
    csr_entries x indices indptr values = combine (combine (dm_rows m) (dm_cols m)) values.
Proof.
  intros A x argsort d values Harg W Hfew Hm m Hv. unfold m in *. rewrite data_map_fresh in * by assumption.
  destruct (fresh_map_spec argsort d Harg W Hfew) as [HL [HS HP]]. set (m' := fresh_map argsort d) in *.
  assert (forall r, In r (dm_rows m') <-> r < nsites d) as Hr.
  { intro r. unfold dm_rows.
    assert (map fst (dm_indices m') = map (fun e => fst (fst e)) (entries m')) as ->.
    { unfold entries. rewrite <- (map_map fst fst). f_equal. symmetry. apply map_fst_combine. lia. }
    assert (In r (map (fun e : nat * nat * Z => fst (fst e)) (entries m')) <->
            In r (map (fun e : nat * nat * Z => fst (fst e)) (diagonal d ++ hoppings d))) as ->.
    { split; apply Permutation_in; [|symmetry]; apply Permutation_map; exact HP. }
    rewrite map_app, in_app_iff. split.
    - intros [H|H]; apply in_map_iff in H; destruct H as [e [<- He]].
      + unfold diagonal in He. apply in_map_iff in He. destruct He as [i [<- Hi]]. apply in_seq in Hi. simpl. lia.
      + unfold hoppings in He. apply in_flat_map in He. destruct He as [i [Hi He]]. apply in_map_iff in He.
        destruct He as [c [<- _]]. apply in_seq in Hi. simpl. lia.
    - intro H. left. unfold diagonal. rewrite map_map. simpl. rewrite map_id. apply in_seq. lia. }
  pose proof (csr_spec x m' (nsites d) values HS Hr Hv) as Hc.
  unfold indices_indptr in Hc |- *. rewrite (unique_rows_all _ (nsites d)) in Hc |- * by exact Hr.
  rewrite (indptr_fold m' (nsites d) HS) in Hc |- *. split; [rewrite map_length, seq_length; reflexivity|].
  split; [|exact Hc].
  rewrite map_length, filter_all; auto.
  intros p Hp. apply Nat.ltb_lt. apply Hr. unfold dm_rows. apply in_map. exact Hp.
Qed.

Example C49_example :
  indices_indptr (fst (data_map nat_argsort chain3)) = ([0; 1; 1; 0; 2; 2; 1], [0; 2; 5; 7]) /\
  csr_entries 0 [0; 1; 1; 0; 2; 2; 1] [0; 2; 5; 7] [10; 1; 20; 2; 3; 30; 4] =
    [(0, 0, 10); (0, 1, 1); (1, 1, 20); (1, 0, 2); (1, 2, 3); (2, 2, 30); (2, 1, 4)].
Proof. split; reflexivity. Qed.

(** ** C50: the cached map *)

Definition map_current (d : data) : Prop :=
  forall m, d_dmap d = Some m -> Permutation (combine (dm_indices m) (dm_map m)) (diagonal d ++ hoppings d).

Theorem C50_current :
  forall argsort d, is_argsort Nat.leb argsort -> wf_core d -> few_atoms d -> map_current d ->
    Permutation (combine (dm_indices (fst (data_map argsort d))) (dm_map (fst (data_map argsort d))))
      (diagonal d ++ hoppings d) /\
    map_current (snd (data_map argsort d)) /\ fst (data_map argsort (snd (data_map argsort d))) = fst (data_map argsort d).
Proof.
  intros argsort d Harg W Hfew Hc. destruct (d_dmap d) as [m|] eqn:E.
  - unfold data_map at 1 2 3 4 5 6. rewrite E. cbn [fst snd]. split; [apply Hc; auto|]. split; [exact Hc|].
    unfold data_map. rewrite E. reflexivity.
  - destruct (C48_entries argsort d Harg W Hfew E) as [_ [_ HP]]. split; [exact HP|].
    unfold data_map in *. rewrite E in *. destruct (pair_table d) as [ps ds]. cbn [fst snd d_dmap] in *.
    split; [|reflexivity]. intros m' Hm'. cbn [d_dmap] in Hm'.
    assert (m' = datamap_init argsort (map (fun ind => int8 (last ind 0%Z)) (d_indices d)) ps ds) as -> by congruence.
    exact HP.
Qed.

Theorem C50_after_set :
  forall indices positions neighbors distances d,
    data_set indices positions neighbors distances = Some d -> map_current d.
Proof.
  intros indices positions neighbors distances d H m Hm. exfalso. unfold data_set in H.
  destruct (create_lookup_table2 dleb deqb distances) as [dv dx]. destruct (nat_max (concat dx)); [|discriminate].
  assert (d_dmap d = None) by (injection H as <-; reflexivity). congruence.
Qed.

Lemma set_periodic_loop_dmap es : forall d d', set_periodic_loop d es = Some d' -> d_dmap d' = d_dmap d.
Proof.
  induction es as [|[i pn] es IH]; intros d d' H; cbn [set_periodic_loop] in H; [congruence|].
  destruct (set_periodic_step d (i, pn)) as [d1|] eqn:E; [|discriminate].
  rewrite (IH _ _ H). unfold set_periodic_step in E.
  destruct (get_neighbors d i None (Some false) false); [|discriminate].
  repeat match type of E with (match ?t with _ => _ end) = _ => destruct t; try discriminate end.
  assert (forall a b : data, Some a = Some b -> b = a) as Hi by congruence.
  apply Hi in E. rewrite E. reflexivity.
Qed.

(** The operations that change the neighbours keep the cached map. *)
Theorem C50_cache_kept :
  forall argsort d m, d_dmap d = Some m ->
    (forall sites d', remove d sites = Some d' -> fst (data_map argsort d') = m) /\
    (forall ax idx rev d', sort d ax idx rev = Some d' -> fst (data_map argsort d') = m) /\
    (forall a, fst (data_map argsort (sort_neighbors a d)) = m) /\
    (forall i j v d', add_neighbor d i j v = Some d' -> fst (data_map argsort d') = m) /\
    (forall es d', set_periodic d es = Some d' -> fst (data_map argsort d') = m) /\
    (forall d', call_remove_periodic d = Some d' -> fst (data_map argsort d') = m).
Proof.
  intros argsort d m Hm.
  assert (forall d', d_dmap d' = d_dmap d -> fst (data_map argsort d') = m) as H.
  { intros d' E. unfold data_map. rewrite E, Hm. reflexivity. }
  assert (forall a b : data, Some a = Some b -> b = a) as Hi by congruence.
  split; [|split; [|split; [|split; [|split]]]].
  - intros sites d' E. apply H. unfold remove in E. destruct (forallb _ sites); [|discriminate].
    apply Hi in E. rewrite E. reflexivity.
  - intros ax idx rev d' E. apply H. unfold sort in E.
    destruct (match ax with Some a => _ | None => idx end); [|discriminate].
    destruct (forallb _ _) in E; [|discriminate]. apply Hi in E. rewrite E. reflexivity.
  - intro a. apply H. reflexivity.
  - intros i j v d' E. apply H. unfold add_neighbor in E. destruct (nth_error (d_distances d) i); [|discriminate].
    repeat match type of E with (match ?t with _ => _ end) = _ => destruct t; try discriminate end.
    apply Hi in E. rewrite E. reflexivity.
  - intros es d' E. apply H. unfold set_periodic, call_remove_periodic in E.
    destruct (length (d_pmask d) =? length (d_neighbors d)); [|discriminate].
    rewrite (set_periodic_loop_dmap _ _ _ E). reflexivity.
  - intros d' E. apply H. unfold call_remove_periodic in E.
    destruct (length (d_pmask d) =? length (d_neighbors d)); [|discriminate]. apply Hi in E. rewrite E. reflexivity.
Qed.

(** After the map has been requested once it is out of date: the ring has 6 neighbour pairs, the map has 4. *)
Theorem C50_stale_refuted :
  exists ring, set_periodic (snd (data_map nat_argsort chain3)) ring3_entries = Some ring /\
    length (hoppings ring) = 6 /\
    length (select (dm_hopping (fst (data_map nat_argsort ring)) None) (dm_indices (fst (data_map nat_argsort ring)))) = 4 /\
    ~ map_current ring.
Proof.
  apply ex_some. destruct (set_periodic (snd (data_map nat_argsort chain3)) ring3_entries) as [ring|] eqn:E;
    vm_compute in E; [|discriminate].
  assert (forall a b : data, Some a = Some b -> b = a) as Hi by congruence. apply Hi in E. subst ring.
  split; [vm_compute; reflexivity|]. split; [vm_compute; reflexivity|].
  intro H. specialize (H _ eq_refl). apply Permutation_length in H. vm_compute in H. discriminate.
Qed.

Example C50_example : wf_core chain3 /\ few_atoms chain3 /\ map_current chain3.
Proof.
  split; [apply chain3_wf|]. split; [|intros m H; discriminate].
  intros i Hi. unfold nsites in Hi. simpl in Hi. destruct i as [|[|[|]]]; try lia; vm_compute; intuition discriminate.
Qed.

(** ** C51: histories *)

Inductive op :=
  | OSort (ax : option nat) (indices : option (list nat)) (reverse : bool)
  | OSortNeighbors
  | OSetPeriodic (entries : list (nat * list pneighbor))
  | ORemovePeriodic
  | OAddNeighbor (site neighbor : nat) (distance : dist)
  | OMap.

Section Histories.
  Variable argsort_d : list dist -> list nat.
  Variable argsort_n : list nat -> list nat.

  Definition step (d : data) (o : op) : option data :=
    match o with
    | OSort ax idx r => sort d ax idx r
    | OSortNeighbors => Some (sort_neighbors argsort_d d)
    | OSetPeriodic es => set_periodic d es
    | ORemovePeriodic => call_remove_periodic d
    | OAddNeighbor i j v => add_neighbor d i j v
    | OMap => Some (snd (data_map argsort_n d))
    end.

  (** Arguments that name existing sites and known distances. *)
  Definition admissible (d : data) (o : op) : Prop :=
    match o with
    | OSort (Some a) _ _ => True
    | OSort None (Some idx) _ => Permutation idx (seq 0 (nsites d))
    | OSort None None _ => True
    | OSetPeriodic es => forall i pn, In (i, pn) es -> i < nsites d /\ Forall (pn_ok d) pn
    | OAddNeighbor i j v => i < nsites d /\ j < nsites d /\ In v (d_distvals d) /\ v <> Inf
    | _ => True
    end.

  Inductive reachable : data -> Prop :=
    | r_set indices positions neighbors distances n dim m values d :
        0 < n -> rect n (S dim) indices -> rect n dim positions -> rect n m neighbors -> rect n m distances ->
        In Inf (concat distances) -> incl (concat distances) values -> length values <= 256 ->
        (forall i c, i < n -> c < m -> cell Inf distances i c <> Inf -> cell 0 neighbors i c < n) ->
        data_set indices positions neighbors distances = Some d -> reachable d
    | r_step d o d' : reachable d -> admissible d o -> step d o = Some d' -> reachable d'
    | r_append d e d' w1 w2 w3 :
        reachable d -> reachable e -> d_dim e = d_dim d -> 0 < nsites d -> 0 < nsites e -> has_padding d e ->
        length (d_distvals d) + length (d_distvals e) <= 256 ->
        append_data argsort_d w1 w2 w3 d e = Some d' -> reachable d'.

  Hypothesis argsort_d_ok : is_argsort dleb argsort_d.

  Lemma step_wf d o d' : wf d -> admissible d o -> step d o = Some d' -> wf d'.
  Proof.
    intros W Ha H. destruct o as [ax idx r| |es| |i j v|]; cbn [step admissible] in *.
    - destruct ax as [a|].
      + destruct (Nat.le_gt_cases a (d_dim d)) as [Hle|Hgt].
        * destruct (sort_axis d a r Hle) as [idx' [HP [E _]]].
          destruct (C42_sort_axis d a r W Hle) as [idx2 [d2 [HP2 [E2 [E3 _]]]]].
          destruct (C42_sort_isomorphism d idx2 r W HP2) as [d3 [E4 [W3 _]]].
          assert (d' = d3) as ->; [|exact W3]. rewrite E3 in E4.
          assert (sort d (Some a) idx r = sort d (Some a) None r) as E5 by reflexivity. congruence.
        * unfold sort in H. rewrite (proj2 (Nat.ltb_ge a (S (d_dim d)))) in H by lia. discriminate.
      + destruct idx as [idx|]; [|discriminate].
        destruct (C42_sort_isomorphism d idx r W Ha) as [d3 [E4 [W3 _]]]. congruence.
    - assert (d' = sort_neighbors argsort_d d) as -> by congruence. apply sort_neighbors_wf; auto.
    - unfold set_periodic, call_remove_periodic in H.
      rewrite (proj1 (wf_pmask _ W)), (proj1 (wf_neighbors _ W)), Nat.eqb_refl in H.
      destruct (remove_periodic_spec d W) as [W0 _].
      exact (proj1 (set_periodic_loop_wf es (remove_periodic d) d' W0 Ha H)).
    - unfold call_remove_periodic in H. destruct (_ =? _) in H; [|discriminate].
      assert (d' = remove_periodic d) as -> by congruence. apply (remove_periodic_spec d W).
    - destruct Ha as [Hi [Hj [Hv Hinf]]]. destruct (add_neighbor_wf d i j v W Hi Hj Hv Hinf) as [d2 [E [W2 _]]].
      congruence.
    - unfold data_map in H. destruct (d_dmap d).
      + cbn [snd] in H. congruence.
      + destruct (pair_table d) as [ps ds]. cbn [snd] in H.
        assert (forall a b : data, Some a = Some b -> b = a) as Hi by congruence. apply Hi in H. subst d'.
        destruct W as [[] ? ? ? ? ? ?]. constructor; [constructor|..]; assumption.
  Qed.

  Lemma reachable_wf d : reachable d -> wf d.
  Proof.
    induction 1 as [indices positions neighbors distances n dim m values d Hn Ri Rp Rn Rd Hinf Hincl Hlen Hlt E
                   |d o d' _ IH Ha E|d e d' w1 w2 w3 _ IHd _ IHe Hdim Hd0 He0 Hpad Hlen E].
    - refine (proj1 (data_set_wf _ _ _ _ n dim m d Hn Ri Rp Rn Rd Hinf _ Hlt E)).
      destruct (create_lookup_table2 dleb deqb distances) as [vals ind] eqn:Et. simpl.
      destruct (C01_lookup_decodes_table dist dleb deqb dist_order dist_eq distances m vals ind Inf (proj2 Rd) Et)
        as [Hinc [Hval _]].
      apply Nat.le_trans with (length values); auto. apply NoDup_incl_length.
      + apply (strict_NoDup dleb). exact Hinc.
      + intros x Hx. apply Hincl. apply Hval in Hx. rewrite <- in_concat in Hx. auto.
    - eapply step_wf; eauto.
    - assert (0 < d_cols e) as Hc0.
      { destruct (d_cols e) as [|c] eqn:Ec; [|lia]. exfalso. unfold append_data, append in E.
        destruct (call_remove_periodic d); [|discriminate].
        assert (concat (d_neighbors e) = []) as Ez.
        { apply concat_nil_Forall. apply Forall_forall. intros r Hr.
          pose proof (proj2 (wf_neighbors _ IHe) r Hr) as L. rewrite Ec in L. destruct r; auto. discriminate. }
        rewrite Ez in E. discriminate. }
      destruct (C45_append_disjoint_union argsort_d w1 w2 w3 d e argsort_d_ok IHd IHe Hdim Hd0 He0 Hc0 Hpad Hlen)
        as [d2 [E2 [W2 _]]]. congruence.
  Qed.
End Histories.

Theorem C51_history_invariant :
  forall argsort_d argsort_n d, is_argsort dleb argsort_d -> reachable argsort_d argsort_n d -> wf d.
Proof. intros. eapply reachable_wf; eauto. Qed.

(** What it means for the queries. *)
Corollary C51_queries_total :
  forall argsort_d argsort_n d i k p u, is_argsort dleb argsort_d -> reachable argsort_d argsort_n d -> i < nsites d ->
    k <> Some (d_invalid_distidx d) ->
    exists l, get_neighbors d i k p u = Some l /\ forall j, In j l -> j < nsites d.
Proof.
  intros argsort_d argsort_n d i k p u Harg Hr Hi Hk. pose proof (reachable_wf _ _ Harg _ Hr) as W.
  rewrite get_neighbors_wf by assumption. eexists. split; [reflexivity|].
  intros j Hj. apply in_map_iff in Hj. destruct Hj as [c [<- Hc]]. apply filter_In in Hc. destruct Hc as [Hc Hs].
  apply in_seq in Hc. pose proof (wf_c _ W) as C. apply (wf_nb _ C); auto; try lia.
  unfold selects in Hs. apply andb_true_iff in Hs. destruct Hs as [Hs _].
  apply andb_true_iff in Hs. destruct Hs as [Hs _]. destruct k as [k|].
  - apply Nat.eqb_eq in Hs. rewrite valid_ne by (auto; lia). apply negb_true_iff, Nat.eqb_neq. congruence.
  - exact Hs.
Qed.

Example C51_example :
  exists ring d', reachable dist_argsort nat_argsort ring /\ set_periodic chain3 ring3_entries = Some ring /\
    reachable dist_argsort nat_argsort d' /\ nsites d' = 3.
Proof.
  assert (reachable dist_argsort nat_argsort chain3) as R0.
  { apply (r_set _ _ chain3_indices chain3_positions chain3_neighbors chain3_distances 3 1 2 [Fin 1000000; Inf]).
    - lia.
    - split; [reflexivity|]. simpl. intuition (subst; reflexivity).
    - split; [reflexivity|]. simpl. intuition (subst; reflexivity).
    - split; [reflexivity|]. simpl. intuition (subst; reflexivity).
    - split; [reflexivity|]. simpl. intuition (subst; reflexivity).
    - simpl. auto.
    - intros x Hx. simpl in *. intuition.
    - simpl. lia.
    - intros i c Hi Hc. destruct i as [|[|[|]]]; try lia; destruct c as [|[|]]; try lia;
        unfold cell; simpl; intro H; try lia; congruence.
    - exact chain3_set. }
  eexists. eexists. split; [|split; [reflexivity|]].
  - apply (r_step _ _ chain3 (OSetPeriodic ring3_entries)); [exact R0| |reflexivity].
    intros i pn [E|[E|[]]]; injection E as <- <-; (split; [unfold nsites; simpl; lia|]);
      repeat constructor; unfold nsites; simpl; try lia; try discriminate.
  - split.
    + eapply (r_step _ _ chain3 (OSort (Some 0) None true)); [exact R0|exact I|reflexivity].
    + reflexivity.
Qed.

(** ** C52: remove leaves the periodic tables of all old sites *)

Theorem C52_stale_after_remove :
  forall d sites s, wf d -> NoDup sites -> (forall t, In t sites -> t < nsites d) -> In s sites ->
    exists d', remove d sites = Some d' /\
      nsites d' + length sites = nsites d /\ d_pmask d' = d_pmask d /\ length (d_pmask d') = nsites d /\
      (* queries use the mask of the row of the same number before the removal *)
      (forall p b, p < nsites d' ->
         get_neighbors d' p None (Some b) false =
           Some (map (nb d' p) (filter (fun c => valid d' p c && Bool.eqb (pm d p c) b) (seq 0 (d_cols d))))) /\
      (* periodic boundary conditions and appending fail *)
      call_remove_periodic d' = None /\ (forall es, set_periodic d' es = None) /\
      (forall a w1 w2 w3 e, append_data a w1 w2 w3 d' e = None).
Proof.
  intros d sites s W Hnd Hlt Hs. pose proof (wf_c _ W) as C.
  destruct (remove_spec d sites _ C Hnd Hlt eq_refl) as
    (d' & E & Edim & Ecols & Eind & Epos & Edv & Einv & Eii & Rn & Rd & Epm & Env & Eax & Edm & H).
  set (kept := kept_sites (nsites d) sites) in *.
  assert (nsites d' = length kept) as En by (unfold nsites; rewrite Eind; apply map_length).
  assert (length kept + length sites = nsites d) as Hlen.
  { rewrite <- app_length, <- (seq_length (nsites d) 0). apply Permutation_length. symmetry.
    apply NoDup_Permutation.
    - apply seq_NoDup.
    - apply NoDup_app_intro; [apply NoDup_filter, seq_NoDup|auto|].
      intros x Hx Hx'. apply In_kept in Hx. tauto.
    - intro x. rewrite in_seq, in_app_iff. unfold kept. rewrite In_kept.
      destruct (in_dec Nat.eq_dec x sites) as [Hx|Hx].
      + split; auto. intros _. specialize (Hlt x Hx). lia.
      + split; [intro; left; split; auto; lia|]. intros [[Hx' _]|Hx']; [lia|tauto]. }
  assert (length sites <> 0) as Hs0 by (destruct sites; [destruct Hs|simpl; lia]).
  exists d'. split; auto. split; [lia|]. split; auto.
  assert (length (d_pmask d') = nsites d) as Lpm by (rewrite Epm; apply W).
  split; auto. split.
  - intros p b Hp. rewrite get_neighbors_gen.
    + f_equal. rewrite Ecols. f_equal. apply filter_ext. intro c. unfold selects. rewrite andb_true_r.
      unfold pm. rewrite Epm. reflexivity.
    + rewrite En, Ecols. exact Rn.
    + rewrite En, Ecols. exact Rd.
    + intros _. exists (nsites d). split; [lia|]. rewrite Ecols, Epm. apply W.
    + exact Hp.
  - assert (call_remove_periodic d' = None) as Hf.
    { unfold call_remove_periodic. rewrite Lpm, (proj1 Rn).
      rewrite (proj2 (Nat.eqb_neq (nsites d) (length kept))) by lia. reflexivity. }
    split; auto. split.
    + intro es. unfold set_periodic. rewrite Hf. reflexivity.
    + intros. unfold append_data, append. rewrite Hf. reflexivity.
Qed.

(** A ring of four sites, the first of which is removed: the query for periodic neighbours of the site that had none
    returns a regular neighbour. *)
Definition ring4_entries : list (nat * list pneighbor) :=
  [(0, [mkPN 3 (Fin 1000000) [1%Z] [0]]); (3, [mkPN 0 (Fin 1000000) [(-1)%Z] [0]])].
Definition ring4 : data := Eval vm_compute in match set_periodic chain4 ring4_entries with Some d => d | None => chain4 end.

Theorem C52_wrong_query_refuted :
  set_periodic chain4 ring4_entries = Some ring4 /\ get_neighbors ring4 1 None (Some true) false = Some [] /\
  exists d', remove ring4 [0] = Some d' /\
    get_neighbors d' 0 None (Some true) false = Some [1] /\ get_neighbors d' 0 None None false = Some [1].
Proof.
  split; [vm_compute; reflexivity|]. split; [reflexivity|]. apply ex_some. vm_compute. auto.
Qed.

Example C52_example :
  wf chain3 /\ NoDup [1] /\ exists d', remove chain3 [1] = Some d' /\ nsites d' = 2 /\ length (d_pmask d') = 3 /\
    set_periodic d' [] = None.
Proof.
  split; [apply chain3_wf|]. split; [repeat constructor; intros []|]. eexists. split; [reflexivity|]. repeat split.
Qed.

Print Assumptions C47_find_sites.
Print Assumptions C47_find_outer_sites.
Print Assumptions C68_get_positions.
Print Assumptions C68_partition.
Print Assumptions C48_entries.
Print Assumptions C48_masks.
Print Assumptions C48_many_atoms_refuted.
Print Assumptions C49_csr_equals_coo.
Print Assumptions C50_current.
Print Assumptions C50_after_set.
Print Assumptions C50_cache_kept.
Print Assumptions C50_stale_refuted.
Print Assumptions C51_history_invariant.
Print Assumptions C51_queries_total.
Print Assumptions C52_stale_after_remove.
Print Assumptions C52_wrong_query_refuted.
