(** * Property C92 (lattpy/data.py: matrices built from the data map) *)
From Coq Require Import List ZArith QArith Bool Arith Lia Permutation Sorting.Sorted.
From Verif Require Import Np NpFacts LinAlg LinFacts UtilsModel SpecUtils UtilsProofs PropUtils NeighborCellProofs
  ShapeModel SpecSpatial ShapeProofs SpecStructure SpecNeighbors PropNeighbors
  DataModel SpecData DataFacts DataProofs DataOps DataAppend DataMapProofs DataInv PropData PropDataMap
  SpecBlock SpecFinite MatrixModel SpecMatrix.
Import ListNotations.
Open Scope nat_scope.

(** ** Sums *)

Lemma total_perm {T} (add : T -> T -> T) zero l l' : addition add zero -> Permutation l l' -> total add zero l = total add zero l'.
Proof.
  intros [Ha [Hc _]] P. unfold total. induction P; simpl; [reflexivity|rewrite IHP; reflexivity|rewrite !Ha, (Hc y x); reflexivity|congruence].
Qed.

Lemma total_app {T} (add : T -> T -> T) zero l l' : addition add zero ->
  total add zero (l ++ l') = add (total add zero l) (total add zero l').
Proof.
  intros [Ha [Hc Hz]]. unfold total. induction l as [|x l IH]; simpl; [symmetry; apply Hz|]. rewrite IH, Ha. reflexivity.
Qed.

(** ** Assignments *)

Definition label_value {T} (l : list (assignment T)) (zero : T) (x : Z) : T :=
  fold_left (fun v a => match a with
                        | Onsite None w => if (x <? 0)%Z then w else v
                        | Onsite (Some b) w => if (x =? - b - 1)%Z then w else v
                        | Hopping None w => if (0 <=? x)%Z then w else v
                        | Hopping (Some k) w => if (x =? k)%Z then w else v
                        end) l zero.

Lemma map2_map_map {A B C D} (f : B -> C -> D) (g : A -> B) (h : A -> C) l :
  map2 f (map g l) (map h l) = map (fun x => f (g x) (h x)) l.
Proof. induction l; simpl; congruence. Qed.

Lemma assign_all_labels {T} (zero : T) m l : length (dm_indices m) = length (dm_map m) ->
  assign_all m (dm_zeros zero m) l = map (label_value l zero) (dm_map m).
Proof.
  intro HL. unfold dm_zeros, dm_size. rewrite HL. clear HL.
  assert (repeat zero (length (dm_map m)) = map (label_value [] zero) (dm_map m)) as ->.
  { unfold label_value. simpl. induction (dm_map m); simpl; congruence. }
  unfold assign_all. induction l as [|a l IH] using rev_ind; [reflexivity|].
  rewrite fold_left_app, IH. cbn [fold_left].
  destruct a as [[b|] w|[b|] w]; cbn [assign dm_onsite dm_hopping]; unfold masked_set; rewrite map2_map_map;
    apply map_ext; intro x; unfold label_value at 2; rewrite fold_left_app; reflexivity.
Qed.

Lemma label_onsite {T} (zero : T) l alpha : (0 <= alpha)%Z -> Forall not_negative l ->
  label_value l zero (- alpha - 1) = onsite_value zero l alpha.
Proof.
  intros Ha. unfold label_value, onsite_value. revert zero. induction l as [|a l IH]; intros zero H; [reflexivity|].
  inversion H; subst. cbn [fold_left]. rewrite <- IH by assumption. f_equal.
  destruct a as [[b|] w|[b|] w]; cbn in H2.
  - destruct (Z.eqb_spec b alpha), (Z.eqb_spec (- alpha - 1) (- b - 1)); auto; lia.
  - rewrite (proj2 (Z.ltb_lt _ _)) by lia. reflexivity.
  - rewrite (proj2 (Z.eqb_neq _ _)) by lia. reflexivity.
  - rewrite (proj2 (Z.leb_gt _ _)) by lia. reflexivity.
Qed.

Lemma label_hopping {T} (zero : T) l k : Forall not_negative l ->
  label_value l zero (Z.of_nat k) = hopping_value zero l k.
Proof.
  unfold label_value, hopping_value. revert zero. induction l as [|a l IH]; intros zero H; [reflexivity|].
  inversion H; subst. cbn [fold_left]. rewrite <- IH by assumption. f_equal.
  destruct a as [[b|] w|[b|] w]; cbn in H2.
  - rewrite (proj2 (Z.eqb_neq _ _)) by lia. reflexivity.
  - rewrite (proj2 (Z.ltb_ge _ _)) by lia. reflexivity.
  - rewrite Z.eqb_sym. reflexivity.
  - rewrite (proj2 (Z.leb_le _ _)) by lia. reflexivity.
Qed.

(** ** Entries *)

Lemma filter_eqb_seq p n : filter (fun i => i =? p) (seq 0 n) = if p <? n then [p] else [].
Proof.
  induction n as [|n IH]; [reflexivity|]. rewrite seq_S, filter_app, IH. cbn [filter Nat.add].
  destruct (Nat.eqb_spec n p) as [E|E], (Nat.ltb_spec p n), (Nat.ltb_spec p (S n)); simpl; try rewrite E; auto; lia.
Qed.

Lemma combine_map_r {A B C} (f : B -> C) (l : list A) (m : list B) : combine l (map f m) = map (fun e => (fst e, f (snd e))) (combine l m).
Proof. revert m. induction l as [|x l IH]; intros [|y m]; simpl; auto. f_equal. apply IH. Qed.

Definition hits (i j : nat) {A} (e : nat * nat * A) : bool := (fst (fst e) =? i) && (snd (fst e) =? j).

Lemma diagonal_hits d i j : i < nsites d ->
  filter (hits i j) (diagonal d) = if i =? j then [(i, i, (- atom_of d i - 1)%Z)] else [].
Proof.
  intro Hi. unfold diagonal. rewrite map_filter_comm. unfold hits. cbn [fst snd].
  destruct (Nat.eqb_spec i j) as [->|E].
  - rewrite (filter_ext _ (fun x => x =? j)).
    + rewrite filter_eqb_seq, (proj2 (Nat.ltb_lt _ _) Hi). reflexivity.
    + intro x. destruct (x =? j); reflexivity.
  - rewrite filter_none; auto. intros x _. destruct (Nat.eqb_spec x i), (Nat.eqb_spec x j); auto; lia.
Qed.

Lemma hoppings_hits d i j : i < nsites d ->
  filter (hits i j) (hoppings d) =
  map (fun c => (i, j, Z.of_nat (di d i c))) (filter (fun c => nb d i c =? j) (valid_slots d i)).
Proof.
  intro Hi. unfold hoppings. rewrite filter_flat_map.
  assert (forall n, flat_map (fun x => filter (hits i j) (map (fun c => (x, nb d x c, Z.of_nat (di d x c))) (valid_slots d x))) (seq 0 n) =
    if i <? n then map (fun c => (i, j, Z.of_nat (di d i c))) (filter (fun c => nb d i c =? j) (valid_slots d i)) else []) as H.
  { induction n as [|n IH]; [reflexivity|]. rewrite seq_S, flat_map_app, IH. cbn [flat_map Nat.add]. rewrite app_nil_r, map_filter_comm.
    destruct (Nat.eq_dec n i) as [->|E].
    - rewrite Nat.ltb_irrefl, (proj2 (Nat.ltb_lt i (S i))) by lia. cbn [app].
      rewrite (filter_ext (fun c => hits i j (i, nb d i c, Z.of_nat (di d i c))) (fun c => nb d i c =? j)).
      + apply map_ext_in. intros c Hc. apply filter_In in Hc. destruct Hc as [_ Hc]. apply Nat.eqb_eq in Hc. rewrite Hc. reflexivity.
      + intro c. unfold hits. cbn [fst snd]. rewrite Nat.eqb_refl. reflexivity.
    - rewrite (filter_none (fun c => hits i j (n, nb d n c, Z.of_nat (di d n c)))).
      + cbn [map]. rewrite app_nil_r. destruct (Nat.ltb_spec i n), (Nat.ltb_spec i (S n)); auto; lia.
      + intros c _. unfold hits. cbn [fst snd]. rewrite (proj2 (Nat.eqb_neq n i) E). reflexivity. }
  rewrite H, (proj2 (Nat.ltb_lt _ _) Hi). reflexivity.
Qed.

(** The element that belongs to the sites [i] and [j]. *)
Definition element {T} (add : T -> T -> T) (zero : T) (l : list (assignment T)) (d : data) (i j : nat) : T :=
  add (if i =? j then onsite_value zero l (atom_of d i) else zero)
      (total add zero (map (fun c => hopping_value zero l (di d i c)) (filter (fun c => nb d i c =? j) (valid_slots d i)))).

Lemma labels_element {T} (add : T -> T -> T) zero l d es i j :
  addition add zero -> Forall not_negative l -> few_atoms d -> i < nsites d -> Permutation es (diagonal d ++ hoppings d) ->
  total add zero (map (fun e => label_value l zero (snd e)) (filter (hits i j) es)) = element add zero l d i j.
Proof.
  intros Hadd Hl Hfew Hi HP.
  rewrite (total_perm add zero _ _ Hadd (Permutation_map _ (Permutation_filter' _ _ _ HP))).
  rewrite filter_app, map_app, (total_app _ _ _ _ Hadd), diagonal_hits, hoppings_hits by assumption.
  unfold element. f_equal.
  - destruct (i =? j); simpl; auto. rewrite label_onsite by (auto; apply Hfew; auto).
    destruct Hadd as [_ [Hc Hz]]. rewrite Hc. apply Hz.
  - rewrite map_map. cbn [snd]. f_equal. apply map_ext. intro c. apply label_hopping. assumption.
Qed.

Lemma largest_le l x : In x l -> x <= largest l.
Proof. induction l as [|y l IH]; simpl; [easy|]. intros [->|H]; [lia|]. specialize (IH H). lia. Qed.
Lemma largest_lt l n : 0 < n -> (forall x, In x l -> x < n) -> largest l < n.
Proof. intro Hn. induction l as [|y l IH]; simpl; intro H; [lia|]. assert (y < n) by auto. assert (largest l < n) by (apply IH; auto). lia. Qed.
Lemma largest_all l n : 0 < n -> (forall x, In x l <-> x < n) -> S (largest l) = n.
Proof.
  intros Hn H. assert (largest l < n) by (apply largest_lt; auto; intros; apply H; auto).
  assert (n - 1 <= largest l) by (apply largest_le, H; lia). lia.
Qed.

Lemma fresh_map_bounds argsort d : is_argsort Nat.leb argsort -> wf_core d -> few_atoms d ->
  let m := fresh_map argsort d in
  (forall r, In r (dm_rows m) <-> r < nsites d) /\ (forall c, In c (dm_cols m) <-> c < nsites d).
Proof.
  intros Harg W Hfew m. destruct (fresh_map_spec argsort d Harg W Hfew) as [HL [_ HP]]. fold m in HL, HP.
  assert (forall e, In e (diagonal d ++ hoppings d) -> fst (fst e) < nsites d /\ snd (fst e) < nsites d) as HE.
  { intros e He. apply in_app_iff in He. destruct He as [He|He].
    - unfold diagonal in He. apply in_map_iff in He. destruct He as [i [<- Hi]]. apply in_seq in Hi. simpl. lia.
    - unfold hoppings in He. apply in_flat_map in He. destruct He as [i [Hi He]]. apply in_map_iff in He.
      destruct He as [c [<- Hc]]. apply in_seq in Hi. unfold valid_slots in Hc. apply filter_In in Hc. destruct Hc as [Hc Hv].
      apply in_seq in Hc. simpl. split; [lia|]. apply (wf_nb _ W); auto; lia. }
  assert (forall A (f : nat * nat -> A) x, In x (map f (dm_indices m)) <-> In x (map (fun e => f (fst e)) (diagonal d ++ hoppings d))) as HM.
  { intros A f x. replace (map f (dm_indices m)) with (map (fun e => f (fst e)) (entries m)).
    - split; apply Permutation_in; [|symmetry]; apply Permutation_map; exact HP.
    - unfold entries. rewrite <- (map_map fst f). f_equal. apply map_fst_combine. lia. }
  split; intro x; unfold dm_rows, dm_cols; rewrite HM; split.
  - intro H. apply in_map_iff in H. destruct H as [e [<- He]]. apply HE. auto.
  - intro H. rewrite map_app. apply in_app_iff. left. unfold diagonal. rewrite map_map. simpl. rewrite map_id. apply in_seq. lia.
  - intro H. apply in_map_iff in H. destruct H as [e [<- He]]. apply HE. auto.
  - intro H. rewrite map_app. apply in_app_iff. left. unfold diagonal. rewrite map_map. simpl. rewrite map_id. apply in_seq. lia.
Qed.

Lemma map_snd_hits {T} (F : Z -> T) (l : list (nat * nat)) (m : list Z) i j :
  map snd (filter (fun e => (fst (fst e) =? i) && (snd (fst e) =? j)) (combine l (map F m))) =
  map (fun e => F (snd e)) (filter (hits i j) (combine l m)).
Proof. rewrite combine_map_r, map_filter_comm, map_map. reflexivity. Qed.

Theorem C92_csr :
  forall {T} (add : T -> T -> T) zero argsort d l,
    addition add zero -> is_argsort Nat.leb argsort -> wf_core d -> few_atoms d -> d_dmap d = None -> 0 < nsites d ->
    Forall not_negative l ->
    let m := fst (data_map argsort d) in
    exists M, build_csr add zero m (assign_all m (dm_zeros zero m) l) None = Some M /\
      m_rows M = nsites d /\ m_cols M = nsites d /\
      forall i j, i < nsites d -> j < nsites d -> m_entry M i j =
        add (if i =? j then onsite_value zero l (atom_of d i) else zero)
            (fold_right add zero (map (fun c => hopping_value zero l (di d i c)) (filter (fun c => nb d i c =? j) (valid_slots d i)))).
Proof.
  intros T add zero argsort d l Hadd Harg W Hfew Hm HN Hl m. unfold m. rewrite data_map_fresh by assumption.
  destruct (fresh_map_spec argsort d Harg W Hfew) as [HL [_ HP]].
  destruct (fresh_map_bounds argsort d Harg W Hfew) as [HR HC]. set (m' := fresh_map argsort d) in *.
  unfold build_csr. rewrite assign_all_labels by exact HL. unfold csr_matrix.
  rewrite map_length, HL, Nat.eqb_refl. cbn [negb].
  assert (dm_indices m' <> []) as Hne.
  { intro E. assert (In 0 (dm_rows m')) as H0 by (apply HR; lia). unfold dm_rows in H0. rewrite E in H0. destruct H0. }
  fold (dm_rows m'). fold (dm_cols m'). rewrite (largest_all _ _ HN HR), (largest_all _ _ HN HC).
  destruct (dm_indices m') as [|e0 es] eqn:E; [congruence|]. rewrite <- E in *. clear e0 es E.
  rewrite (proj2 (forallb_forall _ _)).
  2:{ intros e He. apply andb_true_iff. split; apply Nat.ltb_lt; [apply HR|apply HC]; unfold dm_rows, dm_cols; apply in_map; auto. }
  eexists. split; [reflexivity|]. split; [reflexivity|]. split; [reflexivity|].
  intros i j Hi Hj. cbn [m_entry]. rewrite map_snd_hits. fold (entries m').
  apply labels_element; auto.
Qed.

(** ** Simple links *)

Lemma links_nb d i : map fst (links d i) = map (nb d i) (valid_slots d i).
Proof. unfold links. rewrite map_map. reflexivity. Qed.

Lemma NoDup_map_filter_one {A} (f : A -> nat) l j c : NoDup (map f l) -> In c l -> f c = j -> filter (fun x => f x =? j) l = [c].
Proof.
  induction l as [|x l IH]; intros Hnd Hin Hf; [destruct Hin|]. simpl in *. inversion Hnd; subst.
  destruct Hin as [->|Hin].
  - rewrite Nat.eqb_refl. f_equal. apply filter_none. intros y Hy. apply Nat.eqb_neq. intro E. apply H1. rewrite <- E. apply in_map. auto.
  - rewrite (proj2 (Nat.eqb_neq _ _)); auto. intro E. apply H1. rewrite E. apply in_map. auto.
Qed.

Lemma element_cases {T} (add : T -> T -> T) zero l d i j :
  addition add zero -> wf_core d -> simple_links d -> i < nsites d ->
  (i = j -> element add zero l d i j = onsite_value zero l (atom_of d i)) /\
  (forall k, In (j, nth k (d_distvals d) Inf) (links d i) -> k < d_invalid_distidx d -> element add zero l d i j = hopping_value zero l k) /\
  (i <> j -> ~ In j (map fst (links d i)) -> element add zero l d i j = zero).
Proof.
  intros Hadd W Hs Hi. destruct (Hs i Hi) as [Hnd Hself]. rewrite links_nb in Hnd, Hself. destruct Hadd as [Ha [Hc Hz]].
  assert (forall p, ~ In p (map (nb d i) (valid_slots d i)) -> filter (fun c => nb d i c =? p) (valid_slots d i) = []) as Hno.
  { intros p Hp. apply filter_none. intros c Hc'. apply Nat.eqb_neq. intro E. apply Hp. rewrite <- E. apply in_map. auto. }
  unfold element. split; [|split].
  - intros <-. rewrite Nat.eqb_refl, Hno by assumption. simpl. rewrite Hc. apply Hz.
  - intros k Hk Hlt. unfold links in Hk. apply in_map_iff in Hk. destruct Hk as [c [Ec Hcv]]. unfold link_at in Ec. injection Ec as E1 E2.
    rewrite (NoDup_map_filter_one (nb d i) _ j c Hnd Hcv E1). cbn [map total fold_right].
    rewrite (proj2 (Nat.eqb_neq i j)). 2:{ intro E. apply Hself. apply in_map_iff. exists c. split; [congruence|auto]. }
    rewrite Hz, Hc, Hz. f_equal.
    unfold valid_slots in Hcv. apply filter_In in Hcv. destruct Hcv as [Hcs Hv]. apply in_seq in Hcs.
    pose proof (inf_last _ _ (wf_distvals _ W) (wf_invalid _ W)) as Hl.
    pose proof (di_value d i c k W) as Hd. 
    apply Nat.eqb_eq. rewrite <- Hd by (auto; lia). rewrite E2. destruct (nth k (d_distvals d) Inf); simpl; auto. apply Z.eqb_refl.
  - intros Hne Hnot. rewrite links_nb in Hnot. rewrite Hno by assumption. rewrite (proj2 (Nat.eqb_neq i j) Hne). apply Hz.
Qed.

Theorem C92_hamiltonian :
  forall {T} (add : T -> T -> T) zero argsort d l,
    addition add zero -> is_argsort Nat.leb argsort -> wf_core d -> few_atoms d -> d_dmap d = None -> 0 < nsites d ->
    Forall not_negative l -> simple_links d ->
    let m := fst (data_map argsort d) in
    exists M, build_csr add zero m (assign_all m (dm_zeros zero m) l) None = Some M /\
      m_rows M = nsites d /\ m_cols M = nsites d /\
      (forall i, i < nsites d -> m_entry M i i = onsite_value zero l (atom_of d i)) /\
      (forall i j k, i < nsites d -> In (j, nth k (d_distvals d) Inf) (links d i) -> k < d_invalid_distidx d ->
         m_entry M i j = hopping_value zero l k) /\
      (forall i j, i < nsites d -> j < nsites d -> i <> j -> ~ In j (map fst (links d i)) -> m_entry M i j = zero) /\
      (mutual_links d -> forall i j, i < nsites d -> j < nsites d -> m_entry M i j = m_entry M j i).
Proof.
  intros T add zero argsort d l Hadd Harg W Hfew Hm HN Hl Hs m.
  destruct (C92_csr add zero argsort d l Hadd Harg W Hfew Hm HN Hl) as [M [E [E1 [E2 HM]]]].
  exists M. split; [exact E|]. split; [exact E1|]. split; [exact E2|].
  assert (forall i j, i < nsites d -> j < nsites d -> m_entry M i j = element add zero l d i j) as HM' by (intros; apply HM; auto).
  assert (forall i j x, i < nsites d -> In (j, x) (links d i) -> j < nsites d) as Hlt.
  { intros i j x Hi Hj. unfold links in Hj. apply in_map_iff in Hj. destruct Hj as [c [Ec Hc]]. unfold link_at in Ec. injection Ec as <- _.
    unfold valid_slots in Hc. apply filter_In in Hc. destruct Hc as [Hc Hv]. apply in_seq in Hc. apply (wf_nb _ W); auto; lia. }
  split; [|split; [|split]].
  - intros i Hi. rewrite HM' by assumption. apply element_cases; auto.
  - intros i j k Hi Hj Hk. rewrite HM' by eauto. apply element_cases; auto.
  - intros i j Hi Hj Hne Hno. rewrite HM' by assumption. apply element_cases; auto.
  - intros Hmut i j Hi Hj. rewrite !HM' by assumption. destruct (Nat.eq_dec i j) as [<-|Hne]; [reflexivity|].
    destruct (element_cases add zero l d i j Hadd W Hs Hi) as [_ [H1 H2]].
    destruct (element_cases add zero l d j i Hadd W Hs Hj) as [_ [H1' H2']].
    destruct (in_dec Nat.eq_dec j (map fst (links d i))) as [Hin|Hin].
    + apply in_map_iff in Hin. destruct Hin as [[j' x] [Ej Hx]]. cbn [fst] in Ej. subst j'.
      assert (exists k, x = nth k (d_distvals d) Inf /\ k < d_invalid_distidx d) as [k [-> Hk]].
      { unfold links in Hx. apply in_map_iff in Hx. destruct Hx as [c [Ec Hc]]. unfold link_at in Ec. injection Ec as _ <-.
        unfold valid_slots in Hc. apply filter_In in Hc. destruct Hc as [_ Hv]. exists (di d i c). split; auto.
        apply Nat.ltb_lt. exact Hv. }
      rewrite (H1 k), (H1' k); auto.
    + rewrite H2 by assumption. rewrite H2'; auto. intro Hin'. apply Hin.
      apply in_map_iff in Hin'. destruct Hin' as [[i' x] [Ej Hx]]. cbn [fst] in Ej. subst i'.
      apply in_map_iff. exists (j, x). auto.
Qed.

(** Sites of a finite lattice: the elements in terms of the positions of the sites. *)
Theorem C92_finite_lattice :
  forall {T} (add : T -> T -> T) zero argsort dim V R allowed d l,
    addition add zero -> is_argsort Nat.leb argsort -> finite_lattice dim V R allowed d -> few_atoms d -> d_dmap d = None ->
    0 < nsites d -> Forall not_negative l ->
    let m := fst (data_map argsort d) in
    let connected := connected_sites allowed (d_indices d) (d_positions d) in
    exists M, build_csr add zero m (assign_all m (dm_zeros zero m) l) None = Some M /\
      m_rows M = nsites d /\ m_cols M = nsites d /\
      (forall i, i < nsites d -> m_entry M i i = onsite_value zero l (atom_of d i)) /\
      (forall i j k, i < nsites d -> k < d_invalid_distidx d -> connected i j (nth k (d_distvals d) Inf) -> m_entry M i j = hopping_value zero l k) /\
      (forall i j, i < nsites d -> j < nsites d -> i <> j -> (forall x, ~ connected i j x) -> m_entry M i j = zero) /\
      ((forall a b x, a < length R -> b < length R -> allowed a b x -> allowed b a x) ->
        forall i j, i < nsites d -> j < nsites d -> m_entry M i j = m_entry M j i).
Proof.
  intros T add zero argsort dim V R allowed d l Hadd Harg F Hfew Hm HN Hl m connected. pose proof (fl_wf _ _ _ _ _ F) as W.
  assert (simple_links d) as Hs.
  { intros i Hi. destruct (fl_links _ _ _ _ _ F i Hi) as [Hnd H]. split; auto. intro Hin. apply in_map_iff in Hin.
    destruct Hin as [[i' x] [E Hx]]. cbn [fst] in E. subst i'. apply H in Hx. destruct Hx as [Hx _]. auto. }
  destruct (C92_hamiltonian add zero argsort d l Hadd Harg W Hfew Hm HN Hl Hs) as (M & E & E1 & E2 & H1 & H2 & H3 & H4).
  exists M. split; [exact E|]. split; [exact E1|]. split; [exact E2|]. split; [exact H1|]. split; [|split].
  - intros i j k Hi Hk Hc. apply H2; auto. apply (fl_links _ _ _ _ _ F i Hi). exact Hc.
  - intros i j Hi Hj Hne Hno. apply H3; auto. intro Hin. apply in_map_iff in Hin. destruct Hin as [[j' x] [E' Hx]]. cbn [fst] in E'. subst j'.
    apply (fl_links _ _ _ _ _ F i Hi) in Hx. apply (Hno x Hx).
  - intros Hsym. apply H4.
    assert (forall i, i < nsites d -> SpecNeighbors.atom_of (d_indices d) i < length R) as Hatom.
    { intros i Hi. destruct (fl_sites _ _ _ _ _ F i Hi) as [n [a [En [_ [Ha _]]]]]. unfold SpecNeighbors.atom_of.
      rewrite En, last_last, Nat2Z.id. exact Ha. }
    intros i j x Hi Hj Hx. apply (fl_links _ _ _ _ _ F j Hj). apply (fl_links _ _ _ _ _ F i Hi) in Hx.
    destruct Hx as [Hne [Hd Ha]]. split; auto. split; [|apply Hsym; [apply Hatom; auto..|exact Ha]]. destruct Hd as (p & q & z & Ep & Eq & Ez & Hr).
    exists q, p, z. split; auto. split; auto. split; auto. apply rounds_sqdist_sym; auto.
    destruct (wf_positions _ W) as [_ Hlen]. rewrite !Hlen; auto; eapply nth_error_In; eauto.
Qed.

(** ** The loop of the documentation *)

Lemma put_all {T} i (t : T) ns M p q :
  fold_left (fun M j => put M i j t) ns M p q = if (p =? i) && existsb (Nat.eqb q) ns then t else M p q.
Proof.
  revert M. induction ns as [|j ns IH]; intro M; cbn [fold_left existsb].
  - rewrite andb_false_r. reflexivity.
  - rewrite IH. unfold put. destruct (p =? i), (q =? j), (existsb (Nat.eqb q) ns); reflexivity.
Qed.

Lemma loop_spec {T} (zero : T) d eps t (ns : nat -> list nat) : (forall i, i < nsites d -> get_neighbors d i (Some 0) None false = Some (ns i)) ->
  (forall i, i < nsites d -> forall j, In j (ns i) -> j < nsites d) ->
  exists M, loop_matrix zero d eps t = Some M /\ m_rows M = nsites d /\ m_cols M = nsites d /\
    forall p q, p < nsites d -> m_entry M p q = if existsb (Nat.eqb q) (ns p) then t else if p =? q then eps else zero.
Proof.
  intros Hns Hb.
  assert (forall n, n <= nsites d -> exists M, fold_left (loop_row d eps t) (seq 0 n) (Some (fun _ _ => zero)) = Some M /\
    forall p q, M p q = if p <? n then (if existsb (Nat.eqb q) (ns p) then t else if p =? q then eps else zero) else zero) as H.
  { induction n as [|n IH]; intro Hn.
    - eexists. split; [reflexivity|]. intros p q. reflexivity.
    - destruct IH as [M [E HM]]; [lia|]. rewrite seq_S, fold_left_app, E. cbn [fold_left Nat.add loop_row].
      rewrite Hns by lia. rewrite (proj2 (forallb_forall _ _)).
      2:{ intros j Hj. apply Nat.ltb_lt. apply (Hb n); auto; lia. }
      eexists. split; [reflexivity|]. intros p q. rewrite put_all. unfold put. rewrite HM.
      destruct (Nat.eqb_spec p n) as [->|Hp].
      + rewrite (proj2 (Nat.ltb_lt n (S n))), Nat.ltb_irrefl by lia. rewrite (Nat.eqb_sym q n). cbn [andb]. reflexivity.
      + cbn [andb]. destruct (Nat.ltb_spec p n), (Nat.ltb_spec p (S n)); auto; lia. }
  destruct (H (nsites d) (le_n _)) as [M [E HM]]. unfold loop_matrix, num_sites. change (length (d_indices d)) with (nsites d). rewrite E.
  eexists. split; [reflexivity|]. split; [reflexivity|]. split; [reflexivity|]. intros p q Hp. cbn [m_entry]. rewrite HM.
  rewrite (proj2 (Nat.ltb_lt _ _) Hp). reflexivity.
Qed.

Theorem C92_same_as_loop :
  forall {T} (add : T -> T -> T) zero argsort d alpha eps t,
    addition add zero -> is_argsort Nat.leb argsort -> wf_core d -> few_atoms d -> d_dmap d = None -> 0 < nsites d -> simple_links d ->
    (* there is a distance between neighbours *)
    0 < d_invalid_distidx d ->
    alpha = None \/ (alpha = Some 0%Z /\ forall i, i < nsites d -> atom_of d i = 0%Z) ->
    let m := fst (data_map argsort d) in
    exists M M', build_csr add zero m (assign_all m (dm_zeros zero m) [Onsite alpha eps; Hopping (Some 0%Z) t]) None = Some M /\
      loop_matrix zero d eps t = Some M' /\ toarray M = toarray M'.
Proof.
  intros T add zero argsort d alpha eps t Hadd Harg W Hfew Hm HN Hs Hinv Halpha m.
  set (l := [Onsite alpha eps; Hopping (Some 0%Z) t]).
  assert (Forall not_negative l) as Hl.
  { constructor; [|constructor; [cbn; lia|constructor]]. destruct Halpha as [->|[-> _]]; cbn; auto; lia. }
  destruct (C92_hamiltonian add zero argsort d l Hadd Harg W Hfew Hm HN Hl Hs) as (M & E & E1 & E2 & H1 & H2 & H3 & _).
  set (ns := fun i => map (nb d i) (filter (selects d i (Some 0) None false) (seq 0 (d_cols d)))).
  assert (forall i c, i < nsites d -> c < d_cols d -> selects d i (Some 0) None false c = true -> valid d i c = true /\ di d i c = 0) as Hsel.
  { intros i c Hi Hc H. unfold selects in H. rewrite !andb_true_r in H. apply Nat.eqb_eq in H. unfold valid. rewrite H.
    split; auto. apply Nat.ltb_lt. exact Hinv. }
  assert (forall i, i < nsites d -> forall j, In j (ns i) -> In (j, nth 0 (d_distvals d) Inf) (links d i)) as Hin.
  { intros i Hi j Hj. unfold ns in Hj. apply in_map_iff in Hj. destruct Hj as [c [<- Hc]]. apply filter_In in Hc. destruct Hc as [Hc Hsl].
    apply in_seq in Hc. destruct (Hsel i c Hi ltac:(lia) Hsl) as [Hv Hd]. unfold links. apply in_map_iff. exists c.
    unfold link_at. rewrite Hd. split; auto. unfold valid_slots. apply filter_In. split; auto. apply in_seq. lia. }
  destruct (loop_spec zero d eps t ns) as (M' & E' & E1' & E2' & H').
  { intros i Hi. apply get_neighbors_core; auto. }
  { intros i Hi j Hj. unfold ns in Hj. apply in_map_iff in Hj. destruct Hj as [c [<- Hc]]. apply filter_In in Hc. destruct Hc as [Hc Hsl].
    apply in_seq in Hc. apply (wf_nb _ W); auto; try lia. apply Hsel; auto; lia. }
  exists M, M'. split; [exact E|]. split; [exact E'|]. unfold toarray. rewrite E1, E2, E1', E2'.
  apply map_ext_in_seq. intros i _ Hi. apply map_ext_in_seq. intros j _ Hj. rewrite H' by lia.
  destruct (existsb (Nat.eqb j) (ns i)) eqn:Ex.
  - apply existsb_exists in Ex. destruct Ex as [j' [Hj' Ej]]. apply Nat.eqb_eq in Ej. subst j'.
    rewrite (H2 i j 0); auto; lia.
  - destruct (Nat.eqb_spec i j) as [<-|Hne].
    + rewrite H1 by lia. unfold l, onsite_value. cbn [fold_left]. destruct Halpha as [->|[-> Ha]]; auto. rewrite Ha by lia. reflexivity.
    + destruct (in_dec Nat.eq_dec j (map fst (links d i))) as [Hj'|Hj'].
      * apply in_map_iff in Hj'. destruct Hj' as [[j' x] [Ej Hx]]. cbn [fst] in Ej. subst j'.
        pose proof Hx as Hx'. unfold links in Hx. apply in_map_iff in Hx. destruct Hx as [c [Ec Hc]]. unfold link_at in Ec. injection Ec as Enb Ex'.
        unfold valid_slots in Hc. apply filter_In in Hc. destruct Hc as [Hc Hv]. pose proof Hv as Hv'. unfold valid in Hv'. apply Nat.ltb_lt in Hv'.
        rewrite <- Ex' in Hx'. rewrite (H2 i j (di d i c)); auto.
        unfold l, hopping_value. cbn [fold_left]. destruct (Z.eqb_spec 0 (Z.of_nat (di d i c))) as [E0|E0]; auto.
        exfalso. assert (existsb (Nat.eqb j) (ns i) = true) as Hex; [|congruence]. apply existsb_exists. exists j. split; [|apply Nat.eqb_refl].
        unfold ns. apply in_map_iff. exists c. split; auto. apply filter_In. split; auto. unfold selects. rewrite !andb_true_r. apply Nat.eqb_eq. lia.
      * apply H3; auto; lia.
Qed.

(** ** Blocks *)

Lemma filter_seq_nth {A} (x : A) (p : A -> bool) l :
  map (fun k => nth k l x) (filter (fun k => p (nth k l x)) (seq 0 (length l))) = filter p l.
Proof.
  rewrite <- (map_filter_comm (fun k => nth k l x) p).
  assert (map (fun k => nth k l x) (seq 0 (length l)) = l) as ->; [|reflexivity].
  rewrite <- (map_seq_nth x l 0) at 2. apply map_ext_in_seq. intros k _ _. rewrite Nat.sub_0_r. reflexivity.
Qed.

(** The blocks of one block row are those entries of the compressed rows that lie in it. *)
Lemma csr_row {A} (x : A) indices indptr (values : list A) r c : r < length indptr - 1 ->
  map (fun k => nth k values x) (filter (fun k => nth k indices 0 =? c)
    (seq (nth r indptr 0) (nth (S r) indptr 0 - nth r indptr 0))) =
  map snd (filter (hits r c) (csr_entries x indices indptr values)).
Proof.
  intro Hr. unfold csr_entries. set (N := length indptr - 1) in *. clearbody N. rewrite filter_flat_map.
  assert (forall n, n <= N -> map snd (flat_map (fun r' => filter (hits r c) (map (fun k => (r', nth k indices 0, nth k values x))
     (seq (nth r' indptr 0) (nth (S r') indptr 0 - nth r' indptr 0)))) (seq 0 n)) =
    if r <? n then map (fun k => nth k values x) (filter (fun k => nth k indices 0 =? c)
    (seq (nth r indptr 0) (nth (S r) indptr 0 - nth r indptr 0))) else []) as H.
  { induction n as [|n IH]; intro Hn; [reflexivity|]. rewrite seq_S, flat_map_app, map_app, IH by lia. cbn [flat_map Nat.add].
    rewrite app_nil_r, map_filter_comm, map_map. cbn [snd].
    destruct (Nat.eq_dec n r) as [->|E].
    - rewrite Nat.ltb_irrefl, (proj2 (Nat.ltb_lt r (S r))) by lia. cbn [app]. f_equal. apply filter_ext. intro k.
      unfold hits. cbn [fst snd]. rewrite Nat.eqb_refl. reflexivity.
    - rewrite (filter_none (fun k => hits r c (n, nth k indices 0, nth k values x))).
      + cbn [map]. rewrite app_nil_r. destruct (Nat.ltb_spec r n), (Nat.ltb_spec r (S n)); auto; lia.
      + intros k _. unfold hits. cbn [fst snd]. rewrite (proj2 (Nat.eqb_neq n r) E). reflexivity. }
  rewrite (H N (le_n _)), (proj2 (Nat.ltb_lt _ _) Hr). reflexivity.
Qed.

Lemma assign_all_blocks {T} (zero : T) norb m l : length (dm_indices m) = length (dm_map m) ->
  assign_all m (dm_zeros_orbitals zero m norb) l = map (label_value l (repeat (repeat zero norb) norb)) (dm_map m).
Proof. intro H. apply (assign_all_labels (repeat (repeat zero norb) norb) m l H). Qed.

Definition on_values {T U} (f : T -> U) (a : assignment T) : assignment U :=
  match a with Onsite alpha v => Onsite alpha (f v) | Hopping k v => Hopping k (f v) end.

Lemma values_of {T U} (f : T -> U) l z :
  (forall x, label_value (map (on_values f) l) (f z) x = f (label_value l z x)) /\
  (forall a, onsite_value (f z) (map (on_values f) l) a = f (onsite_value z l a)) /\
  (forall k, hopping_value (f z) (map (on_values f) l) k = f (hopping_value z l k)).
Proof.
  assert (forall (g : T -> assignment T -> T) (h : U -> assignment U -> U), (forall v a, h (f v) (on_values f a) = f (g v a)) ->
    forall l z, fold_left h (map (on_values f) l) (f z) = f (fold_left g l z)) as H.
  { intros g h H l0. induction l0 as [|a l0 IH]; intro z0; [reflexivity|]. cbn [map fold_left]. rewrite H. apply IH. }
  unfold label_value, onsite_value, hopping_value.
  split; [intro x|split; [intro al|intro k]]; apply H; intros v [[b|] w|[b|] w]; cbn [on_values];
    try match goal with |- context [if ?c then _ else _] => destruct c end; reflexivity.
Qed.

Lemma not_negative_values {T U} (f : T -> U) l : Forall not_negative l -> Forall not_negative (map (on_values f) l).
Proof. intro H. apply Forall_map. eapply Forall_impl; [|exact H]. intros [[b|] v|[b|] v]; auto. Qed.

Lemma nth_repeat_lt {A} (x y : A) n k : k < n -> nth k (repeat x n) y = x.
Proof. revert k. induction n as [|n IH]; intros [|k] H; simpl; auto; try lia. apply IH. lia. Qed.

(** [build_bsr] for arrays filled with square blocks of size [norb]: the block that belongs to the sites [i] and [j]. *)
Theorem C92_bsr :
  forall {T} (add : T -> T -> T) zero norb argsort d (l : list (assignment (list (list T)))),
    addition add zero -> is_argsort Nat.leb argsort -> wf_core d -> few_atoms d -> d_dmap d = None -> 0 < nsites d -> 0 < norb ->
    Forall not_negative l ->
    let m := fst (data_map argsort d) in
    let zeros := repeat (repeat zero norb) norb in
    let at_ (a b : nat) (X : list (list T)) := nth b (nth a X []) zero in
    exists M, build_bsr add zero norb m (assign_all m (dm_zeros_orbitals zero m norb) l) = Some M /\
      m_rows M = nsites d * norb /\ m_cols M = nsites d * norb /\
      (forall i j a b, i < nsites d -> j < nsites d -> a < norb -> b < norb ->
        m_entry M (i * norb + a) (j * norb + b) =
        add (if i =? j then at_ a b (onsite_value zeros l (atom_of d i)) else zero)
            (fold_right add zero (map (fun c => at_ a b (hopping_value zeros l (di d i c))) (filter (fun c => nb d i c =? j) (valid_slots d i))))) /\
      (simple_links d -> forall i j a b, i < nsites d -> j < nsites d -> a < norb -> b < norb ->
        (i = j -> m_entry M (i * norb + a) (j * norb + b) = at_ a b (onsite_value zeros l (atom_of d i))) /\
        (forall k, In (j, nth k (d_distvals d) Inf) (links d i) -> k < d_invalid_distidx d ->
           m_entry M (i * norb + a) (j * norb + b) = at_ a b (hopping_value zeros l k)) /\
        (i <> j -> ~ In j (map fst (links d i)) -> m_entry M (i * norb + a) (j * norb + b) = zero)).
Proof.
  intros T add zero norb argsort d l Hadd Harg W Hfew Hm HN Hnorb Hl m zeros at_.
  pose proof (data_map_fresh argsort d Hm) as Ef. fold m in Ef.
  destruct (fresh_map_spec argsort d Harg W Hfew) as [HL [_ HP]].
  destruct (fresh_map_bounds argsort d Harg W Hfew) as [HR HC]. rewrite <- Ef in HL, HP, HR, HC.
  set (values := assign_all m (dm_zeros_orbitals zero m norb) l).
  assert (values = map (label_value l zeros) (dm_map m)) as Ev by (apply assign_all_blocks; exact HL).
  assert (length values = dm_size m) as Lv by (rewrite Ev, map_length; unfold dm_size; lia).
  pose proof (C49_csr_equals_coo [] argsort d values Harg W Hfew Hm Lv) as H49. fold m in H49.
  unfold build_bsr. destruct (indices_indptr m) as [indices indptr] eqn:Ei. destruct H49 as [Hp [Hi Hc]].
  assert (combine (dm_rows m) (dm_cols m) = dm_indices m) as Ec.
  { unfold dm_rows, dm_cols. rewrite combine_map. rewrite <- (map_id (dm_indices m)) at 2. apply map_ext. intros [x y]. reflexivity. }
  rewrite Ec in Hc.
  assert (forall c, In c indices <-> c < nsites d) as HI.
  { assert (map (fun e => snd (fst e)) (csr_entries [] indices indptr values) = dm_cols m) as E1.
    { rewrite Hc. rewrite <- (map_map fst snd), map_fst_combine by exact (eq_sym Lv). reflexivity. }
    intro c. rewrite <- HC. rewrite <- E1. unfold indices_indptr in Ei.
    rewrite (unique_rows_all _ _ HR), (indptr_fold m (nsites d)) in Ei.
    - injection Ei as <- _. rewrite E1.
      rewrite filter_all; [reflexivity|]. intros p Hp'. apply Nat.ltb_lt. apply HR. unfold dm_rows. apply in_map. exact Hp'.
    - rewrite Ef. apply fresh_map_spec; auto. }
  unfold bsr_matrix. rewrite Lv, Hi, Nat.eqb_refl. cbn [negb].
  rewrite (largest_all _ _ HN HI).
  destruct indices as [|c0 cs] eqn:E0; [exfalso; apply (HI 0); exact HN|]. rewrite <- E0 in *. clear c0 cs E0.
  eexists. split; [reflexivity|]. split; [cbn [m_rows]; f_equal; lia|]. split; [reflexivity|].
  assert (forall i j a b, i < nsites d -> j < nsites d -> a < norb -> b < norb ->
    forall M, M = mkMatrix ((length indptr - 1) * norb) (nsites d * norb) (fun p q =>
                let first := nth (p / norb) indptr 0 in
                total add zero (map (fun k => block_entry zero values k (p mod norb) (q mod norb))
                  (filter (fun k => nth k indices 0 =? q / norb) (seq first (nth (S (p / norb)) indptr 0 - first))))) ->
    m_entry M (i * norb + a) (j * norb + b) = element add zero (map (on_values (at_ a b)) l) d i j) as H.
  { intros i j a b Hi' Hj Ha Hb M ->. cbn [m_entry].
    assert (forall i a, a < norb -> (i * norb + a) / norb = i /\ (i * norb + a) mod norb = a) as Hdm.
    { intros i0 a0 Ha0. rewrite (Nat.add_comm _ a0). split.
      - rewrite Nat.div_add, Nat.div_small by lia. reflexivity.
      - rewrite Nat.mod_add, Nat.mod_small by lia. reflexivity. }
    destruct (Hdm i a Ha) as [-> ->]. destruct (Hdm j b Hb) as [-> ->]. cbv zeta.
    change (fun k => block_entry zero values k a b) with (fun k => at_ a b (nth k values [])).
    rewrite <- (map_map (fun k => nth k values []) (at_ a b)). rewrite csr_row by lia. rewrite Hc, Ev.
    rewrite combine_map_r, map_filter_comm, map_map. cbn [snd]. rewrite map_map.
    rewrite <- (labels_element add zero (map (on_values (at_ a b)) l) d (entries m) i j); auto.
    - unfold entries. f_equal.
      rewrite (filter_ext (fun x => hits i j (fst x, label_value l zeros (snd x))) (hits i j)) by reflexivity.
      apply map_ext. intro e. cbn [snd].
      rewrite <- (proj1 (values_of (at_ a b) l zeros)). f_equal.
      unfold at_, zeros. rewrite nth_repeat_lt by assumption. apply nth_repeat.
    - apply not_negative_values. exact Hl. }
  assert (forall a b, a < norb -> b < norb -> at_ a b zeros = zero) as Hz.
  { intros a b Ha Hb. unfold at_, zeros. rewrite nth_repeat_lt by assumption. apply nth_repeat. }
  split.
  - intros i j a b Hi' Hj Ha Hb. match goal with |- context [m_entry ?M _ _] => rewrite (H i j a b Hi' Hj Ha Hb M eq_refl) end. unfold element, total.
    destruct (values_of (at_ a b) l zeros) as [_ [V1 V2]]. rewrite (Hz a b Ha Hb) in V1, V2. rewrite V1. do 2 f_equal.
    apply map_ext. intro c. apply V2.
  - intros Hs i j a b Hi' Hj Ha Hb. match goal with |- context [m_entry ?M _ _] => rewrite (H i j a b Hi' Hj Ha Hb M eq_refl) end.
    destruct (values_of (at_ a b) l zeros) as [_ [V1 V2]]. rewrite (Hz a b Ha Hb) in V1, V2.
    destruct (element_cases add zero (map (on_values (at_ a b)) l) d i j Hadd W Hs Hi') as [H1 [H2 H3]].
    split; [|split].
    + intro E. rewrite H1, V1 by assumption. reflexivity.
    + intros k Hk Hlt. rewrite (H2 k) by assumption. apply V2.
    + exact H3.
Qed.

(** The argument [shape]: room for all sites is needed, further rows and columns are zero.  The lengths must agree. *)
Theorem C92_errors :
  forall {T} (add : T -> T -> T) zero argsort d (values : list T) (blocks : list (list (list T))) norb r c,
    is_argsort Nat.leb argsort -> wf_core d -> few_atoms d -> d_dmap d = None -> 0 < nsites d ->
    let m := fst (data_map argsort d) in
    (forall shape, length values <> dm_size m -> build_csr add zero m values shape = None) /\
    (length blocks <> dm_size m -> build_bsr add zero norb m blocks = None) /\
    (length values = dm_size m ->
       (r < nsites d \/ c < nsites d -> build_csr add zero m values (Some (r, c)) = None) /\
       (nsites d <= r -> nsites d <= c ->
          exists M M', build_csr add zero m values None = Some M /\ build_csr add zero m values (Some (r, c)) = Some M' /\
            m_rows M' = r /\ m_cols M' = c /\
            (forall i j, i < nsites d -> j < nsites d -> m_entry M' i j = m_entry M i j) /\
            (forall i j, nsites d <= i \/ nsites d <= j -> m_entry M' i j = zero))).
Proof.
  intros T add zero argsort d values blocks norb r c Harg W Hfew Hm HN m.
  pose proof (data_map_fresh argsort d Hm) as Ef. fold m in Ef.
  destruct (fresh_map_spec argsort d Harg W Hfew) as [HL [_ _]].
  destruct (fresh_map_bounds argsort d Harg W Hfew) as [HR HC]. rewrite <- Ef in HL, HR, HC.
  split; [|split].
  - intros shape Hne. unfold build_csr, csr_matrix. fold (dm_size m). rewrite (proj2 (Nat.eqb_neq _ _) Hne). reflexivity.
  - intro Hne. unfold build_bsr. assert (length (repeat ([] : list (list T)) (dm_size m)) = dm_size m) as Hv by apply repeat_length.
    pose proof (C49_csr_equals_coo [] argsort d _ Harg W Hfew Hm Hv) as H49. fold m in H49.
    destruct (indices_indptr m) as [indices indptr]. destruct H49 as [_ [Hi _]].
    unfold bsr_matrix. rewrite Hi, (proj2 (Nat.eqb_neq _ _) Hne). reflexivity.
  - intro Hlen. unfold build_csr, csr_matrix. fold (dm_size m). rewrite Hlen, Nat.eqb_refl. cbn [negb].
    fold (dm_rows m). fold (dm_cols m).
    assert (forall r' c', forallb (fun e : nat * nat => (fst e <? r') && (snd e <? c')) (dm_indices m) = true <-> nsites d <= r' /\ nsites d <= c') as Hall.
    { intros r' c'. rewrite forallb_forall. split.
      - intro H. assert (forall x, x < nsites d -> x < r') as H1.
        { intros x Hx. apply HR in Hx. unfold dm_rows in Hx. apply in_map_iff in Hx. destruct Hx as [e [<- He]]. apply H in He. apply andb_true_iff in He. apply Nat.ltb_lt, He. }
        assert (forall x, x < nsites d -> x < c') as H2.
        { intros x Hx. apply HC in Hx. unfold dm_cols in Hx. apply in_map_iff in Hx. destruct Hx as [e [<- He]]. apply H in He. apply andb_true_iff in He. apply Nat.ltb_lt, He. }
        specialize (H1 (nsites d - 1)). specialize (H2 (nsites d - 1)). lia.
      - intros [H1 H2] e He. assert (fst e < nsites d) by (apply HR; unfold dm_rows; apply in_map; auto).
        assert (snd e < nsites d) by (apply HC; unfold dm_cols; apply in_map; auto).
        apply andb_true_iff. split; apply Nat.ltb_lt; lia. }
    split.
    + intro Hsmall. destruct (forallb _ (dm_indices m)) eqn:E; [|reflexivity]. apply Hall in E. lia.
    + intros Hr Hc. rewrite (largest_all _ _ HN HR), (largest_all _ _ HN HC).
      rewrite (proj2 (Hall r c)) by auto.
      assert (dm_indices m <> []) as Hne.
      { intro E. assert (In 0 (dm_rows m)) as H0 by (apply HR; lia). unfold dm_rows in H0. rewrite E in H0. destruct H0. }
      exists (mkMatrix (nsites d) (nsites d) (fun i j => total add zero (map snd (filter (fun e => (fst (fst e) =? i) && (snd (fst e) =? j)) (combine (dm_indices m) values))))).
      eexists. split; [|split; [reflexivity|]].
      { destruct (dm_indices m) as [|e0 es] eqn:E0; [congruence|]. rewrite <- E0 in *. rewrite (proj2 (Hall (nsites d) (nsites d))) by auto. reflexivity. }
      split; [reflexivity|]. split; [reflexivity|]. split; [reflexivity|].
      intros i j Hij. cbn [m_entry]. rewrite filter_none; [reflexivity|]. intros [[x y] v] He. apply in_combine_l in He. cbn [fst snd].
      assert (x < nsites d) by (apply HR; unfold dm_rows; apply in_map_iff; exists (x, y); auto).
      assert (y < nsites d) by (apply HC; unfold dm_cols; apply in_map_iff; exists (x, y); auto).
      apply andb_false_iff. rewrite !Nat.eqb_neq. lia.
Qed.

(** ** Examples *)

Lemma Z_addition : addition Z.add 0%Z.
Proof. repeat split; intros; lia. Qed.

Lemma chain3_few : few_atoms chain3.
Proof. intros i Hi. unfold nsites in Hi. simpl in Hi. destruct i as [|[|[|]]]; try lia; vm_compute; intuition discriminate. Qed.

Lemma chain3_simple : simple_links chain3 /\ mutual_links chain3.
Proof.
  assert (links chain3 0 = [(1, Fin 1000000)] /\ links chain3 1 = [(0, Fin 1000000); (2, Fin 1000000)] /\ links chain3 2 = [(1, Fin 1000000)]) as (E0 & E1 & E2) by (vm_compute; auto).
  split.
  - intros i Hi. unfold nsites in Hi. simpl in Hi. destruct i as [|[|[|]]]; try lia; rewrite ?E0, ?E1, ?E2; cbn [map fst];
      (split; [repeat constructor; cbn; intuition lia|cbn; intuition lia]).
  - intros i j x Hi Hj. unfold nsites in Hi, Hj. simpl in Hi, Hj. destruct i as [|[|[|]]], j as [|[|[|]]]; try lia; rewrite ?E0, ?E1, ?E2; cbn; intuition congruence.
Qed.

(** Later assignments override earlier ones. *)
Example C92_csr_example :
  addition Z.add 0%Z /\ is_argsort Nat.leb nat_argsort /\ wf_core chain3 /\ few_atoms chain3 /\ d_dmap chain3 = None /\ 0 < nsites chain3 /\
  simple_links chain3 /\ mutual_links chain3 /\
  let m := fst (data_map nat_argsort chain3) in
  Forall not_negative [Onsite (Some 0) 7; Onsite None 2; Hopping (Some 0) 1]%Z /\
  option_map toarray (build_csr Z.add 0%Z m (assign_all m (dm_zeros 0%Z m) [Onsite (Some 0) 7; Onsite None 2; Hopping (Some 0) 1]%Z) None) =
    Some [[2; 1; 0]; [1; 2; 1]; [0; 1; 2]]%Z /\
  option_map toarray (loop_matrix 0%Z chain3 2%Z 1%Z) = Some [[2; 1; 0]; [1; 2; 1]; [0; 1; 2]]%Z.
Proof.
  split; [apply Z_addition|]. split; [apply nat_argsort_ok|]. split; [apply chain3_wf|]. split; [apply chain3_few|].
  split; [reflexivity|]. split; [vm_compute; lia|]. split; [apply chain3_simple|]. split; [apply chain3_simple|].
  split; [repeat constructor; cbn; lia|]. split; vm_compute; reflexivity.
Qed.

(** Two sites linked twice, at two distances: both values are added. *)
Definition pair2 : data :=
  mkData 1 2 [[0; 0]; [1; 0]]%Z [[0]; [1]]%Q [[1; 1]; [0; 0]] [[0; 1]; [0; 1]] [Fin 1000000; Fin 2000000; Inf]
    [[false; true]; [false; true]] [[[0%Z]; [1%Z]]; [[0%Z]; [-1]%Z]] [[[0]; [1]]; [[0]; [1]]] 2 2 None.

Lemma pair2_wf : wf_core pair2.
Proof.
  constructor.
  1-4: split; [reflexivity|]; simpl; intuition (subst; reflexivity).
  - reflexivity.
  - unfold increasing. cbn [d_distvals pair2]. repeat (apply SSorted_cons || apply SSorted_nil || apply Forall_cons || apply Forall_nil); split; (reflexivity || discriminate).
  - reflexivity.
  - intros i c Hi Hc. unfold nsites in Hi. simpl in Hi, Hc. destruct i as [|[|]]; try lia; destruct c as [|[|]]; try lia; vm_compute; lia.
  - intros i c Hi Hc _. unfold nsites in *. simpl in *. destruct i as [|[|]]; try lia; destruct c as [|[|]]; try lia; vm_compute; lia.
Qed.

Example C92_twice_example :
  wf_core pair2 /\ few_atoms pair2 /\ d_dmap pair2 = None /\ 0 < nsites pair2 /\
  let m := fst (data_map nat_argsort pair2) in
  option_map toarray (build_csr Z.add 0%Z m (assign_all m (dm_zeros 0%Z m) [Onsite None 2; Hopping (Some 0) 3; Hopping (Some 1) 10]%Z) None) =
    Some [[2; 13]; [13; 2]]%Z /\
  option_map toarray (build_bsr Z.add 0%Z 1 m (assign_all m (dm_zeros_orbitals 0%Z m 1) [Onsite None [[2]]; Hopping (Some 0) [[3]]; Hopping (Some 1) [[10]]]%Z)) =
    Some [[2; 13]; [13; 2]]%Z.
Proof.
  split; [apply pair2_wf|]. split.
  { intros i Hi. unfold nsites in Hi. simpl in Hi. destruct i as [|[|]]; try lia; vm_compute; intuition discriminate. }
  split; [reflexivity|]. split; [vm_compute; lia|]. split; vm_compute; reflexivity.
Qed.

Example C92_bsr_example :
  let m := fst (data_map nat_argsort chain3) in
  option_map toarray (build_bsr Z.add 0%Z 2 m (assign_all m (dm_zeros_orbitals 0%Z m 2)
      [Onsite None [[5; 6]; [6; 7]]; Hopping None [[1; 2]; [3; 4]]]%Z)) =
    Some [[5; 6; 1; 2; 0; 0]; [6; 7; 3; 4; 0; 0]; [1; 2; 5; 6; 1; 2]; [3; 4; 6; 7; 3; 4]; [0; 0; 1; 2; 5; 6]; [0; 0; 3; 4; 6; 7]]%Z.
Proof. vm_compute. reflexivity. Qed.

Example C92_errors_example :
  let m := fst (data_map nat_argsort chain3) in
  dm_size m = 7 /\ build_csr Z.add 0%Z m [1; 2]%Z None = None /\ build_csr Z.add 0%Z m [1; 2; 3; 4; 5; 6; 7]%Z (Some (2, 3)) = None /\
  option_map toarray (build_csr Z.add 0%Z m [1; 2; 3; 4; 5; 6; 7]%Z (Some (3, 4))) = Some [[1; 2; 0; 0]; [4; 3; 5; 0]; [0; 7; 6; 0]]%Z /\
  build_bsr Z.add 0%Z 1 m [[[1]]]%Z = None.
Proof. vm_compute. auto. Qed.

(** A negative number of an atom stands for neighbours, a negative distance index for atoms. *)
Theorem C92_negative_refuted :
  let m := fst (data_map nat_argsort chain3) in
  option_map toarray (build_csr Z.add 0%Z m (assign_all m (dm_zeros 0%Z m) [Onsite (Some (-1)) 2]%Z) None) =
    Some [[0; 2; 0]; [2; 0; 2]; [0; 2; 0]]%Z /\
  option_map toarray (build_csr Z.add 0%Z m (assign_all m (dm_zeros 0%Z m) [Hopping (Some (-1)) 2]%Z) None) =
    Some [[2; 0; 0]; [0; 2; 0]; [0; 0; 2]]%Z.
Proof. vm_compute. auto. Qed.

Print Assumptions C92_csr.
Print Assumptions C92_hamiltonian.
Print Assumptions C92_finite_lattice.
Print Assumptions C92_same_as_loop.
Print Assumptions C92_bsr.
Print Assumptions C92_errors.
Print Assumptions C92_negative_refuted.
