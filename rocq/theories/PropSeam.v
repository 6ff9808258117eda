(** * Property C77 (lattpy/lattice.py: appending a lattice) *)
From Coq Require Import String List ZArith QArith Qround Bool Arith Lia Lqa Permutation.
From Verif Require Import Np NpFacts LinAlg LinFacts AtomModel BasisModel SpatialModel ShapeModel StructureModel DataModel
  SpecUtils SpecBasis SpecSpatial SpecStructure SpecNeighbors SpecBuild SpecData SpecLattice SpecSeam BasisProofs SpatialProofs KDProofs StructureFacts
  DataFacts DataOps DataProofs DataAppend DataInv PropData StructureProofs RangeProofs TranslationFacts AnalyzeProofs LatticeModel PropMinDist RepeatProofs KDBrute PropStructure PropBuild LatticeExamples LatticeFacts PropAnalyze PropRepeat SeamProofs.
Import ListNotations.
Open Scope nat_scope.
Open Scope list_scope.

(** ** Rounding up *)

Lemma sqrt_up_spec q z : (0 <= q)%Q -> (sqrt_up q <= z)%Z <-> root_below q (Fin z).
Proof.
  intro Hq. unfold sqrt_up, root_below. set (s := (q * (1000000000000 # 1))%Q). change (q * 1000000000000)%Q with s.
  assert (0 <= s)%Q as Hs by (unfold s; nra). pose proof (Qle_ceiling s) as C1. pose proof (Qceiling_lt s) as C2. set (c := Qceiling s) in *.
  assert (0 <= c)%Z as Hc. { rewrite Zle_Qle. change (inject_Z 0) with 0%Q. lra. }
  pose proof (Z.sqrt_spec c Hc) as [S1 S2]. pose proof (Z.sqrt_nonneg c) as S3. set (n := Z.sqrt c) in *.
  assert (forall m, (s <= inject_Z m)%Q <-> (c <= m)%Z) as HC.
  { intro m. split; intro H.
    - apply Z.lt_pred_le. rewrite Zlt_Qlt. unfold Z.pred. change (c + -1)%Z with (c - 1)%Z. lra.
    - rewrite Zle_Qle in H. lra. }
  destruct (Qle_bool s (inject_Z (n * n))) eqn:E.
  - apply Qle_bool_iff in E. split.
    + intro H. split; [lia|]. rewrite HC in *. nia.
    + intros [H1 H2]. rewrite HC in H2. nia.
  - assert (~ (c <= n * n)%Z) as E'. { rewrite <- HC, <- Qle_bool_iff, E. discriminate. }
    split.
    + intro H. split; [lia|]. rewrite HC. nia.
    + intros [H1 H2]. rewrite HC in H2. nia.
Qed.

Lemma dleb_sqrt_up q x : (0 <= q)%Q -> dleb (Fin (sqrt_up q)) x = true <-> root_below q x.
Proof.
  intro Hq. destruct x as [z|]; [|cbn; tauto]. rewrite <- (sqrt_up_spec q z Hq). cbn. apply Z.leb_le.
Qed.

(** ** The requested links *)

Definition requested (offset : nat) (pairs : list (nat * nat * Q)) : list (nat * nat * dist) :=
  flat_map (fun t => [(fst (fst t), snd (fst t) + offset, Fin (sqrt_up (snd t))); (snd (fst t) + offset, fst (fst t), Fin (sqrt_up (snd t)))]) pairs.

Lemma add_connecting_all offset pairs : forall d, add_connecting offset d pairs = add_all d (requested offset pairs).
Proof.
  induction pairs as [|[[i j] q] pairs IH]; intro d; cbn; auto. destruct (add_neighbor d i (j + offset) _) as [d1|]; auto.
  destruct (add_neighbor d1 (j + offset) i _) as [d2|]; auto.
Qed.

Lemma requested_at offset pairs i : (forall t, In t pairs -> fst (fst t) < offset) ->
  filter (at_site i) (requested offset pairs) =
  if i <? offset
  then map (fun t => (i, snd (fst t) + offset, Fin (sqrt_up (snd t)))) (filter (fun t => fst (fst t) =? i) pairs)
  else map (fun t => (i, fst (fst t), Fin (sqrt_up (snd t)))) (filter (fun t => snd (fst t) + offset =? i) pairs).
Proof.
  induction pairs as [|[[a b] q] pairs IH]; intro H; [destruct (i <? offset); reflexivity|].
  assert (a < offset) as Ha by (apply (H (a, b, q)); left; auto). specialize (IH ltac:(intros; apply H; right; auto)).
  transitivity ((if a =? i then [(a, b + offset, Fin (sqrt_up q))] else []) ++ (if b + offset =? i then [(b + offset, a, Fin (sqrt_up q))] else []) ++
    filter (at_site i) (requested offset pairs)).
  { change (requested offset ((a, b, q) :: pairs)) with ((a, b + offset, Fin (sqrt_up q)) :: (b + offset, a, Fin (sqrt_up q)) :: requested offset pairs).
    cbn [filter]. change (at_site i (a, b + offset, Fin (sqrt_up q))) with (a =? i). change (at_site i (b + offset, a, Fin (sqrt_up q))) with (b + offset =? i).
    destruct (a =? i), (b + offset =? i); reflexivity. }
  rewrite IH. destruct (Nat.ltb_spec i offset) as [Hi|Hi].
  - rewrite (proj2 (Nat.eqb_neq (b + offset) i)) by lia. cbn [filter fst]. destruct (Nat.eqb_spec a i) as [->|]; reflexivity.
  - rewrite (proj2 (Nat.eqb_neq a i)) by lia. cbn [filter fst snd]. destruct (Nat.eqb_spec (b + offset) i) as [->|]; reflexivity.
Qed.

Lemma records_In vals F rs k x : Forall2 (records vals) F rs ->
  In (k, x) (concat rs) <-> x <> Inf /\ exists t, In t F /\ snd (fst t) = k /\ next_value vals (snd t) x.
Proof.
  induction 1 as [|t r F rs [v [V ->]] H IH]; cbn.
  - split; [tauto|]. intros [_ [t [[] _]]].
  - rewrite in_app_iff, IH. split.
    + intros [K|[K1 [t' [K2 K3]]]]; [|split; auto; exists t'; split; [right|]; auto]. destruct v as [z|]; cbn in K; [|tauto].
      destruct K as [K|[]]. injection K as <- <-. split; [discriminate|]. exists t. auto.
    + intros [K1 [t' [[<-|K2] [K3 K4]]]]; [|right; split; auto; exists t'; auto]. left. rewrite (next_value_unique _ _ _ _ V K4). subst k.
      destruct x; [left; auto|congruence].
Qed.

Lemma records_NoDup vals F rs : Forall2 (records vals) F rs -> NoDup (map (fun t => snd (fst t)) F) -> NoDup (map fst (concat rs)).
Proof.
  induction 1 as [|t r F rs [v [V ->]] H IH]; cbn; intro N; [constructor|]. inversion N as [|? ? N1 N2]; subst. rewrite map_app.
  destruct v as [z|]; cbn; auto. constructor; auto. intro K. apply N1. apply in_map_iff in K. destruct K as [[k x] [E K]]. cbn in E. subst k.
  apply (records_In vals F rs _ x H) in K. destruct K as [_ [t' [T1 [T2 _]]]]. rewrite <- T2. apply (in_map (fun t => snd (fst t))). auto.
Qed.

(** ** The pairs found by the ball query *)

Section Pairs.
  Context (ball : list (list Q) -> list (list Q) -> Q -> list (list nat)) (Hball : correct_ball ball).
  Context (dim : nat) (P R : list (list Q)) (HP : forall p, In p P -> length p = dim) (HR : forall p, In p R -> length p = dim) (r : Q).

  Definition found_pairs : list (nat * nat * Q) :=
    flat_map (fun ic => map (fun j => (fst ic, j, dist2 (nth (fst ic) P []) (nth j R []))) (snd ic)) (enumerate (ball P R (r * r)%Q)).

  Lemma In_found t : In t found_pairs <->
    fst (fst t) < length P /\ within R (nth (fst (fst t)) P []) (r * r)%Q (snd (fst t)) /\ snd t = dist2 (nth (fst (fst t)) P []) (nth (snd (fst t)) R []).
  Proof.
    destruct (Hball dim P R (r * r)%Q HP HR) as [L H]. unfold found_pairs. rewrite in_flat_map. split.
    - intros [[i row] [Hi Ht]]. apply In_enumerate in Hi. cbn [fst snd] in Ht. apply in_map_iff in Ht. destruct Ht as [j [<- Hj]]. cbn [fst snd].
      assert (i < length P) as Hil by (pose proof (nth_error_length_lt _ _ _ Hi); unfold vec in *; lia). destruct (nth_error_lt P i Hil) as [p Hp].
      destruct (H i p Hp) as [_ H2]. rewrite (nth_of_nth_error _ _ _ _ Hi) in H2. rewrite (nth_of_nth_error _ _ [] _ Hp). split; auto. split; auto. apply H2. auto.
    - destruct t as [[i j] q]. cbn [fst snd]. intros [Hi [Hw ->]]. destruct (nth_error_lt P i Hi) as [p Hp]. rewrite (nth_of_nth_error _ _ [] _ Hp) in Hw.
      destruct (H i p Hp) as [_ H2]. apply H2 in Hw. destruct (nth_error_lt (ball P R (r * r)%Q) i) as [row Hrow]; [unfold vec in *; lia|].
      exists (i, row). split; [apply In_enumerate; auto|]. cbn [fst snd]. apply in_map_iff. exists j. split; auto. rewrite (nth_of_nth_error _ _ _ _ Hrow) in Hw. auto.
  Qed.

  Lemma found_NoDup : NoDup found_pairs.
  Proof.
    destruct (Hball dim P R (r * r)%Q HP HR) as [L H]. unfold found_pairs. apply NoDup_flat_map.
    - clear L H. unfold enumerate. generalize 0. induction (ball P R (r * r)%Q) as [|row rows IH]; intro k; cbn; constructor; auto.
      intro K. apply in_combine_l in K. apply in_seq in K. lia.
    - intros [i row] Hi. apply In_enumerate in Hi. cbn [fst snd].
      assert (i < length P) as Hil by (pose proof (nth_error_length_lt _ _ _ Hi); unfold vec in *; lia). destruct (nth_error_lt P i Hil) as [p Hp].
      destruct (H i p Hp) as [N _]. rewrite (nth_of_nth_error _ _ _ _ Hi) in N. clear -N.
      induction N as [|x l Hx Hl IH]; cbn; constructor; auto. intro K. apply in_map_iff in K. destruct K as [y [E Hy]]. injection E. intros. subst. auto.
    - intros [i row] [i' row'] t Hi Hi' Ht Ht'. apply In_enumerate in Hi. apply In_enumerate in Hi'. cbn [fst snd] in *.
      apply in_map_iff in Ht. destruct Ht as [j [<- Hj]]. apply in_map_iff in Ht'. destruct Ht' as [j' [E Hj']]. injection E. intros. subst. congruence.
  Qed.
End Pairs.

Lemma NoDup_map_inj {A B} (f : A -> B) l : NoDup l -> (forall x y, In x l -> In y l -> f x = f y -> x = y) -> NoDup (map f l).
Proof.
  induction 1 as [|x l Hx Hl IH]; intro H; cbn; constructor.
  - intro K. apply in_map_iff in K. destruct K as [y [E Hy]]. apply Hx. rewrite <- (H y x); auto; [right; auto|left; auto].
  - apply IH. intros. apply H; auto; right; auto.
Qed.

Lemma NoDup_filter' {A} (f : A -> bool) l : NoDup l -> NoDup (filter f l).
Proof. induction 1; cbn; [constructor|]. destruct (f x); auto. constructor; auto. rewrite filter_In. tauto. Qed.

(** ** Joining *)

(** The data moved by a translation. *)
Definition moved (n : list Z) (v : vec) (e : data) : data :=
  mkData (d_dim e) (d_cols e) (map (shift_index n) (d_indices e)) (map (fun p => vadd p v) (d_positions e)) (d_neighbors e) (d_distances e) (d_distvals e)
    (d_pmask e) (d_pnvecs e) (d_paxes e) (d_invalid_idx e) (d_invalid_distidx e) (d_dmap e).

Lemma moved_wf n v e : length n = d_dim e -> length v = d_dim e -> wf_core e -> wf_core (moved n v e).
Proof.
  intros Hn Hv W. assert (nsites (moved n v e) = nsites e) as En by (unfold nsites, moved; cbn; apply map_length).
  constructor; rewrite ?En; try (apply W).
  - destruct (wf_indices _ W) as [L H]. split; [cbn; rewrite map_length; auto|]. intros r Hr. cbn in Hr. apply in_map_iff in Hr. destruct Hr as [i [<- Hi]].
    cbn. apply shift_index_length; auto.
  - destruct (wf_positions _ W) as [L H]. split; [cbn; rewrite map_length; auto|]. intros r Hr. cbn in Hr. apply in_map_iff in Hr. destruct Hr as [i [<- Hi]].
    cbn. rewrite vadd_length; auto. rewrite Hv. apply H. auto.
Qed.

Lemma links_le d i : length (links d i) <= d_cols d.
Proof.
  unfold links, valid_slots. rewrite map_length. assert (forall q, length (filter (valid d i) q) <= length q) as H.
  { induction q as [|x q IHq]; cbn [filter length]; auto. destruct (valid d i x); cbn [length]; lia. }
  specialize (H (seq 0 (d_cols d))). rewrite seq_length in H. auto.
Qed.

Lemma npos d : wf_core d -> length (d_positions d) = nsites d.
Proof. intro W. exact (proj1 (wf_positions _ W)). Qed.

Section Seam.
  Context (ball : list (list Q) -> list (list Q) -> Q -> list (list nat)) (Hball : correct_ball ball).
  Context (argsort : list dist -> list nat) (Harg : is_argsort dleb argsort) (w1 w2 w3 : nat -> nat).
  Context (d e : data) (Wd : wf d) (We : wf_core e) (Hdim : d_dim e = d_dim d).
  Context (Hd0 : 0 < nsites d) (He0 : 0 < nsites e) (Hc0 : 0 < d_cols e) (Hpad : has_padding d e).
  Context (Hlen : length (d_distvals d) + length (d_distvals e) <= 256) (r : Q).

  (** Site [i] of [d] is near site [j] of [e]. *)
  Definition near i j : Prop := within (d_positions e) (nth i (d_positions d) []) (r * r)%Q j.
  Definition gap i j : Q := sqdist (nth i (d_positions d) []) (nth j (d_positions e) []).

  Context (Hroom1 : forall i, i < nsites d -> at_most (Nat.max (d_cols d) (d_cols e) - length (links d i)) (near i)).
  Context (Hroom2 : forall j, j < nsites e -> at_most (Nat.max (d_cols d) (d_cols e) - length (links e j)) (fun i => i < nsites d /\ near i j)).

  Lemma near_lt i j : near i j -> j < nsites e.
  Proof.
    intros [q [Hq _]]. apply nth_error_length_lt in Hq. pose proof (proj1 (wf_positions _ We)) as L. unfold vec in *. lia.
  Qed.

  Lemma gap_dist2 i j : i < nsites d -> j < nsites e -> (dist2 (nth i (d_positions d) []) (nth j (d_positions e) []) == gap i j)%Q.
  Proof.
    intros Hi Hj. apply sqdist_dist2. destruct (wf_positions _ Wd) as [L1 H1], (wf_positions _ We) as [L2 H2].
    transitivity (d_dim d); [|symmetry; rewrite <- Hdim]; [apply H1|apply H2]; apply nth_In; unfold vec in *; lia.
  Qed.

  Lemma root_below_compat q q' x : (q == q')%Q -> root_below q x <-> root_below q' x.
  Proof. intro E. destruct x; cbn; [|tauto]. rewrite E. tauto. Qed.

  Lemma seam_spec : exists d1 d2, append_data argsort w1 w2 w3 d e = Some d1 /\
    add_connecting (nsites d) d1 (found_pairs ball (d_positions d) (d_positions e) r) = Some d2 /\ wf d2 /\ packed d2 /\
    d_dim d2 = d_dim d /\ d_cols d2 = Nat.max (d_cols d) (d_cols e) /\
    (forall y, In y (d_distvals d2) -> y = Inf \/ distance_of_links d e y) /\
    d_indices d2 = d_indices d ++ d_indices e /\ d_positions d2 = d_positions d ++ d_positions e /\
    (forall i, i < nsites d2 -> forall s, In s (slots d2 i) -> s_per s = false) /\
    (forall i, i < nsites d -> exists S, Permutation (links d2 i) (links d i ++ S) /\ NoDup (map fst S) /\
       forall k x, In (k, x) S <-> exists j, k = nsites d + j /\ near i j /\ x <> Inf /\ rounded_up (fun y => y = Inf \/ distance_of_links d e y) (gap i j) x) /\
    (forall j, j < nsites e -> exists S, Permutation (links d2 (nsites d + j)) (map (fun l => (nsites d + fst l, snd l)) (links e j) ++ S) /\
       NoDup (map fst S) /\
       forall i x, In (i, x) S <-> i < nsites d /\ near i j /\ x <> Inf /\ rounded_up (fun y => y = Inf \/ distance_of_links d e y) (gap i j) x).
  Proof.
    destruct (append_spec argsort Harg w1 w2 w3 d e Wd We Hdim Hd0 He0 Hc0 Hpad Hlen (proj1 (wf_pmask _ Wd))) as
      (d1 & E1 & W1 & Edim & En & Ei & Ep & _ & L1 & L2 & _ & Hper & Ecols & d0 & W0 & En0 & Es & Hvals).
    assert (packed d1) as P1.
    { intros i Hi. rewrite Es. apply (C43_sort_neighbors argsort d0 i Harg W0). lia. }
    (* the known distances *)
    assert (forall y, In y (d_distvals d1) <-> y = Inf \/ distance_of_links d e y) as Hknown.
    { intro y. split.
      - intro Hy. destruct y as [z|]; auto. right. rewrite Es in Hy. cbn [sort_neighbors d_distvals] in Hy. apply Hvals in Hy.
        assert (rect (nsites d0) (d_cols d0) (distance_table d0)) as RT.
        { destruct (wf_distances _ (wf_c _ W0)) as [A B]. split; unfold distance_table; [rewrite map_length; auto|].
          intros row Hrow. apply in_map_iff in Hrow. destruct Hrow as [x [<- Hx]]. rewrite map_length. auto. }
        apply (In_cell Inf _ _ _ _ RT) in Hy. destruct Hy as [i [c [Hi [Hc Hy]]]].
        assert (In (nb d0 i c, Fin z) (links d0 i)) as HL.
        { rewrite (links_table d0 i (wf_c _ W0) Hi). apply in_map_iff. exists c. split; [rewrite Hy; auto|]. apply filter_In. split; [apply in_seq; lia|]. rewrite Hy. reflexivity. }
        assert (In (nb d0 i c, Fin z) (links d1 i)) as HL1.
        { rewrite Es. destruct (C43_sort_neighbors argsort d0 i Harg W0 Hi) as [_ [_ [_ [_ [HP _]]]]].
          assert (forall x k, links x k = map (fun s => (s_nbr s, s_dist s)) (slots x k)) as HLS by (intros; unfold links, slots; rewrite map_map; reflexivity).
          rewrite HLS in *. eapply Permutation_in; [apply Permutation_map; apply Permutation_sym; exact HP|]. exact HL. }
        rewrite En0 in Hi. rewrite En in Hi. destruct (Nat.lt_ge_cases i (nsites d)) as [H|H].
        + left. exists i, (nb d0 i c). split; auto. apply (Permutation_in _ (L1 i H) HL1).
        + right. assert (i - nsites d < nsites e) as H' by lia. pose proof (L2 _ H') as HP. replace (nsites d + (i - nsites d)) with i in HP by lia.
          pose proof (Permutation_in _ HP HL1) as HL2. apply in_map_iff in HL2. destruct HL2 as [[k x] [E2 HL2]]. cbn in E2. injection E2 as _ ->.
          exists (i - nsites d), k. auto.
      - intros [->|Hy]; [apply Inf_known; apply W1|].
        assert (forall i j x, i < nsites d1 -> In (j, x) (links d1 i) -> In x (d_distvals d1)) as Hin.
        { intros i j x Hi H. unfold links in H. apply in_map_iff in H. destruct H as [c [E H]]. unfold link_at in E. injection E as _ <-.
          unfold valid_slots in H. apply filter_In in H. destruct H as [H _]. apply in_seq in H. apply nth_In. apply (wf_di _ (wf_c _ W1)); auto; lia. }
        destruct Hy as [[i [j [Hi Hl]]]|[i [j [Hi Hl]]]].
        + apply (Hin i j); [lia|]. apply (Permutation_in _ (Permutation_sym (L1 i Hi)) Hl).
        + apply (Hin (nsites d + i) (nsites d + j)); [lia|]. apply (Permutation_in _ (Permutation_sym (L2 i Hi))). apply in_map_iff. exists (j, y). auto. }
    assert (forall q x, (0 <= q)%Q -> next_value (d_distvals d1) (Fin (sqrt_up q)) x <-> rounded_up (fun y => y = Inf \/ distance_of_links d e y) q x) as Hnext.
    { intros q x Hq. unfold next_value, rounded_up. rewrite Hknown, (dleb_sqrt_up q x Hq). split; intros [A [B C]]; split; auto; split; auto; intros y Hy Hy'.
      - apply C; [apply Hknown; auto|apply dleb_sqrt_up; auto].
      - apply C; [apply Hknown; auto|apply dleb_sqrt_up; auto]. }
    set (n1 := nsites d) in *. set (n2 := nsites e) in *.
    assert (forall p, In p (d_positions d) -> length p = d_dim d) as HP by (intros; apply (wf_positions _ Wd); auto).
    assert (forall p, In p (d_positions e) -> length p = d_dim d) as HR by (rewrite <- Hdim; intros; apply (wf_positions _ We); auto).
    set (pairs := found_pairs ball (d_positions d) (d_positions e) r).
    assert (length (d_positions d) = n1) as LP by (apply (wf_positions _ Wd)).
    assert (forall t, In t pairs <-> fst (fst t) < n1 /\ near (fst (fst t)) (snd (fst t)) /\
       snd t = dist2 (nth (fst (fst t)) (d_positions d) []) (nth (snd (fst t)) (d_positions e) [])) as Hin.
    { intro t. unfold pairs. rewrite (In_found ball Hball (d_dim d) _ _ HP HR r t). rewrite <- LP. reflexivity. }
    pose proof (found_NoDup ball Hball (d_dim d) _ _ HP HR r) as Nd. fold pairs in Nd.
    assert (forall t, In t pairs -> fst (fst t) < n1 /\ snd (fst t) < n2 /\ (0 <= snd t)%Q /\ (snd t == gap (fst (fst t)) (snd (fst t)))%Q) as Hb.
    { intros t Ht. apply Hin in Ht. destruct Ht as [A [B C]]. pose proof (near_lt _ _ B) as D. fold n2 in D.
      pose proof (gap_dist2 _ _ A D) as G. split; auto. split; auto. rewrite C. split; auto. rewrite G. apply sqdist_nonneg. }
    assert (forall t t', In t pairs -> In t' pairs -> fst t = fst t' -> t = t') as Hkey.
    { intros [[i j] q] [[i' j'] q'] H H' E. cbn in E. injection E as <- <-. apply Hin in H. apply Hin in H'. cbn in H, H'. destruct H as [_ [_ ->]], H' as [_ [_ ->]]. auto. }
    assert (forall t, In t pairs -> fst (fst t) < n1) as Hoff by (intros; apply Hb; auto).
    (* the requests of one site *)
    assert (forall i, i < n1 -> NoDup (map (fun t => snd (fst t)) (filter (at_site i) (requested n1 pairs))) /\
       (forall k x, (exists t, In t (filter (at_site i) (requested n1 pairs)) /\ snd (fst t) = k /\ next_value (d_distvals d1) (snd t) x) <->
          exists j, k = n1 + j /\ near i j /\ rounded_up (fun y => y = Inf \/ distance_of_links d e y) (gap i j) x) /\
       length (links d i) + length (filter (at_site i) (requested n1 pairs)) <= Nat.max (d_cols d) (d_cols e)) as HF1.
    { intros i Hi. rewrite (requested_at n1 pairs i Hoff), (proj2 (Nat.ltb_lt i n1) Hi). set (F := filter (fun t => fst (fst t) =? i) pairs).
      assert (forall t, In t F <-> In t pairs /\ fst (fst t) = i) as HFI by (intro t; unfold F; rewrite filter_In, Nat.eqb_eq; tauto).
      assert (NoDup (map (fun t : nat * nat * Q => snd (fst t)) F)) as NF.
      { apply NoDup_map_inj; [apply NoDup_filter'; auto|]. intros t t' Ht Ht' E. apply HFI in Ht. apply HFI in Ht'. destruct Ht as [A B], Ht' as [A' B'].
        apply Hkey; auto. destruct t as [[? ?] ?], t' as [[? ?] ?]. cbn in *. congruence. }
      split; [|split].
      - rewrite map_map. cbn [fst snd]. rewrite <- (map_map (fun t : nat * nat * Q => snd (fst t)) (fun j => j + n1)). apply NoDup_map_inj; auto. intros; lia.
      - intros k x. split.
        + intros [t [Ht [<- Hx]]]. apply in_map_iff in Ht. destruct Ht as [t' [<- Ht']]. cbn [fst snd] in *. apply HFI in Ht'. destruct Ht' as [Ht' <-].
          destruct (Hb t' Ht') as [_ [_ [B1 B2]]]. apply Hin in Ht'. destruct Ht' as [_ [A _]]. exists (snd (fst t')). split; [lia|]. split; auto.
          apply Hnext in Hx; auto. destruct Hx as [X1 [X2 X3]]. split; auto. split; [apply (root_below_compat _ _ x B2); auto|].
          intros y Hy Hy'. apply X3; auto. apply (root_below_compat _ _ y B2); auto.
        + intros [j [-> [Hn Hx]]]. set (t' := (i, j, dist2 (nth i (d_positions d) []) (nth j (d_positions e) []))). assert (In t' pairs) as Ht' by (apply Hin; auto).
          destruct (Hb t' Ht') as [_ [_ [B1 B2]]]. exists (i, j + n1, Fin (sqrt_up (snd t'))). split; [apply in_map_iff; exists t'; split; auto; apply HFI; auto|].
          cbn [fst snd]. split; [lia|]. apply Hnext; auto. destruct Hx as [X1 [X2 X3]]. split; auto. split; [apply (root_below_compat _ _ x B2); auto|].
          intros y Hy Hy'. apply X3; auto. apply (root_below_compat _ _ y B2); auto.
      - rewrite map_length, <- (map_length (fun t : nat * nat * Q => snd (fst t)) F).
        pose proof (links_le d i) as HLd.
        pose proof (Hroom1 i Hi _ NF) as HR1. assert (forall j, In j (map (fun t : nat * nat * Q => snd (fst t)) F) -> near i j) as HF.
        { intros j Hj. apply in_map_iff in Hj. destruct Hj as [t [<- Ht]]. apply HFI in Ht. destruct Ht as [Ht <-]. apply Hin. auto. }
        specialize (HR1 HF). lia. }
    assert (forall j, j < n2 -> NoDup (map (fun t => snd (fst t)) (filter (at_site (n1 + j)) (requested n1 pairs))) /\
       (forall k x, (exists t, In t (filter (at_site (n1 + j)) (requested n1 pairs)) /\ snd (fst t) = k /\ next_value (d_distvals d1) (snd t) x) <->
          k < n1 /\ near k j /\ rounded_up (fun y => y = Inf \/ distance_of_links d e y) (gap k j) x) /\
       length (links e j) + length (filter (at_site (n1 + j)) (requested n1 pairs)) <= Nat.max (d_cols d) (d_cols e)) as HF2.
    { intros j Hj. rewrite (requested_at n1 pairs (n1 + j) Hoff), (proj2 (Nat.ltb_ge (n1 + j) n1)) by lia. set (F := filter (fun t => snd (fst t) + n1 =? n1 + j) pairs).
      assert (forall t, In t F <-> In t pairs /\ snd (fst t) = j) as HFI.
      { intro t; unfold F; rewrite filter_In, Nat.eqb_eq. split; intros [A B]; split; auto; lia. }
      assert (NoDup (map (fun t : nat * nat * Q => fst (fst t)) F)) as NF.
      { apply NoDup_map_inj; [apply NoDup_filter'; auto|]. intros t t' Ht Ht' E. apply HFI in Ht. apply HFI in Ht'. destruct Ht as [A B], Ht' as [A' B'].
        apply Hkey; auto. destruct t as [[? ?] ?], t' as [[? ?] ?]. cbn in *. congruence. }
      split; [|split].
      - rewrite map_map. cbn [fst snd]. auto.
      - intros k x. split.
        + intros [t [Ht [<- Hx]]]. apply in_map_iff in Ht. destruct Ht as [t' [<- Ht']]. cbn [fst snd] in *. apply HFI in Ht'. destruct Ht' as [Ht' <-].
          destruct (Hb t' Ht') as [_ [_ [B1 B2]]]. apply Hin in Ht'. destruct Ht' as [A0 [A _]]. split; auto. split; auto.
          apply Hnext in Hx; auto. destruct Hx as [X1 [X2 X3]]. split; auto. split; [apply (root_below_compat _ _ x B2); auto|].
          intros y Hy Hy'. apply X3; auto. apply (root_below_compat _ _ y B2); auto.
        + intros [Hk [Hn Hx]]. set (t' := (k, j, dist2 (nth k (d_positions d) []) (nth j (d_positions e) []))). assert (In t' pairs) as Ht' by (apply Hin; auto).
          destruct (Hb t' Ht') as [_ [_ [B1 B2]]]. exists (n1 + j, k, Fin (sqrt_up (snd t'))). split; [apply in_map_iff; exists t'; split; auto; apply HFI; auto|].
          cbn [fst snd]. split; auto. apply Hnext; auto. destruct Hx as [X1 [X2 X3]]. split; auto. split; [apply (root_below_compat _ _ x B2); auto|].
          intros y Hy Hy'. apply X3; auto. apply (root_below_compat _ _ y B2); auto.
      - rewrite map_length, <- (map_length (fun t : nat * nat * Q => fst (fst t)) F).
        pose proof (links_le e j) as HLd.
        pose proof (Hroom2 j Hj _ NF) as HR1. assert (forall i, In i (map (fun t : nat * nat * Q => fst (fst t)) F) -> i < nsites d /\ near i j) as HF.
        { intros i Hi. apply in_map_iff in Hi. destruct Hi as [t [<- Ht]]. apply HFI in Ht. destruct Ht as [Ht <-]. apply Hin in Ht. tauto. }
        specialize (HR1 HF). lia. }
    destruct (add_all_spec (requested n1 pairs) d1 W1 P1) as (d2 & E2 & W2 & P2 & A1 & A2 & A3 & A4 & A5 & A6 & A7 & HL).
    - intros t Ht. unfold requested in Ht. apply in_flat_map in Ht. destruct Ht as [t' [Ht' H]]. destruct (Hb t' Ht') as [B1 [B2 _]]. rewrite En.
      destruct H as [<-|[<-|[]]]; cbn; lia.
    - intros i Hi. rewrite Ecols. rewrite En in Hi. destruct (Nat.lt_ge_cases i n1) as [H|H].
      all: clearbody n1 n2.
      + rewrite (Permutation_length (L1 i H)). apply HF1. auto.
      + replace i with (n1 + (i - n1)) by lia. rewrite (Permutation_length (L2 (i - n1) ltac:(lia))), map_length. apply HF2. lia.
    - exists d1, d2. split; auto. split; [rewrite add_connecting_all; auto|]. split; auto. split; auto. split; [congruence|]. split; [rewrite A2; exact Ecols|].
      split; [intros y Hy; apply Hknown; congruence|]. split; [congruence|]. split; [congruence|]. split; [|split].
      + intros i Hi s Hs. assert (nsites d2 = nsites d1) as En2 by (unfold nsites; congruence).
        unfold slots in Hs. apply in_map_iff in Hs. destruct Hs as [c [<- Hc]]. cbn. unfold valid_slots in Hc. apply filter_In in Hc. destruct Hc as [Hc _]. apply in_seq in Hc.
        unfold pm. rewrite A6. fold (pm d1 i c). destruct (pm d1 i c) eqn:Epm; auto. rewrite En2 in Hi. rewrite A2 in Hc.
        pose proof (wf_pm _ W1 i c Hi ltac:(lia) Epm) as Hv. rewrite <- Epm. apply (Hper i Hi (slot_at d1 i c)). unfold slots. apply in_map. unfold valid_slots. apply filter_In.
        split; auto. apply in_seq. lia.
      + intros i Hi. destruct (HL i ltac:(lia)) as [rs [R1 R2]]. destruct (HF1 i Hi) as [N1 [N2 _]]. exists (concat rs). split; [rewrite R2; apply Permutation_app_tail; apply L1; auto|].
        split; [eapply records_NoDup; eauto|]. intros k x. rewrite (records_In _ _ _ k x R1), N2. split.
        * intros [X [j [B1 [B2 B3]]]]. exists j. auto.
        * intros [j [B1 [B2 [X B3]]]]. split; auto. exists j. auto.
      + intros j Hj. destruct (HL (n1 + j) ltac:(lia)) as [rs [R1 R2]]. destruct (HF2 j Hj) as [N1 [N2 _]]. exists (concat rs). split; [rewrite R2; apply Permutation_app_tail; apply L2; auto|].
        split; [eapply records_NoDup; eauto|]. intros k x. rewrite (records_In _ _ _ k x R1), N2. tauto.
  Qed.
End Seam.

(** ** C77: the links of the joined lattice *)

(** The joined data [d']: the sites and links of [d], the sites and links of [e] moved by [n] cells, and links between all
    sites of different parts that are at most [r] apart.  The distance of such a link is the smallest distance occurring
    in [d] or [e] that is not below the actual one; if there is none, the link is missing. *)
Definition joined (dim : nat) (V : list (list Q)) (n : list Z) (r : Q) (d e d' : data) : Prop :=
  let gap i j := sqdist (nth i (d_positions d) []) (lattice_point dim V (nth j (d_positions e) []) n) in
  let across i j x := i < nsites d /\ j < nsites e /\ (gap i j <= r * r)%Q /\ x <> Inf /\
    rounded_up (fun y => y = Inf \/ distance_of_links d e y) (gap i j) x in
  nsites d' = nsites d + nsites e /\
  (forall i, i < nsites d -> nth i (d_indices d') [] = nth i (d_indices d) [] /\ nth i (d_positions d') [] = nth i (d_positions d) []) /\
  (forall j, j < nsites e -> moved_site dim V n (nth j (d_indices e) []) (nth j (d_positions e) [])
     (nth (nsites d + j) (d_indices d') []) (nth (nsites d + j) (d_positions d') [])) /\
  (forall i, i < nsites d -> exists S, Permutation (links d' i) (links d i ++ S) /\ NoDup (map fst S) /\
     forall k x, In (k, x) S <-> exists j, k = nsites d + j /\ across i j x) /\
  (forall j, j < nsites e -> exists S, Permutation (links d' (nsites d + j)) (map (fun l => (nsites d + fst l, snd l)) (links e j) ++ S) /\
     NoDup (map fst S) /\ forall i x, In (i, x) S <-> across i j x).

(** The rows have room for the links across the seam. *)
Definition roomy (dim : nat) (V : list (list Q)) (n : list Z) (r : Q) (d e : data) : Prop :=
  let gap i j := sqdist (nth i (d_positions d) []) (lattice_point dim V (nth j (d_positions e) []) n) in
  (forall i, i < nsites d -> at_most (Nat.max (d_cols d) (d_cols e) - length (links d i)) (fun j => j < nsites e /\ (gap i j <= r * r)%Q)) /\
  (forall j, j < nsites e -> at_most (Nat.max (d_cols d) (d_cols e) - length (links e j)) (fun i => i < nsites d /\ (gap i j <= r * r)%Q)).

Lemma neg_unit d ax z : neg (unit d ax z) = unit d ax (- z).
Proof.
  apply (nth_ext _ _ 0%Z 0%Z); [unfold neg; rewrite map_length, !unit_length; auto|]. intros k Hk. unfold neg in *. rewrite map_length, unit_length in Hk.
  rewrite (nth_map_in _ _ _ 0%Z) by (rewrite unit_length; auto). rewrite !nth_unit by auto. destruct (k =? ax); lia.
Qed.

Lemma append_section_links ball argsort w l dim ax side E d e an r n :
  correct_ball ball -> is_argsort dleb argsort -> built dim l ->
  lt_primitive l = Some true \/ axis_aligned dim (b_mat (lt_basis l)) -> ax < dim ->
  lt_data l = Some d -> wf d -> wf_core e -> d_dim d = dim -> d_dim e = dim ->
  0 < nsites d -> 0 < nsites e -> 0 < d_cols e -> has_padding d e -> length (d_distvals d) + length (d_distvals e) <= 256 ->
  st_analysis (lt_structure l) = Some an -> query_radius an = Some r ->
  extent (if (0 <? side)%Z then d_indices d else d_indices e) ax E -> n = unit dim ax (if (0 <? side)%Z then E else - E) ->
  roomy dim (b_mat (lt_basis l)) n r d e ->
  exists l' d', append_section ball argsort w l (data_section e) ax side None false (is_primitive l) = Some l' /\
    lt_structure l' = lt_structure l /\ lt_primitive l' = lt_primitive l /\ lt_data l' = Some d' /\ wf d' /\ packed d' /\
    d_dim d' = dim /\ d_cols d' = Nat.max (d_cols d) (d_cols e) /\
    (forall y, In y (d_distvals d') -> y = Inf \/ distance_of_links d e y) /\
    (forall i, i < nsites d' -> forall s, In s (slots d' i) -> s_per s = false) /\
    d_indices d' = d_indices d ++ map (shift_index n) (d_indices e) /\
    joined dim (b_mat (lt_basis l)) n r d e d'.
Proof.
  intros Hball Harg B Hal Hax Ed Wd We Dd De Hd0 He0 Hc0 Hpad Hlen Ean Er Hext En [Hroom1 Hroom2].
  pose proof (bt_dim _ _ B) as Hb. pose proof (bt_basis _ _ B) as Vb. set (b := lt_basis l) in *. set (V := b_mat b) in *.
  assert (length n = dim) as Ln by (subst n; apply unit_length).
  set (v := translate b n (vzero (b_dim b))).
  assert (length v = dim) as Lv.
  { unfold v. rewrite <- Hb. apply translate_length. unfold vzero. apply repeat_length. }
  set (m := moved n v e).
  assert (wf_core m) as Wm by (apply moved_wf; congruence || auto).
  assert (nsites m = nsites e) as Nm by (unfold m, moved, nsites; cbn; apply map_length).
  (* the translation *)
  set (base := if (0 <? side)%Z then d_indices d else d_indices e) in *.
  assert (forall i, In i base -> length i = S dim) as Hbase.
  { intros i Hi. unfold base in Hi. destruct (0 <? side)%Z; [rewrite <- Dd; apply (wf_indices _ Wd)|rewrite <- De; apply (wf_indices _ We)]; auto. }
  assert (base <> []) as Hne by (destruct Hext as [lo [hi [_ [[i [Hi _]] _]]]]; intro K; rewrite K in Hi; destruct Hi).
  destruct (some_vector dim l B ax Hax Hal base Hne Hbase) as [n0 [T0 T1]].
  rewrite (wraps_unit _ _ _ _ E Hax T1 Hext) in T0. clear T1.
  assert ((if (0 <? side)%Z then unit dim ax E else neg (unit dim ax E)) = n) as En0.
  { subst n. destruct (0 <? side)%Z; auto. apply neg_unit. }
  (* distances *)
  assert (forall j, j < nsites e -> nth j (d_positions m) [] = vadd (nth j (d_positions e) []) v) as Hpm.
  { intros j Hj. unfold m, moved. cbn [d_positions]. pose proof (npos _ We) as L.
    assert (j < length (d_positions e)) as Hj' by (rewrite L; exact Hj).
    exact (nth_of_nth_error _ _ [] _ (map_nth_error (fun p => vadd p v) j (d_positions e) (nth_error_nth' (d_positions e) [] Hj'))). }
  assert (forall j, j < nsites e -> moved_site dim V n (nth j (d_indices e) []) (nth j (d_positions e) []) (nth j (d_indices m) []) (nth j (d_positions m) [])) as Hms.
  { intros j Hj. rewrite (Hpm j Hj). unfold m, moved. cbn [d_indices]. rewrite (nth_map_in _ _ _ []) by (unfold nsites in Hj; auto).
    apply (copied_moved dim b n (nth j (d_indices e) []) (nth j (d_positions e) [])); auto.
    - rewrite <- De. apply (wf_indices _ We). apply nth_In. auto.
    - rewrite <- De. apply (wf_positions _ We). apply nth_In. rewrite (npos _ We). auto. }
  set (gp := fun i j => sqdist (nth i (d_positions d) []) (lattice_point dim V (nth j (d_positions e) []) n)) in *.
  assert (forall i j, j < nsites e -> (gap d m i j == gp i j)%Q) as Hgap.
  { intros i j Hj. unfold gap, gp. apply sqdist_veq; [apply veq_refl|]. apply same_veq. apply (Hms j Hj). }
  assert (forall i j, near d m r i j <-> j < nsites e /\ (gp i j <= r * r)%Q) as Hnear.
  { intros i j. unfold near, within. split.
    - intros [q [Hq Hle]]. assert (j < nsites e) as Hj.
      { rewrite <- Nm. apply nth_error_length_lt in Hq. pose proof (npos _ Wm) as L. unfold vec in *. lia. }
      split; auto. rewrite <- (Hgap i j Hj). unfold gap. unfold vec in *. rewrite (nth_of_nth_error _ _ [] _ Hq). auto.
    - intros [Hj Hle]. rewrite <- (Hgap i j Hj) in Hle. exists (nth j (d_positions m) []). split; [apply nth_error_nth'|auto].
      pose proof (npos _ Wm) as L. unfold vec in *. lia. }
  assert (forall y, distance_of_links d m y <-> distance_of_links d e y) as Hknown.
  { intro y. unfold distance_of_links. rewrite Nm. reflexivity. }
  assert (forall i j x, j < nsites e -> rounded_up (fun y => y = Inf \/ distance_of_links d m y) (gap d m i j) x <-> rounded_up (fun y => y = Inf \/ distance_of_links d e y) (gp i j) x) as Hru.
  { intros i j x Hj. pose proof (Hgap i j Hj) as G. unfold rounded_up. rewrite Hknown, (root_below_compat _ _ x G).
    split; intros [A1 [A2 A3]]; split; auto; split; auto; intros y Hy Hy'; apply A3.
    - rewrite Hknown. auto.
    - apply (root_below_compat _ _ y G). auto.
    - rewrite <- Hknown. auto.
    - apply (root_below_compat _ _ y G). auto. }
  destruct (seam_spec ball Hball argsort Harg (c_w1 w) (c_w2 w) (c_w3 w) d m Wd Wm ltac:(change (d_dim m) with (d_dim e); congruence) Hd0 ltac:(lia) Hc0) with (r := r)
    as (d1 & d2 & E1 & E2 & W2 & P2 & D2 & C2 & V2 & I2 & Q2 & S2 & L1 & L2).
  { destruct Hpad as [H|[[i [c [H1 H2]]]|H]]; [left; auto|right; left; exists i, c; rewrite Nm; auto|right; right; auto]. }
  { exact Hlen. }
  { intros i Hi L HL1 HL2. apply (Hroom1 i Hi L HL1). intros j Hj. apply Hnear. auto. }
  { intros j Hj L HL1 HL2. rewrite Nm in Hj. apply (Hroom2 j Hj L HL1). intros i Hi. destruct (HL2 i Hi) as [A A']. apply Hnear in A'. tauto. }
  unfold append_section. rewrite Ed, Ean. cbn [data_section sec_indices sec_positions sec_neighbors sec_dists].
  fold b. fold b in T0. fold base. rewrite T0. rewrite En0. fold v.
  change (append argsort (c_w1 w) (c_w2 w) (c_w3 w) d (map (shift_index n) (d_indices e)) (map (fun p : vec => vadd p v) (d_positions e)) (d_neighbors e) (distance_table e))
    with (append_data argsort (c_w1 w) (c_w2 w) (c_w3 w) d m).
  rewrite E1. unfold connection_neighbors. rewrite Er.
  change (flat_map (fun ic : nat * list nat => map (fun j : nat => (fst ic, j, dist2 (nth (fst ic) (d_positions d) []) (nth j (map (fun p : vec => vadd p v) (d_positions e)) []))) (snd ic))
        (enumerate (ball (d_positions d) (map (fun p : vec => vadd p v) (d_positions e)) (r * r)%Q))) with (found_pairs ball (d_positions d) (d_positions m) r).
  assert (length (d_positions d) = nsites d) as LP by (apply npos; apply Wd). rewrite LP, E2.
  exists (update_shape (set_data l (Some d2))), d2. split; [reflexivity|].
  assert (forall x, lt_structure (update_shape (set_data x (Some d2))) = lt_structure x /\ lt_primitive (update_shape (set_data x (Some d2))) = lt_primitive x /\
            lt_data (update_shape (set_data x (Some d2))) = Some d2) as HU.
  { intro x. unfold update_shape. destruct (limits (set_data x (Some d2))); cbn; auto. }
  destruct (HU l) as [H1 [H2 H3]]. split; auto. split; auto. split; auto. split; auto. split; auto. split; [congruence|]. split; [exact C2|].
  split; [intros y Hy; rewrite <- Hknown; auto|]. split; auto. split; [exact I2|].
  unfold joined. fold gp. cbv zeta. split; [|split; [|split; [|split]]].
  - unfold nsites at 1. rewrite I2, app_length. fold (nsites d) (nsites m). rewrite Nm. auto.
  - intros i Hi. rewrite I2, Q2. rewrite !app_nth1; auto. unfold vec in *. lia.
  - intros j Hj. rewrite I2, Q2. rewrite app_nth2 by (unfold nsites in *; lia). rewrite app_nth2 by (unfold vec in *; lia).
    replace (nsites d + j - length (d_indices d)) with j by (unfold nsites; lia). replace (nsites d + j - length (d_positions d)) with j by (unfold vec in *; lia). apply Hms. auto.
  - intros i Hi. destruct (L1 i Hi) as [S [S1 [S3 S4]]]. exists S. split; auto. split; auto. intros k x. rewrite S4. split.
    + intros [j [-> [A1 [A2 A3]]]]. apply Hnear in A1. destruct A1 as [A0 A1]. exists j. split; auto. do 3 (split; auto). split; auto. apply Hru; auto.
    + intros [j [-> [A0 [A1 [A2 [A3 A4]]]]]]. exists j. split; auto. split; [apply Hnear; auto|]. split; auto. apply Hru; auto.
  - intros j Hj. destruct (L2 j ltac:(lia)) as [S [S1 [S3 S4]]]. exists S. split; auto. split; auto. intros i x. rewrite S4. split.
    + intros [A0 [A1 [A2 A3]]]. apply Hnear in A1. destruct A1 as [A1 A1']. do 4 (split; auto). apply Hru; auto.
    + intros [A0 [A1 [A2 [A3 A4]]]]. split; auto. split; [apply Hnear; auto|]. split; auto. apply Hru; auto.
Qed.

Theorem C77_append_links :
  forall ball argsort w l other dim ax side E d e an r n,
    correct_ball ball -> is_argsort dleb argsort -> built dim l ->
    lt_primitive l = Some true \/ axis_aligned dim (b_mat (lt_basis l)) -> ax < dim ->
    lt_data l = Some d -> lt_data other = Some e -> wf d -> wf_core e -> d_dim d = dim -> d_dim e = dim ->
    0 < nsites d -> 0 < nsites e -> 0 < d_cols e -> has_padding d e -> length (d_distvals d) + length (d_distvals e) <= 256 ->
    st_analysis (lt_structure l) = Some an -> query_radius an = Some r ->
    extent (if (0 <? side)%Z then d_indices d else d_indices e) ax E -> along dim ax (if (0 <? side)%Z then E else - E) n ->
    roomy dim (b_mat (lt_basis l)) n r d e ->
    exists l' d', append_lattice ball argsort w l other ax side None false = Some l' /\
      lt_structure l' = lt_structure l /\ lt_data l' = Some d' /\ wf d' /\
      (forall i, i < nsites d' -> forall s, In s (slots d' i) -> s_per s = false) /\
      joined dim (b_mat (lt_basis l)) n r d e d'.
Proof.
  intros ball argsort w l other dim ax side E d e an r n Hball Harg B Hal Hax Ed Ee Wd We Dd De Hd0 He0 Hc0 Hpad Hlen Ean Er Hext En Hroom.
  apply along_unit in En.
  destruct (append_section_links ball argsort w l dim ax side E d e an r n Hball Harg B Hal Hax Ed Wd We Dd De Hd0 He0 Hc0 Hpad Hlen Ean Er Hext En Hroom)
    as (l' & d' & A1 & A2 & A3 & A4 & A5 & A6 & A7 & A8 & A9 & A10 & A11 & A12).
  exists l', d'. unfold append_lattice. rewrite Ee. auto 10.
Qed.

Lemma brute_ball_correct : correct_ball brute_ball.
Proof.
  intros d P R r2 HP HR. split; [apply map_length|]. intros i p Hp. unfold brute_ball.
  assert (nth i (map (fun p => filter (fun j => Qle_bool (dist2 p (nth j R [])) r2) (seq 0 (length R))) P) [] =
          filter (fun j => Qle_bool (dist2 p (nth j R [])) r2) (seq 0 (length R))) as E.
  { exact (nth_of_nth_error _ _ [] _ (map_nth_error (fun p => filter (fun j => Qle_bool (dist2 p (nth j R [])) r2) (seq 0 (length R))) i P Hp)). }
  change (NoDup (nth i (map (fun p => filter (fun j => Qle_bool (dist2 p (nth j R [])) r2) (seq 0 (length R))) P) []) /\
    forall j, In j (nth i (map (fun p => filter (fun j => Qle_bool (dist2 p (nth j R [])) r2) (seq 0 (length R))) P) []) <-> within R p r2 j).
  rewrite E. split; [apply NoDup_filter'; apply seq_NoDup|]. intro j. rewrite filter_In, in_seq, Qle_bool_iff. unfold within.
  assert (length p = d) as Lp by (apply HP; eapply nth_error_In; eauto). split.
  - intros [Hj Hle]. exists (nth j R []). split; [apply nth_error_nth'; lia|]. rewrite <- sqdist_dist2; auto. rewrite Lp. symmetry. apply HR. apply nth_In. lia.
  - intros [q [Hq Hle]]. pose proof (nth_error_length_lt _ _ _ Hq). split; [lia|]. rewrite (nth_of_nth_error _ _ [] _ Hq). rewrite sqdist_dist2; auto.
    rewrite Lp. symmetry. apply HR. eapply nth_error_In; eauto.
Qed.

Lemma at_most_check k N (f : nat -> Q) r2 : length (filter (fun j => Qle_bool (f j) r2) (seq 0 N)) <= k -> at_most k (fun j => j < N /\ (f j <= r2)%Q).
Proof.
  intros H L HL1 HL2. etransitivity; [|exact H]. apply NoDup_incl_length; auto. intros j Hj. destruct (HL2 j Hj) as [A B].
  apply filter_In. split; [apply in_seq; lia|]. apply Qle_bool_iff. auto.
Qed.

(** Two chains with five sites. *)
Example C77_example :
  correct_ball brute_ball /\ is_argsort dleb dist_argsort /\ built 1 chain5 /\ axis_aligned 1 (b_mat (lt_basis chain5)) /\
  lt_data chain5 = Some chain5_data /\ wf chain5_data /\ has_padding chain5_data chain5_data /\ extent (d_indices chain5_data) 0 5 /\
  (exists an r, st_analysis (lt_structure chain5) = Some an /\ query_radius an = Some r /\ roomy 1 [[1]]%Q [5%Z] r chain5_data chain5_data) /\
  exists l' d', append_lattice brute_ball dist_argsort keep chain5 chain5 0 1 None false = Some l' /\ lt_data l' = Some d' /\
    map (links d') (seq 3 4) = [[(2, Fin 1000000); (4, Fin 1000000)]; [(3, Fin 1000000); (5, Fin 1000000)];
                               [(6, Fin 1000000); (4, Fin 1000000)]; [(5, Fin 1000000); (7, Fin 1000000)]].
Proof.
  split; [apply brute_ball_correct|]. split; [apply dist_argsort_ok|].
  split. { apply built_checked; [|vm_compute; reflexivity]. apply inverse1_check; reflexivity. }
  split. { split; [split; [reflexivity|intros r [<-|[]]; reflexivity]|]. intros [|i] [|j] Hi Hj; try lia. vm_compute. reflexivity. }
  split; [reflexivity|]. split; [apply wf_checked; vm_compute; reflexivity|].
  split. { left. exists 0, 1. split; [vm_compute; lia|]. split; [vm_compute; lia|reflexivity]. }
  split. { exists 0%Z, 4%Z. split; [reflexivity|]. split; [exists [0;0]%Z; vm_compute; auto|]. split; [exists [4;0]%Z; vm_compute; auto 8|].
    intros i Hi. vm_compute in Hi. intuition (subst; cbn; lia). }
  split.
  - eexists. eexists. split; [reflexivity|]. split; [vm_compute; reflexivity|]. split.
    + intros i Hi. change (nsites chain5_data) with 5 in *. apply (at_most_check _ 5).
      do 5 (destruct i as [|i]; [apply Nat.leb_le; vm_compute; reflexivity|]). lia.
    + intros i Hi. change (nsites chain5_data) with 5 in *. apply (at_most_check _ 5).
      do 5 (destruct i as [|i]; [apply Nat.leb_le; vm_compute; reflexivity|]). lia.
  - eexists. eexists. split; [vm_compute; reflexivity|]. split; [reflexivity|]. vm_compute. reflexivity.
Qed.

Definition data_of (l : lattice) : data := match lt_data l with Some d => d | None => chain5_data end.

(** A lattice constant of 1/3: the distance 0.333333 of the neighbours is below 1/3, no link is added at the seam. *)
Definition third_atom : structure :=
  Eval vm_compute in run_calls brute (mkBasis [[1#3]]%Q [[3]]%Q) [CAddAtom (Some [0]%Q) (ex_atom "A") false 1].
Definition thirds : lattice :=
  Eval vm_compute in fst (build brute dist_argsort [1#3]%Q (new_lattice third_atom) (ASize [4#3]%Q) false None true None None None).

Theorem C77_distance_lost_refuted :
  exists l', append_lattice brute_ball dist_argsort keep thirds thirds 0 1 None false = Some l' /\
    map (links (data_of thirds)) (seq 3 2) = [[(2, Fin 333333); (4, Fin 333333)]; [(3, Fin 333333)]] /\
    map (links (data_of l')) (seq 3 4) = [[(2, Fin 333333); (4, Fin 333333)]; [(3, Fin 333333)]; [(6, Fin 333333)]; [(5, Fin 333333); (7, Fin 333333)]] /\
    (sqdist (nth 4 (lt_positions l') []) (nth 5 (lt_positions l') []) == (1#3) * (1#3))%Q.
Proof. eexists. split; [vm_compute; reflexivity|]. split; [vm_compute; reflexivity|]. split; vm_compute; reflexivity. Qed.

(** A strip of two columns with three sites each: the rows of the sites in the middle are full, the links at the seam between them are
    lost. *)
Definition strip6 : lattice :=
  Eval vm_compute in fst (build brute dist_argsort [1; 1]%Q (new_lattice square_atom) (ASize [1; 2]%Q) false None true None None None).

Theorem C77_full_rows_refuted :
  exists l', append_lattice brute_ball dist_argsort keep strip6 strip6 0 1 None false = Some l' /\
    map (fun k => (nth k (lt_indices l') [], map fst (links (data_of l') k))) [3; 4; 6; 7] =
      [([1; 0; 0]%Z, [0; 4; 6]); ([1; 1; 0]%Z, [1; 3; 5]); ([2; 0; 0]%Z, [7; 9; 3]); ([2; 1; 0]%Z, [6; 8; 10])].
Proof. eexists. split; vm_compute; reflexivity. Qed.

(** Connections between atoms of the same kind only: the seam connects the different ones as well, with the wrong distance. *)
Definition aa_atoms : structure :=
  Eval vm_compute in run_calls brute ex_chain
    [CAddAtom (Some [0]%Q) (ex_atom "A") false 0; CAddAtom (Some [3#10]%Q) (ex_atom "B") false 0; CAddConnection (RIndex 0) (RIndex 0) 1 true].
Definition aa_chain : lattice :=
  Eval vm_compute in fst (build brute dist_argsort [1]%Q (new_lattice aa_atoms) (ASize [43#10]%Q) false None true None None None).

(** Sites 8, 9 are the atoms A, B of the last cell, 10, 11 those of the first appended cell.  The link from 9 to 10 has the actual
    distance 7/10 and is missing in the row of 10, which is full; no B has a neighbour in either part. *)
Theorem C77_connections_ignored_refuted :
  st_connections aa_atoms = Some [[1; 0]; [0; 0]] /\
  map (fun i => links (data_of aa_chain) (2 * i + 1)) (seq 0 5) = repeat [] 5 /\
  exists l', append_lattice brute_ball dist_argsort keep aa_chain aa_chain 0 1 None false = Some l' /\
    map (links (data_of l')) (seq 8 4) =
      [[(6, Fin 1000000); (10, Fin 1000000)]; [(10, Fin 1000000); (11, Fin 1000000)]; [(12, Fin 1000000); (8, Fin 1000000)]; [(9, Fin 1000000)]] /\
    (sqdist (nth 9 (lt_positions l') []) (nth 10 (lt_positions l') []) == (7#10) * (7#10))%Q.
Proof. split; [reflexivity|]. split; [vm_compute; reflexivity|]. eexists. split; [vm_compute; reflexivity|]. split; vm_compute; reflexivity. Qed.

(** ** C77: what stays as it was *)

(** Appending, repeating and extending change the data and the extents only: the structure, the periodic axes and the choice
    of primitive vectors are those of the lattice before. *)
Lemma append_section_kept ball argsort w l sec ax side sort_axis sort_reverse primitive l' :
  append_section ball argsort w l sec ax side sort_axis sort_reverse primitive = Some l' ->
  lt_structure l' = lt_structure l /\ lt_axes l' = lt_axes l /\ lt_primitive l' = lt_primitive l.
Proof.
  unfold append_section. intro H.
  repeat match type of H with match ?x with _ => _ end = _ => destruct x; try discriminate end.
  injection H as <-. unfold update_shape. destruct (limits _); auto.
Qed.

Theorem C77_axes_kept :
  (forall ball argsort w l other ax side sort_axis sort_reverse l',
     append_lattice ball argsort w l other ax side sort_axis sort_reverse = Some l' ->
     lt_structure l' = lt_structure l /\ lt_axes l' = lt_axes l /\ lt_primitive l' = lt_primitive l) /\
  (forall ball argsort ws l ax side sort_axis sort_reverse l',
     repeat_lattice ball argsort ws l ax side sort_axis sort_reverse = Some l' ->
     lt_structure l' = lt_structure l /\ lt_axes l' = lt_axes l /\ lt_primitive l' = lt_primitive l) /\
  forall query ball argsort norms w l size ax side sort_axis sort_reverse l',
    extend query ball argsort norms w l size ax side sort_axis sort_reverse = Some l' ->
    lt_structure l' = lt_structure l /\ lt_axes l' = lt_axes l /\ lt_primitive l' = lt_primitive l.
Proof.
  split; [|split].
  - intros until l'. unfold append_lattice. destruct (lt_data other); [|discriminate]. apply append_section_kept.
  - intros ball argsort ws l ax side sort_axis sort_reverse l'. unfold repeat_lattice. destruct (lt_data l); [|discriminate].
    match goal with |- repeat_loop _ _ _ _ ?s ?t _ _ _ _ = _ -> _ => generalize s t end.
    revert l. induction ws as [|w ws IH]; intros l s t H; cbn [repeat_loop] in H.
    + injection H as <-. auto.
    + destruct (append_section _ _ _ _ _ _ _ _ _ _) as [l1|] eqn:E; [|discriminate].
      destruct (append_section_kept _ _ _ _ _ _ _ _ _ _ _ E) as (A1 & A2 & A3). destruct (IH _ _ _ H) as (B1 & B2 & B3).
      rewrite B1, B2, B3. auto.
  - intros until l'. unfold extend. intro H.
    repeat match type of H with
      | append_section _ _ _ _ _ _ _ _ _ _ = _ => fail 1
      | match ?x with _ => _ end = _ => destruct x; try discriminate
      | (if ?x then _ else _) = _ => destruct x; try discriminate end.
    exact (append_section_kept _ _ _ _ _ _ _ _ _ _ _ H).
Qed.

(** The periodic axes are kept although the result has no periodic neighbour: a ring to which a chain is appended claims to be
    periodic along its axis. *)
Theorem C77_axes_stale_refuted :
  lt_axes ring5 = [0] /\
  exists l', append_lattice brute_ball dist_argsort keep ring5 chain5 0 1 None false = Some l' /\ lt_axes l' = [0] /\ lt_num_sites l' = 10 /\
    map (fun i => existsb s_per (slots (data_of l') i)) (seq 0 10) = repeat false 10.
Proof. split; [reflexivity|]. eexists. split; [vm_compute; reflexivity|]. split; [reflexivity|]. split; vm_compute; reflexivity. Qed.

(** ** C44: distances that are not stored *)

(** [v] is the least stored distance that is not below [x]; with padding only ([Inf]) the neighbour is lost. *)
Theorem C44_any_distance :
  forall d i j x, wf d -> packed d -> i < nsites d -> j < nsites d -> length (links d i) < d_cols d ->
    exists d' v, add_neighbor d i j x = Some d' /\
      In v (d_distvals d) /\ dleb x v = true /\ (forall u, In u (d_distvals d) -> dleb x u = true -> dleb v u = true) /\
      wf d' /\ packed d' /\ d_indices d' = d_indices d /\ d_positions d' = d_positions d /\ d_distvals d' = d_distvals d /\
      links d' i = links d i ++ (match v with Inf => [] | Fin _ => [(j, v)] end) /\
      forall i', i' < nsites d -> i' <> i -> links d' i' = links d i'.
Proof.
  intros d i j x W P Hi Hj Hr. destruct (add_link d i j x W P Hi Hj Hr) as (d' & v & E & (V1 & V2 & V3) & W' & P' & _ & _ & Ei & Ep & Ev & _ & _ & H).
  exists d', v. repeat (split; [assumption|]). split.
  - rewrite (H i Hi), Nat.eqb_refl. reflexivity.
  - intros i' Hi' Hne. rewrite (H i' Hi'). destruct (Nat.eqb_spec i' i); [contradiction|]. apply app_nil_r.
Qed.

Example C44_any_distance_example :
  wf chain3 /\ packed chain3 /\ length (links chain3 0) < d_cols chain3 /\
  (exists d', add_neighbor chain3 0 2 (Fin 500000) = Some d' /\ links d' 0 = [(1, Fin 1000000); (2, Fin 1000000)]) /\
  exists d', add_neighbor chain3 0 2 (Fin 1500000) = Some d' /\ links d' 0 = [(1, Fin 1000000)].
Proof.
  split; [apply chain3_wf|]. split; [|split; [vm_compute; lia|split; eexists; split; vm_compute; reflexivity]].
  intros i Hi. change (nsites chain3) with 3 in Hi. destruct i as [|[|[|i]]]; [| | |lia];
    [exists 1|exists 2|exists 1]; (split; [cbn; lia|]); intros c Hc; cbn in Hc; destruct c as [|[|c]]; try lia; reflexivity.
Qed.

Print Assumptions C77_append_links.
Print Assumptions C77_distance_lost_refuted.
Print Assumptions C77_full_rows_refuted.
Print Assumptions C77_connections_ignored_refuted.
Print Assumptions C77_axes_kept.
Print Assumptions C77_axes_stale_refuted.
Print Assumptions C44_any_distance.
