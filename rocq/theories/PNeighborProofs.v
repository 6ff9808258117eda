(** * The dictionary of periodic neighbours *)
From Coq Require Import String List ZArith QArith Bool Arith Lia Lqa Permutation Sorting.Sorted.
From Verif Require Import Np NpFacts LinAlg LinFacts SpecUtils SpecBasis SpecSpatial SpecData BasisModel BasisProofs SpatialModel SpatialProofs
  ShapeModel SpecStructure StructureModel StructureFacts RoundFacts AnalyzeProofs KDProofs PropAnalyze FilterProofs SpecNeighbors NeighborProofs
  DataModel DataFacts DataOps LatticeModel SpecLattice LatticeFacts TranslationFacts ImageProofs PropMinDist.
Import ListNotations.
Open Scope nat_scope.
Open Scope list_scope.

(** Entries of a site. *)
Fixpoint pd_get (d : pdict) (k : nat) : list pneighbor :=
  match d with
  | [] => []
  | (k', v) :: r => if k =? k' then v else pd_get r k
  end.

Lemma pd_get_extend d k es k' : pd_get (pd_extend d k es) k' = if k' =? k then pd_get d k ++ es else pd_get d k'.
Proof.
  induction d as [|[k0 v] d IH]; cbn.
  - destruct (k' =? k); auto.
  - destruct (Nat.eqb_spec k k0) as [E|E]; cbn.
    + subst k0. destruct (k' =? k); auto.
    + destruct (Nat.eqb_spec k' k0) as [E'|E'].
      * subst k0. destruct (Nat.eqb_spec k' k); [congruence|auto].
      * rewrite IH. auto.
Qed.

Lemma pd_keys_extend d k es : (forall x, In x (map fst (pd_extend d k es)) <-> x = k \/ In x (map fst d)) /\
  (NoDup (map fst d) -> NoDup (map fst (pd_extend d k es))).
Proof.
  induction d as [|[k0 v] d [IH1 IH2]]; cbn.
  - split; [intro x; intuition (subst; auto)|]. intros _. constructor; auto. constructor.
  - destruct (Nat.eqb_spec k k0) as [E|E]; cbn.
    + subst k0. split; [intro x; intuition (subst; auto)|auto].
    + split.
      * intro x. rewrite IH1. intuition.
      * intro H. inversion H as [|? ? Hn Hd]; subst. constructor; auto. rewrite IH1. intuition.
Qed.

Lemma pd_get_in d k v : NoDup (map fst d) -> In (k, v) d -> pd_get d k = v.
Proof.
  induction d as [|[k0 v0] d IH]; cbn; [tauto|]. intros Hnd [E|Hin].
  - injection E as -> ->. rewrite Nat.eqb_refl. auto.
  - inversion Hnd as [|? ? Hn Hd]; subst. destruct (Nat.eqb_spec k k0) as [E|E]; [|auto].
    exfalso. apply Hn. subst k0. apply in_map_iff. exists (k, v). auto.
Qed.

Lemma pd_get_nonempty d k e : In e (pd_get d k) -> In (k, pd_get d k) d.
Proof.
  induction d as [|[k0 v0] d IH]; cbn; [tauto|]. destruct (Nat.eqb_spec k k0); [subst; auto|auto].
Qed.

(** Entries found for one translated site. *)
Definition found (n : nat) (row : list (nat * dist)) : list (nat * dist) := filter (fun e => fst e <? n) row.
Definition forth (ax : list nat) (v : list Z) (e : nat * dist) : pneighbor := mkPN (fst e) (snd e) v ax.
Definition back (ax : list nat) (v : list Z) (s : nat) (e : nat * dist) : pneighbor := mkPN s (snd e) (neg v) ax.

Lemma add_translated_get n ax v d s row k :
  pd_get (add_translated n ax v d (s, row)) k =
  pd_get d k ++ (if k =? s then map (forth ax v) (found n row) else []) ++
    map (back ax v s) (filter (fun e => fst e =? k) (found n row)).
Proof.
  unfold add_translated. fold (found n row).
  assert (forall L d', pd_get (fold_left (fun d e => pd_extend d (fst e) [mkPN s (snd e) (neg v) ax]) L d') k =
    pd_get d' k ++ map (back ax v s) (filter (fun e => fst e =? k) L)) as H.
  { induction L as [|e L IH]; intro d'; cbn; [rewrite app_nil_r; auto|]. rewrite IH, pd_get_extend. rewrite (Nat.eqb_sym k (fst e)).
    destruct (Nat.eqb_spec (fst e) k) as [E|E]; cbn; auto. rewrite E, <- app_assoc. reflexivity. }
  rewrite H, pd_get_extend. destruct (Nat.eqb_spec k s) as [E|E]; cbn; auto. subst s. rewrite <- app_assoc. reflexivity.
Qed.

Lemma add_translated_keys n ax v d s row : NoDup (map fst d) -> NoDup (map fst (add_translated n ax v d (s, row))).
Proof.
  intro H. unfold add_translated. apply (pd_keys_extend d s (map (fun e => mkPN (fst e) (snd e) v ax) (filter (fun e => fst e <? n) row))) in H. revert H.
  generalize (pd_extend d s (map (fun e => mkPN (fst e) (snd e) v ax) (filter (fun e => fst e <? n) row))).
  generalize (filter (fun e : nat * dist => fst e <? n) row). induction l as [|e L IH]; intros d' H; cbn; auto.
  apply IH. apply pd_keys_extend. auto.
Qed.

(** The entry seen from the other site. *)
Definition swap (i : nat) (e : pneighbor) : pneighbor := mkPN i (pn_dist e) (neg (pn_nvec e)) (pn_axes e).
Definition to (j : nat) (e : pneighbor) : bool := pn_idx e =? j.
Definition mirrored (d : pdict) : Prop :=
  forall i j, i <> j -> filter (to i) (pd_get d j) = map (swap i) (filter (to j) (pd_get d i)).

Lemma neg_neg v : neg (neg v) = v.
Proof. apply opp_opp. Qed.

Lemma filter_forth ax v j L : filter (to j) (map (forth ax v) L) = map (forth ax v) (filter (fun e => fst e =? j) L).
Proof.
  induction L as [|e L IH]; [reflexivity|]. cbn [map filter]. rewrite IH. change (to j (forth ax v e)) with (fst e =? j).
  destruct (fst e =? j); reflexivity.
Qed.

Lemma filter_back ax v s j L : filter (to j) (map (back ax v s) L) = if s =? j then map (back ax v s) L else [].
Proof.
  induction L as [|e L IH]; [destruct (s =? j); reflexivity|]. cbn [map filter]. rewrite IH.
  change (to j (back ax v s e)) with (s =? j). destruct (s =? j); reflexivity.
Qed.

Lemma mirrored_step n ax v d s row : mirrored d -> mirrored (add_translated n ax v d (s, row)).
Proof.
  intros H i j Hij. rewrite !add_translated_get, !filter_app, !map_app, (H i j Hij). f_equal.
  set (L := found n row).
  assert (forall e, fst e = j -> swap i (forth ax v e) = back ax v i e) as Hfb by reflexivity.
  assert (forall e, fst e = i -> swap i (back ax v j e) = forth ax v e) as Hbf.
  { intros [x y] E. cbn in E. subst x. unfold swap, back, forth. cbn. rewrite neg_neg. reflexivity. }
  rewrite !filter_back. destruct (Nat.eqb_spec i s) as [Es|Es].
  - subst s. destruct (Nat.eqb_spec j i) as [E|_]; [congruence|]. rewrite Nat.eqb_refl. destruct (Nat.eqb_spec i j) as [E|_]; [congruence|].
    rewrite filter_forth. cbn. rewrite app_nil_r, map_map. apply map_ext. reflexivity.
  - destruct (Nat.eqb_spec j s) as [E|E].
    + subst s. rewrite Nat.eqb_refl. destruct (Nat.eqb_spec j i) as [E|_]; [congruence|].
      rewrite filter_forth. cbn. rewrite app_nil_r, map_map. apply map_ext_in. intros e He. apply filter_In in He.
      symmetry. apply Hbf. apply Nat.eqb_eq. tauto.
    + destruct (Nat.eqb_spec s i) as [E'|_]; [congruence|]. destruct (Nat.eqb_spec s j) as [E'|_]; [congruence|]. reflexivity.
Qed.

(** ** The last loop *)

Lemma first_index_nth (L : list pneighbor) j dflt : In j (map pn_idx L) ->
  exists e r, filter (to j) L = e :: r /\ nth (first_index j (map pn_idx L)) L dflt = e /\ pn_idx e = j.
Proof.
  induction L as [|e L IH]; cbn [map filter first_index nth In]; [tauto|]. intro H. change (to j e) with (pn_idx e =? j). rewrite (Nat.eqb_sym j).
  destruct (Nat.eqb_spec (pn_idx e) j) as [E|E].
  - exists e, (filter (to j) L). auto.
  - destruct H as [H|H]; [congruence|]. destruct (IH H) as [e' [r [H1 [H2 H3]]]]. exists e', r. auto.
Qed.

Lemma finish_site_spec ex entries :
  NoDup (map pn_idx (finish_site ex entries)) /\
  (forall j, In j (map pn_idx (finish_site ex entries)) <-> In j (map pn_idx entries) /\ ~ In j ex) /\
  ((forall e, In e entries -> ~ In (pn_idx e) ex) ->
   forall e, In e (finish_site ex entries) -> exists r, filter (to (pn_idx e)) entries = e :: r).
Proof.
  set (pi := filter (fun j => negb (isin ex j)) (map pn_idx entries)).
  assert (map pn_idx (finish_site ex entries) = unique Nat.leb pi) as E.
  { unfold finish_site. fold pi. cbv zeta. rewrite map_map. cbn. apply map_id. }
  rewrite E. split; [apply unique_NoDup; intros; rewrite ?Nat.leb_le in *; lia|]. split.
  - intro j. rewrite In_unique by (intros; rewrite ?Nat.leb_le in *; lia). unfold pi. rewrite filter_In, negb_true_iff. rewrite isin_false. reflexivity.
  - intros Hno e He. unfold finish_site in He. fold pi in He. cbv zeta in He. apply in_map_iff in He. destruct He as [j [<- Hj]]. apply In_unique in Hj; [|intros; rewrite ?Nat.leb_le in *; lia..]. cbn [pn_idx].
    assert (pi = map pn_idx entries) as Epi.
    { unfold pi. apply filter_all. intros x Hx. apply in_map_iff in Hx. destruct Hx as [e [<- He]]. apply negb_true_iff, isin_false. auto. }
    rewrite Epi in *. destruct (first_index_nth entries j (mkPN 0 Inf [] []) Hj) as [e [r [H1 [H2 H3]]]].
    exists r. rewrite H1. f_equal. cbv zeta. rewrite H2. destruct e; cbn in *. congruence.
Qed.

Lemma finish_spec d pd pd' : finish d pd = Some pd' -> NoDup (map fst pd) ->
  NoDup (map fst pd') /\
  forall k, (forall l, In (k, l) pd' -> exists ex, DataModel.get_neighbors d k None None false = Some ex /\ l = finish_site ex (pd_get pd k)) /\
    (forall ex, DataModel.get_neighbors d k None None false = Some ex -> pd_get pd' k = finish_site ex (pd_get pd k)).
Proof.
  revert pd'. induction pd as [|[k0 v] pd IH]; intros pd' H Hnd.
  - injection H as <-. split; [constructor|]. intro k. split; [intros l []|]. intros. reflexivity.
  - cbn in H. destruct (DataModel.get_neighbors d k0 None None false) as [ex|] eqn:Eex; [|discriminate].
    destruct (finish d pd) as [rest|] eqn:Er; [|discriminate]. inversion Hnd as [|? ? Hn Hnd']; subst.
    destruct (IH rest eq_refl Hnd') as [IH1 IH2].
    assert (forall k l, In (k, l) rest -> k <> k0) as Hk0.
    { intros k l Hin ->. destruct (IH2 k0) as [A _]. destruct (A l Hin) as [ex' [_ El]].
      assert (pd_get pd k0 = []) as Eg.
      { clear -Hn. induction pd as [|[a b] pd IH]; cbn; auto. cbn in Hn. destruct (Nat.eqb_spec k0 a); [subst; tauto|]. apply IH. tauto. }
      rewrite Eg in El. assert (l = []) as -> by exact El.
      clear -Hin Er. revert rest Hin Er. induction pd as [|[a b] pd IH]; intros rest Hin Er; cbn in Er.
      - injection Er as <-. destruct Hin.
      - destruct (DataModel.get_neighbors d a None None false); [|discriminate]. destruct (finish d pd) as [r|]; [|discriminate].
        destruct (finish_site l b) eqn:E; injection Er as <-; eauto. destruct Hin as [Hin|Hin]; [discriminate|]. eauto. }
    assert (pd_get rest k0 = []) as Er0.
    { destruct (pd_get rest k0) as [|e r] eqn:E; auto. exfalso. eapply Hk0; [|reflexivity]. apply (pd_get_nonempty rest k0 e). rewrite E. left; auto. }
    destruct (finish_site ex v) as [|e0 l0] eqn:Ef.
    + injection H as <-. split; auto. intro k. destruct (IH2 k) as [A B]. cbn [pd_get]. split.
      * intros l Hin. destruct (Nat.eqb_spec k k0); [exfalso; eapply Hk0; eauto|]. auto.
      * intros ex' Eex'. destruct (Nat.eqb_spec k k0) as [->|E]; auto. rewrite Er0. congruence.
    + injection H as <-. split.
      * cbn. constructor; auto. intro Hin. apply in_map_iff in Hin. destruct Hin as [[k l] [E Hin]]. cbn in E. subst k. eapply Hk0; eauto.
      * intro k. destruct (IH2 k) as [A B]. cbn [pd_get]. split.
        -- intros l [E|Hin].
           ++ injection E as <- <-. rewrite Nat.eqb_refl. exists ex. auto.
           ++ destruct (Nat.eqb_spec k k0); [exfalso; eapply Hk0; eauto|]. auto.
        -- intros ex' Eex'. destruct (Nat.eqb_spec k k0) as [->|E]; auto. congruence.
Qed.

(** ** Collecting *)

Section Collect.
  Variables (query : kd_tree) (argsort : list dist -> list nat) (b : basis) (an : analysis) (d : nat) (I : list (list Z)) (P : list (list Q)) (r : Q).
  Hypothesis (Hq : correct_tree query) (Harg : is_argsort dleb argsort) (Hlen : length I = length P).
  Hypothesis (Hd : b_dim b = d) (Hsq : square d (b_mat b)) (HP : forall p, In p P -> length p = d).
  Let D := an_distmat an.
  Let k := query_count an.
  Hypothesis (Hatoms : forall i, In i I -> (0 <= last i 0 < Z.of_nat (length D))%Z).
  Hypothesis (Hr : query_radius an = Some r).
  Let allowed a c x := In x (nth c (nth a D []) []).
  Hypothesis Hsym : forall a c x, allowed a c x -> allowed c a x.
  Let image := image_sites d (b_mat b) allowed I P.
  Let roomy v := (0 < r)%Q /\ (forall a c z, allowed a c (Fin z) -> z <> 0%Z /\ (inject_Z z + (1#2) < r * (1000000#1))%Q) /\
    forall p, In p P -> at_most k (within P (lattice_point d (b_mat b) p v) (r * r)%Q).

  Lemma image_rev v i j x : image v i j x -> image (neg v) j i x.
  Proof.
    intros [p [q [z [Hp [Hq' [-> [Hz Ha]]]]]]]. exists q, p, z. split; auto. split; auto. split; auto. split; auto.
    eapply rounds_ext; [|exact Hz]. apply image_swap; apply HP; eapply nth_error_In; eauto.
  Qed.

  Lemma translated_spec v : length v = d -> exists T, translated_rows query argsort b an I P v = Some T /\ length T = length P /\
    forall i row, nth_error T i = Some row ->
      (forall j x, In (j, x) row -> j < length P -> image v i j x) /\
      (roomy v -> forall j x, image v i j x -> In (j, x) row) /\
      NoDup (map fst (found (length I) row)).
  Proof.
    intro Lv. unfold translated_rows. rewrite Hr. eexists. split; [reflexivity|].
    set (X := map (fun p => vadd p (translate b v (vzero (b_dim b)))) P).
    assert (forall i p, nth_error P i = Some p -> exists q, nth_error X i = Some q /\ veq q (lattice_point d (b_mat b) p v)) as HX.
    { intros i p Hp. exists (vadd p (translate b v (vzero (b_dim b)))). split; [exact (map_nth_error (fun p => vadd p (translate b v (vzero (b_dim b)))) i P Hp)|].
      pose proof (HP p (nth_error_In _ _ Hp)) as Lp.
      destruct (translate_point b d v (vzero (b_dim b)) Hd Hsq) as [Hv Lt]; auto; [unfold vzero; rewrite repeat_length; auto|].
      assert (length p = length (translate b v (vzero (b_dim b)))) as L2 by (unfold vec in *; lia).
      assert (length (vadd p (translate b v (vzero (b_dim b)))) = d) as L3 by (rewrite vadd_length; auto).
      apply veq_nth. rewrite lattice_point_length. split; auto. intro c.
      destruct (Nat.lt_ge_cases c d) as [Hc|Hc].
      - rewrite nth_vadd by auto. apply veq_nth in Hv. destruct Hv as [_ Hv]. rewrite (Hv c). rewrite !nth_lattice_point by auto.
        unfold vzero. rewrite nth_repeat. ring.
      - rewrite !nth_overflow; [reflexivity| |]; rewrite ?lattice_point_length; unfold vec in *; lia. }
    assert (length X = length P) as LX by (unfold X; apply map_length).
    destruct (query_table query argsort D I P X r k Hq Harg Hlen LX Hatoms) as [LT HT].
    split; [exact LT|]. intros i row Hrow.
    assert (i < length P) as Hi by (rewrite <- LT; exact (nth_error_length_lt _ _ _ Hrow)).
    destruct (nth_error P i) as [p|] eqn:Ep; [|apply nth_error_None in Ep; lia].
    destruct (HX i p Ep) as [q [Eq Hv]]. destruct (HT i q row Eq Hrow) as [T1 [T2 [T3 T4]]].
    assert (forall j x, image v i j x <-> exists q0, nth_error X i = Some q0 /\ point_distance P q0 j x /\ In x (nth (atom_of I j) (nth (atom_of I i) D []) [])) as Him.
    { intros j x. split.
      - intros [p0 [q1 [z [Hp0 [Hq1 [-> [Hz Ha]]]]]]]. rewrite Ep in Hp0. injection Hp0 as <-. exists q. split; auto. split; auto.
        exists q1, z. split; auto. split; auto. eapply rounds_ext; [|exact Hz]. symmetry. apply sqdist_same. auto.
      - intros [q0 [Hq0 [[p1 [z [Hp1 [-> Hz]]]] Ha]]]. rewrite Eq in Hq0. injection Hq0 as <-. exists p, p1, z. split; auto. split; auto. split; auto. split; auto.
        eapply rounds_ext; [|exact Hz]. apply sqdist_same. auto. }
    assert (forall j x, In (j, x) row -> j < length P -> x <> Inf) as Hninf.
    { intros j x Hin Hj ->. apply T3 in Hin. lia. }
    split; [|split].
    - intros j x Hin Hj. apply Him. apply T1; eauto.
    - intros [R1 [R2 R3]] j x H. apply T2; auto; [|apply Him; auto].
      specialize (R3 p (nth_error_In _ _ Ep)). eapply at_most_weaken; [exact R3|]. intros j0 [p0 [Hp0 Hle]]. exists p0. split; auto.
      rewrite <- (sqdist_same q); auto.
    - assert (forall L, (forall j x, In (j, x) L -> j < length P -> x <> Inf) -> NoDup (map fst (filter fin L)) -> NoDup (map fst (found (length I) L))) as Hsub.
      { clear -Hlen. induction L as [|[j x] L IH]; intros H Hnd; [constructor|]. unfold found in *. cbn [filter fst] in *.
        assert (NoDup (map fst (filter fin L))) as Hnd' by (destruct (fin (j, x)); [inversion Hnd; auto|auto]).
        assert (NoDup (map fst (filter (fun e => fst e <? length I) L))) as IHL by (apply IH; auto; intros; eapply H; eauto; right; auto).
        destruct (Nat.ltb_spec j (length I)) as [Hj|Hj]; auto. cbn [map fst]. constructor; auto.
        intro Hin. apply in_map_iff in Hin. destruct Hin as [[j' y] [E Hin]]. cbn in E. subst j'. apply filter_In in Hin.
        destruct Hin as [Hin _]. assert (fin (j, x) = true) as Fx by (apply fin_spec; cbn; eapply H; [left; reflexivity|lia]).
        rewrite Fx in Hnd. cbn in Hnd. inversion Hnd as [|? ? Hn _]; subst. apply Hn. apply in_map_iff. exists (j, y). split; auto.
        apply filter_In. split; auto. apply fin_spec. cbn. eapply H; [right; exact Hin|lia]. }
      apply Hsub; auto.
  Qed.

  (** What holds of the dictionary after some translations. *)
  Definition entries_ok (done : list (list nat * list Z)) (pd : pdict) : Prop :=
    NoDup (map fst pd) /\ mirrored pd /\
    (forall i e, In e (pd_get pd i) -> image (pn_nvec e) i (pn_idx e) (pn_dist e) /\ translation_of done (pn_axes e) (pn_nvec e)) /\
    (forall ax v i j x, In (ax, v) done -> roomy v -> image v i j x ->
       In (mkPN j x v ax) (pd_get pd i) /\ In (mkPN i x (neg v) ax) (pd_get pd j)).

  Lemma image_lt v i j x : image v i j x -> i < length P /\ j < length P.
  Proof. intros [p [q [z [Hp [Hq' _]]]]]. split; eapply nth_error_length_lt; eauto. Qed.

  Lemma fold_add_translated (rows : list (nat * list (nat * dist))) ax v pd i :
    (forall e, In e (pd_get (fold_left (add_translated (length I) ax v) rows pd) i) <->
       In e (pd_get pd i) \/ (exists row f, In (i, row) rows /\ In f (found (length I) row) /\ e = forth ax v f) \/
       (exists s row f, In (s, row) rows /\ In f (found (length I) row) /\ fst f = i /\ e = back ax v s f)).
  Proof.
    revert pd. induction rows as [|[s row] rows IH]; intros pd e.
    - cbn. split; [auto|]. intros [H|[[? [? [[] _]]]|[? [? [? [[] _]]]]]]; auto.
    - cbn [fold_left]. rewrite IH, add_translated_get, !in_app_iff. split.
      + intros [[H|[H|H]]|[H|H]]; auto.
        * destruct (Nat.eqb_spec i s); [|destruct H]. subst s. apply in_map_iff in H. destruct H as [f [<- Hf]]. right. left. exists row, f. cbn; auto.
        * apply in_map_iff in H. destruct H as [f [<- Hf]]. apply filter_In in Hf. destruct Hf as [Hf Ef]. apply Nat.eqb_eq in Ef.
          right. right. exists s, row, f. cbn; auto.
        * destruct H as [row' [f [H1 H2]]]. right. left. exists row', f. cbn; auto.
        * destruct H as [s' [row' [f [H1 H2]]]]. right. right. exists s', row', f. cbn; auto.
      + intros [H|[[row' [f [[H1|H1] [H2 H3]]]]|[s' [row' [f [[H1|H1] [H2 [H3 H4]]]]]]]]; auto.
        * injection H1 as -> ->. left. right. left. rewrite Nat.eqb_refl. subst e. apply in_map. auto.
        * right. left. exists row', f. auto.
        * injection H1 as -> ->. left. right. right. subst e. apply in_map. apply filter_In. split; auto. apply Nat.eqb_eq. auto.
        * right. right. exists s', row', f. auto.
  Qed.

  Lemma collect_ok items done pd : (forall ax v, In (ax, v) items -> length v = d) -> entries_ok done pd ->
    exists pd', collect_translations query argsort b an I P items pd = Some pd' /\ entries_ok (done ++ items) pd'.
  Proof.
    revert done pd. induction items as [|[ax v] items IH]; intros done pd Hit Hok.
    - exists pd. rewrite app_nil_r. auto.
    - cbn. destruct (translated_spec v) as [T [ET [LT HT]]]; [eapply Hit; left; eauto|]. unfold vec in *. rewrite ET.
      replace (done ++ (ax, v) :: items) with ((done ++ [(ax, v)]) ++ items) by (rewrite <- app_assoc; reflexivity).
      apply IH; [intros; eapply Hit; right; eauto|].
      set (rows := filter (fun sr => existsb (fun e => dfinite (snd e)) (snd sr)) (enumerate T)).
      assert (forall s row, In (s, row) rows -> nth_error T s = Some row) as Hrows.
      { intros s row H. apply filter_In in H. destruct H as [H _]. apply In_enumerate in H. auto. }
      destruct Hok as [K1 [K2 [K3 K4]]].
      assert (forall s row f, In (s, row) rows -> In f (found (length I) row) -> image v s (fst f) (snd f)) as Hf.
      { intros s row [j x] Hin Hff. apply filter_In in Hff. destruct Hff as [Hff Hj]. apply Nat.ltb_lt in Hj. cbn [fst snd] in *.
        destruct (HT s row (Hrows s row Hin)) as [T1 _]. apply T1; auto. lia. }
      split; [|split; [|split]].
      + clear -K1. revert pd K1. induction rows as [|[s row] rows IHr]; intros pd K1; cbn [fold_left]; auto. apply IHr. apply add_translated_keys. auto.
      + clear -K2. revert pd K2. induction rows as [|[s row] rows IHr]; intros pd K2; cbn [fold_left]; auto. apply IHr. apply mirrored_step. auto.
      + intros i e He. apply fold_add_translated in He. destruct He as [He|[[row [f [H1 [H2 ->]]]]|[s [row [f [H1 [H2 [H3 ->]]]]]]]].
        * destruct (K3 i e He) as [A B]. split; auto. destruct B as [B|B]; [left|right]; apply in_or_app; auto.
        * cbn. split; [eapply Hf; eauto|]. left. apply in_or_app. right. left. auto.
        * cbn. split; [subst i; apply image_rev; eapply Hf; eauto|]. right. fold (neg (neg v)). rewrite neg_neg. apply in_or_app. right. left. auto.
      + intros ax' v' i j x Hin Hroom Him. apply in_app_iff in Hin. destruct Hin as [Hin|[E|[]]].
        * destruct (K4 ax' v' i j x Hin Hroom Him). split; apply fold_add_translated; auto.
        * injection E as <- <-. destruct (image_lt _ _ _ _ Him) as [Li Lj].
          destruct (nth_error T i) as [row|] eqn:Erow; [|apply nth_error_None in Erow; lia].
          destruct (HT i row Erow) as [_ [T2 _]]. specialize (T2 Hroom j x Him).
          assert (In (i, row) rows) as Hir.
          { apply filter_In. split; [apply In_enumerate; auto|]. cbn. apply existsb_exists. exists (j, x). split; auto.
            destruct Him as [_ [_ [z [_ [_ [-> _]]]]]]. reflexivity. }
          assert (In (j, x) (found (length I) row)) as Hfd by (apply filter_In; split; auto; apply Nat.ltb_lt; cbn; lia).
          split; apply fold_add_translated; right.
          -- left. exists row, (j, x). auto.
          -- right. exists i, row, (j, x). auto.
  Qed.
  (** The keys are sites. *)
  Lemma collect_keys items pd pd' : (forall ax v, In (ax, v) items -> length v = d) -> (forall s, In s (map fst pd) -> s < length P) ->
    collect_translations query argsort b an I P items pd = Some pd' -> forall s, In s (map fst pd') -> s < length P.
  Proof.
    revert pd. induction items as [|[ax v] items IH]; intros pd Hit Hk E; [injection E as <-; auto|].
    cbn in E. destruct (translated_spec v) as [T [ET [LT HT]]]; [eapply Hit; left; eauto|]. unfold vec in *. rewrite ET in E.
    revert E. apply IH; [intros; eapply Hit; right; eauto|].
    set (rows := filter (fun sr => existsb (fun e => dfinite (snd e)) (snd sr)) (enumerate T)).
    assert (forall s row, In (s, row) rows -> s < length P) as Hrows.
    { intros s row H. apply filter_In in H. destruct H as [H _]. apply In_enumerate in H. rewrite <- LT. apply nth_error_Some. congruence. }
    clear -Hk Hrows Hlen. revert pd Hk. induction rows as [|[s row] rows IHr]; intros pd Hk; cbn [fold_left]; auto.
    apply IHr; [intros; eapply Hrows; right; eauto|]. unfold add_translated.
    assert (forall L pd0, (forall f, In f L -> fst f < length P) -> (forall s0, In s0 (map fst pd0) -> s0 < length P) ->
      forall s0, In s0 (map fst (fold_left (fun pd e => pd_extend pd (fst e) [mkPN s (snd e) (neg v) ax]) L pd0)) -> s0 < length P) as H.
    { induction L as [|f L IHL]; intros pd0 HL Hpd; cbn [fold_left]; auto. apply IHL; [intros; apply HL; right; auto|].
      intros s0 H. apply pd_keys_extend in H. destruct H as [->|H]; auto. apply HL. left. auto. }
    apply H.
    - intros f Hf. apply filter_In in Hf. destruct Hf as [_ Hf]. apply Nat.ltb_lt in Hf. lia.
    - intros s0 H0. apply pd_keys_extend in H0. destruct H0 as [->|H0]; auto. eapply Hrows. left. reflexivity.
  Qed.
End Collect.

Lemma finish_total d pd : (forall k, In k (map fst pd) -> exists ex, DataModel.get_neighbors d k None None false = Some ex) -> exists pd', finish d pd = Some pd'.
Proof.
  induction pd as [|[k v] pd IH]; intro H; [exists []; reflexivity|]. cbn. destruct (H k (or_introl eq_refl)) as [ex ->].
  destruct IH as [r ->]; [intros; apply H; right; auto|]. destruct (finish_site ex v); eauto.
Qed.
