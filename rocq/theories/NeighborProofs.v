(** * compute_neighbors lists the connected sites *)
From Coq Require Import List ZArith QArith Qreduction Bool Arith Lia Lqa Permutation Sorting.Sorted.
From Verif Require Import Np NpFacts LinAlg LinFacts SpecUtils SpecBasis SpecSpatial SpecData BasisModel BasisProofs SpatialModel SpatialProofs
  ShapeModel SpecStructure StructureModel StructureFacts RoundFacts AnalyzeProofs KDProofs PropSpatial PropAnalyze FilterProofs SpecNeighbors.
Import ListNotations.
Open Scope nat_scope.
Open Scope list_scope.

Lemma NoDup_finite (l : list (nat * dist)) :
  (forall c c' j x x', nth_error l c = Some (j, x) -> nth_error l c' = Some (j, x') -> x <> Inf -> x' <> Inf -> c = c') ->
  NoDup (map fst (filter fin l)).
Proof.
  induction l as [|[j x] l IH]; intro H; cbn; [constructor|].
  assert (NoDup (map fst (filter fin l))) as Hl.
  { apply IH. intros c c' i y y' H1 H2 H3 H4. assert (S c = S c') as E by (apply (H (S c) (S c') i y y'); auto). lia. }
  destruct (fin (j, x)) eqn:E; auto. cbn. constructor; auto. intro Hin. apply in_map_iff in Hin. destruct Hin as [[j' y] [Ej Hin]].
  cbn in Ej. subst j'. apply filter_In in Hin. destruct Hin as [Hin Ey]. apply In_nth_error in Hin. destruct Hin as [c Hc].
  unfold fin in *. cbn [snd] in *. apply negb_true_iff in E, Ey. apply deqb_neq in E. apply deqb_neq in Ey.
  specialize (H 0 (S c) j x y eq_refl Hc E Ey). discriminate.
Qed.

Lemma fin_spec e : fin e = true <-> snd e <> Inf.
Proof. unfold fin. rewrite negb_true_iff. apply deqb_neq. Qed.

Lemma clean_cases I D a e : clean I D a e = e \/ clean I D a e = (length I, Inf).
Proof. unfold clean, clean_pairs. destruct (existsb _ _); auto. Qed.

Lemma NoDup_clean I D a l : NoDup (map fst (filter fin l)) -> NoDup (map fst (filter fin (map (clean I D a) l))).
Proof.
  induction l as [|e l IH]; cbn; auto. intro H.
  assert (NoDup (map fst (filter fin l))) as Hl by (destruct (fin e); [inversion H; auto|auto]).
  destruct (clean_cases I D a e) as [->| ->]; [|cbn; auto].
  destruct (fin e); auto. cbn in *. inversion H as [|? ? Hn _]; subst. constructor; auto.
  intro Hin. apply Hn. apply in_map_iff in Hin. destruct Hin as [f [Ef Hf]]. apply filter_In in Hf. destruct Hf as [Hf Ff].
  apply in_map_iff in Hf. destruct Hf as [g [Eg Hg]]. destruct (clean_cases I D a g) as [E|E].
  - apply in_map_iff. exists f. split; auto. apply filter_In. split; auto. congruence.
  - exfalso. rewrite E in Eg. subst f. discriminate Ff.
Qed.

Lemma sorted_padded N W f : StronglySorted (fun e g => dleb (snd e) (snd g) = true) f ->
  StronglySorted (fun e g : nat * dist => dleb (snd e) (snd g) = true) (padded_row N W f).
Proof.
  intro H. unfold padded_row. generalize (W - length f). intro n.
  induction H as [|e f H IH Hf]; cbn.
  - induction n as [|n IH]; cbn; constructor; auto. apply Forall_forall. intros e He. apply repeat_spec in He. subst. reflexivity.
  - constructor; auto. apply Forall_app. split; auto. apply Forall_forall. intros g Hg. apply repeat_spec in Hg. subst. cbn. destruct (snd e); reflexivity.
Qed.

(** Spelling out one row. *)
Lemma padded_row_table (N W : nat) (f : list (nat * dist)) :
  (forall e, In e f -> fin e = true) -> NoDup (map fst f) -> StronglySorted (fun e g => dleb (snd e) (snd g) = true) f -> length f <= W ->
  let row := padded_row N W f in
  length row = W /\
  (forall j x, x <> Inf -> In (j, x) row <-> In (j, x) f) /\
  (forall j, In (j, Inf) row -> j = N) /\
  (forall c c' j x x', nth_error row c = Some (j, x) -> nth_error row c' = Some (j, x') -> x <> Inf -> x' <> Inf -> c = c') /\
  StronglySorted (fun e g => dleb (snd e) (snd g) = true) row.
Proof.
  intros Hfin Hnd Hs Hl row. unfold row. split; [|split; [|split; [|split]]].
  - unfold padded_row. rewrite app_length, repeat_length. lia.
  - intros j x Hx. unfold padded_row. rewrite in_app_iff. split; auto. intros [H|H]; auto. apply repeat_spec in H. injection H. congruence.
  - intros j H. unfold padded_row in H. apply in_app_iff in H. destruct H as [H|H].
    + apply Hfin in H. discriminate.
    + apply repeat_spec in H. injection H. auto.
  - assert (forall c j x, nth_error (padded_row N W f) c = Some (j, x) -> x <> Inf -> nth_error f c = Some (j, x)) as Hin.
    { intros c j x H Hx. unfold padded_row in H. destruct (lt_dec c (length f)) as [Hc|Hc].
      - rewrite nth_error_app1 in H by auto. auto.
      - rewrite nth_error_app2 in H by lia. apply nth_error_In, repeat_spec in H. injection H. congruence. }
    intros c c' j x x' H H' Hx Hx'. apply Hin in H; auto. apply Hin in H'; auto.
    apply (proj1 (NoDup_nth_error (map fst f)) Hnd).
    + rewrite map_length. apply nth_error_Some. congruence.
    + rewrite !nth_error_map', H, H'. reflexivity.
  - apply sorted_padded. auto.
Qed.

Section Compute.
  Variables (query : kd_tree) (argsort : list dist -> list nat) (an : analysis) (d : nat) (I : list (list Z)) (P : list (list Q)) (r : Q).
  Hypothesis (Hq : correct_tree query) (Harg : is_argsort dleb argsort) (HP : distinct_points d P) (Hlen : length I = length P).
  Let D := an_distmat an.
  Let N := length P.
  Hypothesis (Hatoms : forall i, In i I -> (0 <= last i 0 < Z.of_nat (length D))%Z).
  Hypothesis (Hr : query_radius an = Some r) (Hr0 : (0 < r)%Q) (Hk2 : 2 <= query_count an).
  Let k := query_count an.
  Hypothesis (Hroom : forall p, In p P -> at_most k (within P p (r * r)%Q)).
  Hypothesis (Hreach : forall a b z, In (Fin z) (entry2 [] D a b) -> (inject_Z z + (1#2) < r * (1000000#1))%Q).

  Let raw := kd_query N (Some (r * r)%Q) false true (map (fun x => query P x k (Some (r * r)%Q)) P).
  Let rows : list (list (nat * dist)) := map (map (fun e => (fst e, qd_round (snd e)))) raw.

  Lemma raw_rows : length raw = N /\ exists M, M <= k - 1 /\
    (forall i x row, nth_error P i = Some x -> nth_error raw i = Some row -> nearest_row (fun j => j <> i) P x M (k - 1) (Some (r * r)%Q) row).
  Proof.
    destruct (C19_self_query d P k (Some (r * r)%Q) (map (fun x => query P x k (Some (r * r)%Q)) P) HP Hk2) as [H1 [M [HM [H2 _]]]].
    - nra.
    - unfold nearest_rows. generalize (Hq P). intro H. clear -H. generalize P at 2 4. intro L. induction L; cbn; constructor; auto.
    - split; auto. exists M. auto.
  Qed.

  (** An entry of the queried rows. *)
  Lemma row_entries M i p row : M <= k - 1 -> nth_error P i = Some p -> nearest_row (fun j => j <> i) P p M (k - 1) (Some (r * r)%Q) row ->
    (forall j q, In (j, Some q) row -> j <> i /\ exists p', nth_error P j = Some p' /\ (q == sqdist p p')%Q /\ (q <= r * r)%Q) /\
    (forall j p', j <> i -> nth_error P j = Some p' -> (sqdist p p' < r * r)%Q -> exists q, In (j, Some q) row) /\
    (forall e, In e row -> snd e = None -> fst e = N) /\
    (forall c c' j q q', nth_error row c = Some (j, Some q) -> nth_error row c' = Some (j, Some q') -> c = c').
  Proof.
    intros HM Hp [Hl [m [Hm [H1 [H2 [H3 [H4 H5]]]]]]].
    assert (forall c j q, nth_error row c = Some (j, Some q) -> c < m) as Hlt.
    { intros c j q E. destruct (Nat.lt_ge_cases c m) as [Hc|Hc]; auto. pose proof (nth_error_length_lt _ _ _ E).
      rewrite H2 in E by lia. discriminate. }
    split; [|split; [|split]].
    - intros j q Hin. apply In_nth_error in Hin. destruct Hin as [c E].
      destruct (H1 c j (Some q) (Hlt _ _ _ E) E) as [Hj [p' [q' [Hp' [Eq [Hq' Hle]]]]]]. injection Eq as <-. eauto.
    - intros j p' Hj Hp' Hd. destruct (H5 j p' Hj Hp' Hd) as [[c [dd [Hc E]]]|[Hmk Hall]].
      + destruct (H1 c j dd Hc E) as [_ [_ [q [_ [-> _]]]]]. exists q. eapply nth_error_In; eauto.
      + assert (m = length row) as Em by lia.
        assert (forall e, In e row -> exists j' q p', e = (j', Some q) /\ j' <> i /\ nth_error P j' = Some p' /\ (q == sqdist p p')%Q /\ (q <= r * r)%Q) as Hfull.
        { intros [j' x] Hin. apply In_nth_error in Hin. destruct Hin as [c E]. pose proof (nth_error_length_lt _ _ _ E).
          destruct (H1 c j' x ltac:(lia) E) as [Hk [p1 [q [Hp1 [-> [Hq1 Hle]]]]]]. exists j', q, p1. auto. }
        destruct (in_dec Nat.eq_dec j (map fst row)) as [Hin|Hnin].
        { apply in_map_iff in Hin. destruct Hin as [e [Ee He]]. destruct (Hfull e He) as [j' [q [_ [-> _]]]]. cbn in Ee. subst j'. eauto. }
        exfalso. assert (length (i :: j :: map fst row) <= k) as Hc.
        { apply (Hroom p (nth_error_In _ _ Hp)).
          - constructor.
            + intros [E|Hin]; [congruence|]. apply in_map_iff in Hin. destruct Hin as [e [Ee He]].
              destruct (Hfull e He) as [j' [q [p1 [-> [Hne _]]]]]. cbn in Ee. congruence.
            + constructor; auto. apply NoDup_nth_error. intros c c' Hc E. rewrite map_length in Hc.
              rewrite !nth_error_map' in E. destruct (nth_error row c) as [[j1 x1]|] eqn:E1; [|apply nth_error_None in E1; lia].
              destruct (nth_error row c') as [[j2 x2]|] eqn:E2; [|discriminate]. cbn in E. injection E as <-.
              pose proof (nth_error_length_lt _ _ _ E2). apply (H3 c c' j1 x1 x2); auto; lia.
          - intros j' [<-|[<-|Hin]].
            + exists p. split; auto. rewrite sqdist_self. nra.
            + exists p'. split; auto. lra.
            + apply in_map_iff in Hin. destruct Hin as [e [Ee He]]. destruct (Hfull e He) as [j1 [q [p1 [-> [_ [Hp1 [Hq1 Hle]]]]]]].
              cbn in Ee. subst j1. exists p1. split; auto. rewrite <- Hq1. auto. }
        cbn in Hc. rewrite map_length in Hc. lia.
    - intros [j x] Hin Hx. cbn in Hx. subst x. apply In_nth_error in Hin. destruct Hin as [c E].
      destruct (Nat.lt_ge_cases c m) as [Hc|Hc].
      + destruct (H1 c j None Hc E) as [_ [_ [q [_ [Eq _]]]]]. discriminate.
      + pose proof (nth_error_length_lt _ _ _ E). rewrite H2 in E by lia. injection E. auto.
    - intros c c' j q q' E E'. eapply H3; eauto.
  Qed.

  Lemma compute_table : exists T, compute_neighbors query argsort an I P = Some T /\
    neighbor_table N (connected_sites (fun a b x => In x (nth b (nth a D []) [])) I P) T.
  Proof.
    destruct raw_rows as [Hl [M [HM Hrows]]].
    exists (filter_neighbors argsort D I (map (fun i => last i 0%Z) I) rows).
    split; [unfold compute_neighbors; rewrite Hr; reflexivity|].
    assert (forall i p, nth_error P i = Some p -> exists row, nth_error raw i = Some row /\ nth_error rows i = Some (map (fun e => (fst e, qd_round (snd e))) row)
      /\ nearest_row (fun j => j <> i) P p M (k - 1) (Some (r * r)%Q) row) as Hget.
    { intros i p Hp. destruct (nth_error raw i) as [row|] eqn:E.
      - exists row. split; auto. split; [unfold rows; rewrite nth_error_map', E; reflexivity|]. apply Hrows; auto.
      - apply nth_error_None in E. apply nth_error_length_lt in Hp. fold N in Hp. lia. }
    assert (length rows = N) as HlR by (unfold rows; rewrite map_length; auto).
    assert (forall row, In row rows -> exists i p row', nth_error P i = Some p /\ row = map (fun e => (fst e, qd_round (snd e))) row' /\
              nearest_row (fun j => j <> i) P p M (k - 1) (Some (r * r)%Q) row') as HinR.
    { intros row Hin. apply In_nth_error in Hin. destruct Hin as [i Hi]. pose proof (nth_error_length_lt _ _ _ Hi).
      destruct (nth_error P i) as [p|] eqn:Ep; [|apply nth_error_None in Ep; unfold N in *; lia].
      destruct (Hget i p Ep) as [row' [_ [E Hn]]]. exists i, p, row'. split; auto. split; auto. congruence. }
    destruct (filter_neighbors_eq argsort D I (map (fun i => last i 0%Z) I) rows M Harg) as [Heq Hle].
    { rewrite map_length. unfold N in *. lia. }
    { intros row Hin. destruct (HinR row Hin) as [i [p [row' [_ [-> [Hn _]]]]]]. rewrite map_length. auto. }
    { intros row e Hin He Hinf. destruct (HinR row Hin) as [i [p [row' [Hp [-> Hn]]]]]. apply in_map_iff in He. destruct He as [[j x] [<- He]].
      cbn in *. destruct x as [q|]; [discriminate|]. destruct (row_entries M i p row' HM Hp Hn) as [_ [_ [H _]]].
      rewrite Hlen. apply (H _ He eq_refl). }
    cbv zeta in Heq, Hle. rewrite Heq. set (F := map2 (full argsort D I) (map (fun i => last i 0%Z) I) rows) in *.
    assert (length F = N) as HlF by (unfold F; rewrite map2_length, map_length; unfold N in *; lia).
    split; [rewrite map_length; auto|]. exists (out_width M F). intros i row Hrow.
    rewrite nth_error_map' in Hrow. destruct (nth_error F i) as [f|] eqn:Ef; [|discriminate]. cbn in Hrow. injection Hrow as <-.
    pose proof (nth_error_length_lt _ _ _ Ef) as Hi. rewrite HlF in Hi.
    destruct (nth_error P i) as [p|] eqn:Ep; [|apply nth_error_None in Ep; unfold N in *; lia].
    destruct (nth_error I i) as [ind|] eqn:Ei; [|apply nth_error_None in Ei; unfold N in *; lia].
    destruct (Hget i p Ep) as [row [Eraw [Erow Hn]]]. destruct (row_entries M i p row HM Ep Hn) as [R1 [R2 [R3 R4]]].
    set (a := last ind 0%Z). pose proof (Hatoms ind (nth_error_In _ _ Ei)) as Ha. fold a in Ha.
    set (row' := map (fun e => (fst e, qd_round (snd e))) row) in *.
    assert (f = full argsort D I a row') as Ef'.
    { unfold F in Ef. clear -Ef Ei Erow. revert Ef Ei Erow. unfold a. generalize I at 2 3. intro J. generalize rows. clear. revert i. induction J as [|x J IH]; intros [|i] [|y rs]; cbn; try discriminate.
      - intros E1 E2 E3. congruence.
      - apply IH. }
    destruct (sort_row_spec argsort (map (clean I D a) row') Harg) as [Hperm Hsort].
    assert (forall e, In e f <-> In e (map (clean I D a) row') /\ fin e = true) as Hinf.
    { intro e. rewrite Ef'. unfold full. rewrite filter_In. split; intros [H1 H2]; split; auto; [apply (Permutation_in _ Hperm)|apply (Permutation_in _ (Permutation_sym Hperm))]; auto. }
    assert (atom_of I i = Z.to_nat a) as Eai by (unfold atom_of; rewrite (nth_of_nth_error _ _ _ _ Ei); reflexivity).
    (* what is listed *)
    assert (forall j x, In (j, x) f <-> connected_sites (fun a b x => In x (nth b (nth a D []) [])) I P i j x) as Hlist.
    { intros j x. rewrite Hinf.
      assert (forall p' y, nth_error P j = Some p' -> clean I D a (j, y) = if existsb (deqb y) (entry2 [] D (Z.to_nat a) (atom_of I j)) then (j, y) else (length I, Inf)) as Hclean.
      { intros p' y Hp'. pose proof (nth_error_length_lt _ _ _ Hp') as Hj. destruct (nth_error I j) as [indj|] eqn:Eij; [|apply nth_error_None in Eij; lia].
        pose proof (Hatoms indj (nth_error_In _ _ Eij)) as Haj.
        assert (atom_of I j = Z.to_nat (last indj 0%Z)) as Eaj by (unfold atom_of; rewrite (nth_of_nth_error _ _ _ _ Eij); reflexivity).
        apply (clean_in_range I D a (j, y) (atom_of I j)); auto; [|rewrite Eaj; lia].
        unfold padded_alpha. cbn [fst]. rewrite (nth_of_nth_error _ _ _ _ Eij), Eaj, Z2Nat.id; lia. }
      split.
      - intros [Hin Hfin]. apply in_map_iff in Hin. destruct Hin as [e [Ec He]]. destruct (clean_cases I D a e) as [E|E]; [|rewrite E in Ec; injection Ec as <- <-; discriminate].
        rewrite E in Ec. subst e. pose proof He as He'. unfold row' in He. apply in_map_iff in He. destruct He as [[j' [q|]] [Ee He]]; cbn in Ee; injection Ee as -> <-; [|discriminate].
        destruct (R1 j q He) as [Hne [p' [Hp' [Hqd Hqr]]]]. split; auto. split.
        + exists p, p', (sqrt_micro q). split; auto. split; auto. split; auto. apply (rounds_ext q); auto. apply sqrt_micro_rounds. rewrite Hqd. apply sqdist_nonneg.
        + rewrite (Hclean p' _ Hp') in E. rewrite Eai. destruct (existsb _ _) eqn:Ex in E; [|discriminate E]. apply existsb_deqb in Ex. exact Ex.
      - intros [Hne [[p0 [p' [z [Hp0 [Hp' [-> Hz]]]]]] Hal]]. rewrite Ep in Hp0. injection Hp0 as <-. rewrite Eai in Hal.
        pose proof (Hreach _ _ z Hal) as Hzr.
        assert (sqdist p p' < r * r)%Q as Hlt.
        { destruct Hz as [Hz0 [Hz1 _]]. assert (0 <= inject_Z z)%Q by (change 0%Q with (inject_Z 0); rewrite <- Zle_Qle; lia).
          nra. }
        destruct (R2 j p') as [q Hqin]; auto. destruct (R1 j q Hqin) as [_ [p1 [Hp1 [Hqd _]]]]. rewrite Hp' in Hp1. injection Hp1 as <-.
        assert (z = sqrt_micro q) as Ez. { eapply rounds_unique; [exact Hz|apply sqrt_micro_rounds; rewrite Hqd; apply sqdist_nonneg|symmetry; auto]. }
        split; auto. apply in_map_iff. exists (j, Fin z). split.
        + rewrite (Hclean p' _ Hp'). replace (existsb _ _) with true; auto. symmetry. apply existsb_deqb. exact Hal.
        + unfold row'. apply in_map_iff. exists (j, Some q). split; auto. cbn. congruence. }
    assert (NoDup (map fst f)) as Hnd.
    { rewrite Ef'. unfold full. eapply Permutation_NoDup; [apply Permutation_map, Permutation_filter, Permutation_sym; exact Hperm|].
      apply NoDup_clean. apply NoDup_finite. intros c c' j x x' E E' Hx Hx'. unfold row' in E, E'. rewrite nth_error_map' in E, E'.
      destruct (nth_error row c) as [[j1 [q1|]]|] eqn:E1; cbn in E; try discriminate; injection E as <- <-; [|congruence].
      destruct (nth_error row c') as [[j2 [q2|]]|] eqn:E2; cbn in E'; try discriminate; injection E' as -> <-; [|congruence].
      eapply R4; eauto. }
    destruct (padded_row_table (length I) (out_width M F) f) as [T1 [T2 [T3 [T4 T5]]]]; auto.
    { intros e He. apply Hinf in He. tauto. }
    { rewrite Ef'. apply StronglySorted_filter'. auto. }
    { apply Hle. eapply nth_error_In; eauto. }
    split; auto. split; [|split; [|split]]; auto.
    - intros j x Hx. rewrite T2 by auto. apply Hlist.
    - intros j Hj. rewrite (T3 j Hj). auto.
  Qed.
End Compute.
