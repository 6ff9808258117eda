(** * Neighbours of translated sites *)
From Coq Require Import List ZArith QArith Qreduction Bool Arith Lia Lqa Permutation Sorting.Sorted.
From Verif Require Import Np NpFacts LinAlg LinFacts SpecUtils SpecBasis SpecSpatial SpecData BasisModel BasisProofs SpatialModel SpatialProofs
  ShapeModel SpecStructure StructureModel StructureFacts RoundFacts AnalyzeProofs KDProofs PropSpatial PropAnalyze FilterProofs SpecNeighbors NeighborProofs.
Import ListNotations.
Open Scope nat_scope.
Open Scope list_scope.

(** Dropping the first entry of an answer. *)
Lemma tail_drops_first P x k r2 j0 q0 rest :
  nearest_row (fun _ => True) P x k k r2 ((j0, Some q0) :: rest) ->
  nearest_row (fun j => j <> j0) P x (k - 1) (k - 1) r2 rest /\ 1 <= k.
Proof.
  intros [Hl [m [Hm [H1 [H2 [H3 [H4 H5]]]]]]]. simpl in Hl. split; [|lia].
  assert (0 < m)%nat as Hm0.
  { destruct m; [|lia]. specialize (H2 0%nat ltac:(lia)). simpl in H2. discriminate. }
  split; [lia|]. exists (m - 1)%nat. split; [lia|].
  assert (forall c, nth_error rest c = nth_error ((j0, Some q0) :: rest) (S c)) as N by reflexivity.
  split; [|split; [|split; [|split]]].
  - intros c j dd Hc E. rewrite N in E. split; [|apply (H1 (S c) j dd); auto; lia].
    intros ->. assert (S c = 0%nat); [|discriminate].
    apply (H3 (S c) 0%nat j0 dd (Some q0)); auto; lia.
  - intros c Hc. rewrite N. apply H2. lia.
  - intros c c' j dd d' Hc Hc' E E'. rewrite N in E, E'.
    assert (S c = S c') by (apply (H3 (S c) (S c') j dd d'); auto; lia). lia.
  - intros c c' j j' dd d' Hc E E'. rewrite N in E, E'. apply (H4 (S c) (S c') j j'); auto. lia.
  - intros j p Hj Hp Hr'. destruct (H5 j p I Hp Hr') as [[c [dd [Hc E]]]|[Hmk Hall]].
    + left. destruct c as [|c]; [simpl in E; congruence|]. exists c, dd. split; [lia|]. assumption.
    + right. split; [lia|]. intros c j' dd E. rewrite N in E. apply (Hall _ _ _ E).
Qed.

(** A query of any points: the first column is dropped if all its distances are zero. *)
Lemma query_rows P X k r2 raw :
  nearest_rows P X k r2 raw ->
  let out := kd_query (length P) r2 false true raw in
  length out = length X /\
  exists M K (keep : nat -> nat -> Prop), M <= K /\
    (forall i x row, nth_error X i = Some x -> nth_error out i = Some row -> nearest_row (keep i) P x M K r2 row) /\
    ((K = k /\ forall i j, keep i j) \/
     (S K = k /\ forall i x, nth_error X i = Some x -> exists j0 p, nth_error P j0 = Some p /\ (sqdist x p == 0)%Q /\
        match r2 with Some r => (0 <= r)%Q | None => True end /\ forall j, keep i j <-> j <> j0)).
Proof.
  intros Hraw out.
  assert (length raw = length X) as Lraw by (clear -Hraw; induction Hraw; cbn; congruence).
  set (f := fun e : nat * option Q => if qd_exceeds r2 (snd e) then (length P, None) else e).
  (* compaction *)
  assert (forall len K (keep : nat -> nat -> Prop) rows, len = K ->
    (forall i x row, nth_error X i = Some x -> nth_error rows i = Some row -> nearest_row (keep i) P x len K r2 row) ->
    length rows = length X ->
    let rows' := map (map f) rows in
    let o := map (select (map (finite_column rows') (seq 0 (match rows' with [] => 0%nat | r :: _ => length r end)))) rows' in
    length o = length X /\ exists M, M <= K /\
     (forall i x row, nth_error X i = Some x -> nth_error o i = Some row -> nearest_row (keep i) P x M K r2 row)) as G.
  { intros len K keep rows HlK Hrows Hl rows' o.
    assert (rows' = rows) as Er.
    { unfold rows'. transitivity (map (fun r : qrow => r) rows); [|apply map_id]. apply map_ext_in. intros row Hrow.
      apply In_nth_error in Hrow. destruct Hrow as [i Hi]. pose proof (nth_error_length_lt _ _ _ Hi) as Hlt. rewrite Hl in Hlt.
      destruct (nth_error X i) as [x|] eqn:Ex; [|apply nth_error_None in Ex; lia].
      unfold f. eapply exceeds_id. eapply Hrows; eauto. }
    assert (length o = length X) as Lo by (unfold o; rewrite map_length, Er; auto). split; auto.
    destruct (compact_rows P len K r2 (fun i => (nth i X [], keep i)) rows) as [M [HM [Hc _]]].
    { intros i row Hi. cbn. pose proof (nth_error_length_lt _ _ _ Hi) as Hlt. rewrite Hl in Hlt.
      apply Hrows; auto. apply nth_error_nth'. auto. }
    exists M. split; [lia|]. intros i x row Hx Ho. unfold o in Ho. rewrite Er in Ho. specialize (Hc i row Ho). cbn in Hc.
    rewrite (nth_of_nth_error _ _ _ _ Hx) in Hc. auto. }
  unfold out, kd_query. cbn [negb andb].
  destruct (forallb (fun r : qrow => match r with (_, d0) :: _ => qd_zero d0 | [] => false end) raw) eqn:Hz.
  - rewrite forallb_forall in Hz.
    assert (forall i x, nth_error X i = Some x -> exists j0 q0 rest, nth_error raw i = Some ((j0, Some q0) :: rest) /\ (q0 == 0)%Q /\
       nearest_row (fun _ => True) P x k k r2 ((j0, Some q0) :: rest)) as Hfirst.
    { intros i x Hx. pose proof (nth_error_length_lt _ _ _ Hx) as Hlt.
      destruct (nth_error raw i) as [row|] eqn:Er; [|apply nth_error_None in Er; lia].
      destruct (Forall2_nth_error _ _ _ _ _ Hraw Er) as [x' [Hx' Hn]]. rewrite Hx in Hx'. injection Hx' as <-.
      specialize (Hz row (nth_error_In _ _ Er)). destruct row as [|[j0 [q0|]] rest]; try discriminate. exists j0, q0, rest.
      split; auto. split; auto. apply Qeq_bool_iff. exact Hz. }
    assert (X <> [] -> 1 <= k) as Hk.
    { intro Hne. destruct X as [|x X']; [congruence|]. destruct (Hfirst 0 x eq_refl) as [j0 [q0 [rest [_ [_ [Hn _]]]]]]. cbn in Hn. lia. }
    destruct (list_eq_dec (list_eq_dec (fun a b : Q => ltac:(decide equality; [apply Pos.eq_dec|apply Z.eq_dec]))) X []) as [EX|EX].
    { subst X. destruct raw; [|discriminate]. cbn. split; auto. exists 0, k, (fun _ _ => True). split; [lia|]. split; auto.
      intros i x row Hx. destruct i; discriminate. }
    specialize (Hk EX).
    destruct (G (k - 1) (k - 1) (fun i j => j <> match nth_error raw i with Some ((j0, _) :: _) => j0 | _ => 0 end) (map (fun r : qrow => tl r) raw) eq_refl) as [Lo [M [HM Hrows]]].
    { intros i x row Hx Hrow. destruct (Hfirst i x Hx) as [j0 [q0 [rest [Er [Hq0 Hn]]]]]. rewrite nth_error_map', Er in Hrow.
      cbn in Hrow. injection Hrow as <-. rewrite Er. apply tail_drops_first in Hn. tauto. }
    { rewrite map_length. auto. }
    split; [exact Lo|]. exists M, (k - 1), (fun i j => j <> match nth_error raw i with Some ((j0, _) :: _) => j0 | _ => 0 end).
    split; [lia|]. split; [exact Hrows|]. right. split; [lia|]. intros i x Hx. destruct (Hfirst i x Hx) as [j0 [q0 [rest [Er [Hq0 Hn]]]]].
    destruct Hn as [Hl [m [Hm [H1 [H2 _]]]]].
    assert (0 < m) as Hm0. { destruct m; [|lia]. specialize (H2 0 ltac:(cbn in Hl; lia)). discriminate. }
    destruct (H1 0 j0 (Some q0) Hm0 eq_refl) as [_ [p [q [Hp [Eq [Hqd Hle]]]]]]. injection Eq as <-.
    exists j0, p. split; auto. split; [rewrite <- Hqd; auto|]. split; [destruct r2; auto; rewrite <- Hq0; auto|]. rewrite Er. tauto.
  - destruct (G k k (fun _ _ => True) raw eq_refl) as [Lo [M [HM Hrows]]]; auto.
    { intros i x row Hx Hrow. destruct (Forall2_nth_error _ _ _ _ _ Hraw Hrow) as [x' [Hx' Hn]]. congruence. }
    split; [exact Lo|]. exists M, k, (fun _ _ => True). split; auto.
Qed.

(** What a row of an answer lists. *)
Lemma nearest_entries (keep : nat -> Prop) P x M K r2 row : M <= K -> nearest_row keep P x M K (Some r2) row ->
  (forall j q, In (j, Some q) row -> exists p, nth_error P j = Some p /\ (q == sqdist x p)%Q /\ (q <= r2)%Q) /\
  (at_most K (fun j => keep j /\ within P x r2 j) -> forall j p, keep j -> nth_error P j = Some p -> (sqdist x p < r2)%Q -> exists q, In (j, Some q) row) /\
  (forall e, In e row -> snd e = None -> fst e = length P) /\
  (forall c c' j q q', nth_error row c = Some (j, Some q) -> nth_error row c' = Some (j, Some q') -> c = c').
Proof.
  intros HM [Hl [m [Hm [H1 [H2 [H3 [H4 H5]]]]]]].
  assert (forall c j q, nth_error row c = Some (j, Some q) -> c < m) as Hlt.
  { intros c j q E. destruct (Nat.lt_ge_cases c m) as [Hc|Hc]; auto. pose proof (nth_error_length_lt _ _ _ E).
    rewrite H2 in E by lia. discriminate. }
  split; [|split; [|split]].
  - intros j q Hin. apply In_nth_error in Hin. destruct Hin as [c E].
    destruct (H1 c j (Some q) (Hlt _ _ _ E) E) as [_ [p' [q' [Hp' [Eq [Hq' Hle]]]]]]. injection Eq as <-. eauto.
  - intros Hroom j p' Hj Hp' Hd. destruct (H5 j p' Hj Hp' Hd) as [[c [dd [Hc E]]]|[Hmk Hall]].
    + destruct (H1 c j dd Hc E) as [_ [_ [q [_ [-> _]]]]]. exists q. eapply nth_error_In; eauto.
    + assert (m = length row) as Em by lia.
      assert (forall e, In e row -> exists j' q p', e = (j', Some q) /\ keep j' /\ nth_error P j' = Some p' /\ (q == sqdist x p')%Q /\ (q <= r2)%Q) as Hfull.
      { intros [j' y] Hin. apply In_nth_error in Hin. destruct Hin as [c E]. pose proof (nth_error_length_lt _ _ _ E).
        destruct (H1 c j' y ltac:(lia) E) as [Hk [p1 [q [Hp1 [-> [Hq1 Hle]]]]]]. exists j', q, p1. auto. }
      destruct (in_dec Nat.eq_dec j (map fst row)) as [Hin|Hnin].
      { apply in_map_iff in Hin. destruct Hin as [e [Ee He]]. destruct (Hfull e He) as [j' [q [_ [-> _]]]]. cbn in Ee. subst j'. eauto. }
      exfalso. assert (length (j :: map fst row) <= K) as Hc.
      { apply Hroom.
        - constructor; auto. apply NoDup_nth_error. intros c c' Hc E. rewrite map_length in Hc.
          rewrite !nth_error_map' in E. destruct (nth_error row c) as [[j1 x1]|] eqn:E1; [|apply nth_error_None in E1; lia].
          destruct (nth_error row c') as [[j2 x2]|] eqn:E2; [|discriminate]. cbn in E. injection E as <-.
          pose proof (nth_error_length_lt _ _ _ E2). apply (H3 c c' j1 x1 x2); auto; lia.
        - intros j' [<-|Hin].
          + split; auto. exists p'. split; auto. lra.
          + apply in_map_iff in Hin. destruct Hin as [e [Ee He]]. destruct (Hfull e He) as [j1 [q [p1 [-> [Hk1 [Hp1 [Hq1 Hle]]]]]]].
            cbn in Ee. subst j1. split; auto. exists p1. split; auto. rewrite <- Hq1. auto. }
      cbn in Hc. rewrite map_length in Hc. lia.
  - intros [j y] Hin Hx. cbn in Hx. subst y. apply In_nth_error in Hin. destruct Hin as [c E].
    destruct (Nat.lt_ge_cases c m) as [Hc|Hc].
    + destruct (H1 c j None Hc E) as [_ [_ [q [_ [Eq _]]]]]. discriminate.
    + pose proof (nth_error_length_lt _ _ _ E). rewrite H2 in E by lia. injection E. auto.
  - intros c c' j q q' E E'. eapply H3; eauto.
Qed.

Lemma at_most_remove k A j0 : at_most (S k) A -> A j0 -> at_most k (fun j => j <> j0 /\ A j).
Proof.
  intros H Hj L Hnd HL. assert (length (j0 :: L) <= S k) as Hc; [|cbn in Hc; lia]. apply H.
  - constructor; auto. intro Hin. destruct (HL j0 Hin). congruence.
  - intros j [<-|Hin]; auto. apply HL. auto.
Qed.

Lemma at_most_weaken k (A B : nat -> Prop) : at_most k A -> (forall j, B j -> A j) -> at_most k B.
Proof. intros H HB L Hnd HL. apply H; auto. Qed.

Lemma rounds_zero : rounds_to_micro 0 0.
Proof.
  split; [lia|]. split; [discriminate|]. split; [lia|]. split; [reflexivity|]. lia.
Qed.

(** The distance [x] of the point [q] to site [j]. *)
Definition point_distance (P : list (list Q)) (q : list Q) (j : nat) (x : dist) : Prop :=
  exists p z, nth_error P j = Some p /\ x = Fin z /\ rounds_to_micro (sqdist q p) z.

Section Query.
  Variables (query : kd_tree) (argsort : list dist -> list nat) (D : list (list (list dist))) (I : list (list Z)) (P X : list (list Q)) (r : Q) (k : nat).
  Hypothesis (Hq : correct_tree query) (Harg : is_argsort dleb argsort) (Hlen : length I = length P) (HX : length X = length P).
  Let N := length P.
  Hypothesis (Hatoms : forall i, In i I -> (0 <= last i 0 < Z.of_nat (length D))%Z).

  Let raw := kd_query N (Some (r * r)%Q) false true (map (fun x => query P x k (Some (r * r)%Q)) X).
  Let rows : list (list (nat * dist)) := map (map (fun e => (fst e, qd_round (snd e)))) raw.
  Let T := filter_neighbors argsort D I (map (fun i => last i 0%Z) I) rows.
  Let image i j x := exists q, nth_error X i = Some q /\ point_distance P q j x /\ In x (nth (atom_of I j) (nth (atom_of I i) D []) []).

  Lemma query_table : length T = N /\
    forall i q row, nth_error X i = Some q -> nth_error T i = Some row ->
      (forall j x, x <> Inf -> In (j, x) row -> image i j x) /\
      ((0 < r)%Q -> at_most k (within P q (r * r)%Q) -> (forall a b z, In (Fin z) (entry2 [] D a b) -> z <> 0%Z /\ (inject_Z z + (1#2) < r * (1000000#1))%Q) ->
        forall j x, image i j x -> In (j, x) row) /\
      (forall j, In (j, Inf) row -> j = N) /\
      NoDup (map fst (filter fin row)).
  Proof.
    destruct (query_rows P X k (Some (r * r)%Q) (map (fun x => query P x k (Some (r * r)%Q)) X)) as [Hl [M [K [keep [HM [Hrows Hkeep]]]]]].
    { unfold nearest_rows. generalize (Hq P). intro H. clear -H. generalize X. intro L. induction L; cbn; constructor; auto. }
    fold N in Hl, Hrows. fold raw in Hl, Hrows. rewrite HX in Hl. fold N in Hl.
    assert (forall i x, nth_error X i = Some x -> exists row, nth_error raw i = Some row /\ nth_error rows i = Some (map (fun e => (fst e, qd_round (snd e))) row)
      /\ nearest_row (keep i) P x M K (Some (r * r)%Q) row) as Hget.
    { intros i x Hx. destruct (nth_error raw i) as [row|] eqn:E.
      - exists row. split; auto. split; [unfold rows; rewrite nth_error_map', E; reflexivity|]. apply Hrows; auto.
      - apply nth_error_None in E. apply nth_error_length_lt in Hx. unfold N in *. lia. }
    assert (length rows = N) as HlR by (unfold rows; rewrite map_length; auto).
    assert (forall row, In row rows -> exists i x row', nth_error X i = Some x /\ row = map (fun e => (fst e, qd_round (snd e))) row' /\
              nearest_row (keep i) P x M K (Some (r * r)%Q) row') as HinR.
    { intros row Hin. apply In_nth_error in Hin. destruct Hin as [i Hi]. pose proof (nth_error_length_lt _ _ _ Hi).
      destruct (nth_error X i) as [x|] eqn:Ep; [|apply nth_error_None in Ep; unfold N in *; lia].
      destruct (Hget i x Ep) as [row' [_ [E Hn]]]. exists i, x, row'. split; auto. split; auto. congruence. }
    destruct (filter_neighbors_eq argsort D I (map (fun i => last i 0%Z) I) rows M Harg) as [Heq Hle].
    { rewrite map_length. unfold N in *. lia. }
    { intros row Hin. destruct (HinR row Hin) as [i [x [row' [_ [-> [Hn _]]]]]]. rewrite map_length. auto. }
    { intros row e Hin He Hinf. destruct (HinR row Hin) as [i [x [row' [Hp [-> Hn]]]]]. apply in_map_iff in He. destruct He as [[j y] [<- He]].
      cbn in *. destruct y as [q|]; [discriminate|]. destruct (nearest_entries _ _ _ _ _ _ _ HM Hn) as [_ [_ [H _]]].
      rewrite Hlen. apply (H _ He eq_refl). }
    cbv zeta in Heq, Hle. unfold T. rewrite Heq. set (F := map2 (full argsort D I) (map (fun i => last i 0%Z) I) rows) in *.
    assert (length F = N) as HlF by (unfold F; rewrite map2_length, map_length; unfold N in *; lia).
    split; [rewrite map_length; auto|]. intros i x row Ex Hrow.
    rewrite nth_error_map' in Hrow. destruct (nth_error F i) as [f|] eqn:Ef; [|discriminate]. cbn in Hrow. injection Hrow as <-.
    pose proof (nth_error_length_lt _ _ _ Ef) as Hi. rewrite HlF in Hi.
    destruct (nth_error I i) as [ind|] eqn:Ei; [|apply nth_error_None in Ei; unfold N in *; lia].
    destruct (Hget i x Ex) as [row [Eraw [Erow Hn]]]. destruct (nearest_entries _ _ _ _ _ _ _ HM Hn) as [R1 [R2 [R3 R4]]].
    set (a := last ind 0%Z). pose proof (Hatoms ind (nth_error_In _ _ Ei)) as Ha. fold a in Ha.
    set (row' := map (fun e => (fst e, qd_round (snd e))) row) in *.
    assert (f = full argsort D I a row') as Ef'.
    { unfold F in Ef. clear -Ef Ei Erow. revert Ef Ei Erow. unfold a. generalize I at 2 3. intro J. generalize rows. clear. revert i. induction J as [|y J IH]; intros [|i] [|z rs]; cbn; try discriminate.
      - intros E1 E2 E3. congruence.
      - apply IH. }
    destruct (sort_row_spec argsort (map (clean I D a) row') Harg) as [Hperm Hsort].
    assert (forall e, In e f <-> In e (map (clean I D a) row') /\ fin e = true) as Hinf.
    { intro e. rewrite Ef'. unfold full. rewrite filter_In. split; intros [H1 H2]; split; auto; [apply (Permutation_in _ Hperm)|apply (Permutation_in _ (Permutation_sym Hperm))]; auto. }
    assert (atom_of I i = Z.to_nat a) as Eai by (unfold atom_of; rewrite (nth_of_nth_error _ _ _ _ Ei); reflexivity).
    assert (forall j p' y, nth_error P j = Some p' -> clean I D a (j, y) = if existsb (deqb y) (entry2 [] D (Z.to_nat a) (atom_of I j)) then (j, y) else (length I, Inf)) as Hclean.
    { intros j p' y Hp'. pose proof (nth_error_length_lt _ _ _ Hp') as Hj. destruct (nth_error I j) as [indj|] eqn:Eij; [|apply nth_error_None in Eij; lia].
      pose proof (Hatoms indj (nth_error_In _ _ Eij)) as Haj.
      assert (atom_of I j = Z.to_nat (last indj 0%Z)) as Eaj by (unfold atom_of; rewrite (nth_of_nth_error _ _ _ _ Eij); reflexivity).
      apply (clean_in_range I D a (j, y) (atom_of I j)); auto; [|rewrite Eaj; lia].
      unfold padded_alpha. cbn [fst]. rewrite (nth_of_nth_error _ _ _ _ Eij), Eaj, Z2Nat.id; lia. }
    assert (NoDup (map fst f)) as Hnd.
    { rewrite Ef'. unfold full. eapply Permutation_NoDup; [apply Permutation_map, Permutation_filter, Permutation_sym; exact Hperm|].
      apply NoDup_clean. apply NoDup_finite. intros c c' j y y' E E' Hx Hx'. unfold row' in E, E'. rewrite nth_error_map' in E, E'.
      destruct (nth_error row c) as [[j1 [q1|]]|] eqn:E1; cbn in E; try discriminate; injection E as <- <-; [|congruence].
      destruct (nth_error row c') as [[j2 [q2|]]|] eqn:E2; cbn in E'; try discriminate; injection E' as -> <-; [|congruence].
      eapply R4; eauto. }
    assert (forall e, In e f -> fin e = true) as Hff by (intros e He; apply Hinf in He; tauto).
    destruct (padded_row_table (length I) (out_width M F) f) as [T1 [T2 [T3 [T4 T5]]]]; auto.
    { rewrite Ef'. apply StronglySorted_filter'. auto. }
    { apply Hle. eapply nth_error_In; eauto. }
    split; [|split; [|split]].
    - intros j y Hy Hin. apply T2 in Hin; auto. apply Hinf in Hin. destruct Hin as [Hin Hfin].
      apply in_map_iff in Hin. destruct Hin as [e [Ec He]]. destruct (clean_cases I D a e) as [E|E]; [|rewrite E in Ec; injection Ec as <- <-; congruence].
      rewrite E in Ec. subst e. unfold row' in He. apply in_map_iff in He. destruct He as [[j' [q|]] [Ee He]]; cbn in Ee; injection Ee as -> <-; [|congruence].
      destruct (R1 j q He) as [p' [Hp' [Hqd Hqr]]]. exists x. split; auto. split.
      + exists p', (sqrt_micro q). split; auto. split; auto. apply (rounds_ext q); auto. apply sqrt_micro_rounds. rewrite Hqd. apply sqdist_nonneg.
      + rewrite (Hclean j p' _ Hp') in E. rewrite Eai. destruct (existsb _ _) eqn:Exx in E; [|discriminate E]. apply existsb_deqb in Exx. exact Exx.
    - intros Hr0 Hroom Hreach j y [x0 [Hx0 [[p' [z [Hp' [-> Hz]]]] Hal]]]. rewrite Ex in Hx0. injection Hx0 as <-. rewrite Eai in Hal.
      apply T2; [discriminate|]. apply Hinf. split; auto.
      destruct (Hreach _ _ z Hal) as [Hz0 Hzr].
      assert (sqdist x p' < r * r)%Q as Hlt.
      { destruct Hz as [Hzz [Hz1 _]]. assert (0 <= inject_Z z)%Q by (change 0%Q with (inject_Z 0); rewrite <- Zle_Qle; lia).
        nra. }
      assert (~ (sqdist x p' == 0)%Q) as Hpos.
      { intro Hs. apply Hz0. eapply (rounds_unique _ 0%Q); [exact Hz| |exact Hs]. apply rounds_zero. }
      assert (keep i j /\ at_most K (fun j => keep i j /\ within P x (r * r)%Q j)) as [Hkj Hroom'].
      { destruct Hkeep as [[HK Hk]|[HK Hk]].
        - split; auto. rewrite HK. eapply at_most_weaken; [exact Hroom|]. tauto.
        - destruct (Hk i x Ex) as [j0 [p0 [Hp0 [Hs0 [_ Hkk]]]]]. split.
          + apply Hkk. intros ->. rewrite Hp' in Hp0. injection Hp0 as <-. auto.
          + eapply at_most_weaken; [apply (at_most_remove K (within P x (r * r)%Q) j0); [rewrite HK; exact Hroom|]|].
            * exists p0. split; auto. rewrite Hs0. nra.
            * cbn. intros j1 [H1 H2]. split; auto. apply Hkk. auto. }
      destruct (R2 Hroom' j p' Hkj Hp' Hlt) as [q Hqin]. destruct (R1 j q Hqin) as [p1 [Hp1 [Hqd _]]]. rewrite Hp' in Hp1. injection Hp1 as <-.
      assert (z = sqrt_micro q) as Ez. { eapply rounds_unique; [exact Hz|apply sqrt_micro_rounds; rewrite Hqd; apply sqdist_nonneg|symmetry; auto]. }
      apply in_map_iff. exists (j, Fin z). split.
      + rewrite (Hclean j p' _ Hp'). replace (existsb _ _) with true; auto. symmetry. apply existsb_deqb. exact Hal.
      + unfold row'. apply in_map_iff. exists (j, Some q). split; auto. cbn. congruence.
    - intros j Hj. rewrite (T3 j Hj). auto.
    - apply NoDup_finite. exact T4.
  Qed.
End Query.
