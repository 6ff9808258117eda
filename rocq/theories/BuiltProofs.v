(** * When the table of neighbours has a padding entry *)
From Coq Require Import List ZArith QArith Bool Arith Lia Lqa Permutation Sorting.Sorted.
From Verif Require Import Np NpFacts LinAlg LinFacts SpecUtils SpecBasis SpecSpatial SpecData BasisModel BasisProofs SpatialModel SpatialProofs
  SpecStructure StructureModel StructureFacts RoundFacts AnalyzeProofs KDProofs PropSpatial PropAnalyze FilterProofs SpecNeighbors NeighborProofs
  PropNeighbors.
Import ListNotations.
Open Scope nat_scope.
Open Scope list_scope.

Lemma filter_length_lt {A} (f : A -> bool) l : length (filter f l) <= length l.
Proof. induction l as [|x l IH]; cbn; [lia|]. destruct (f x); cbn; lia. Qed.

(** Two rows of a table with different numbers of neighbours. *)
Lemma padding_different N nb T i i' L' : neighbor_table N nb T -> i < N -> i' < N ->
  NoDup L' -> (forall j, In j L' -> exists x, x <> Inf /\ nb i' j x) ->
  (forall L, (forall j, In j L -> exists x, x <> Inf /\ nb i j x) -> NoDup L -> length L < length L') ->
  exists row e, In row T /\ In e row /\ snd e = Inf.
Proof.
  intros [HT [W Hrows]] Hi Hi' Hnd HL' Hlt.
  destruct (nth_error_lt T i) as [row Erow]; [lia|]. destruct (nth_error_lt T i') as [row' Erow']; [lia|].
  destruct (Hrows i row Erow) as [Hw [Hin [_ [Honce _]]]]. destruct (Hrows i' row' Erow') as [Hw' [Hin' _]].
  destruct (forallb fin row) eqn:Ef.
  - exfalso. rewrite forallb_forall in Ef.
    assert (NoDup (map fst row)) as Hnr.
    { pose proof (NoDup_finite row Honce) as H. rewrite filter_all in H; auto. }
    assert (length (map fst row) < length L') as H1.
    { apply Hlt; auto. intros j Hj. apply in_map_iff in Hj. destruct Hj as [[j' x] [<- Hj]]. exists x. pose proof (Ef _ Hj) as Hf. apply fin_spec in Hf. split; auto. apply Hin; auto. }
    assert (length L' <= length (map fst row')) as H2.
    { apply NoDup_incl_length; auto. intros j Hj. destruct (HL' j Hj) as [x [Hx Hn]]. apply Hin' in Hn; auto. apply in_map_iff. exists (j, x). auto. }
    rewrite !map_length in *. lia.
  - assert (exists e, In e row /\ fin e = false) as [e [He Hf]].
    { clear -Ef. induction row as [|e row IH]; [discriminate|]. cbn in Ef. apply andb_false_iff in Ef. destruct Ef as [E|E].
      - exists e. split; auto. left; auto.
      - destruct (IH E) as [e' [H1 H2]]. exists e'. split; auto. right; auto. }
    exists row, e. split; [eapply nth_error_In; eauto|]. split; auto. unfold fin in Hf. destruct (snd e); [discriminate|auto].
Qed.

Lemma skipn_nth_error {A} (l : list A) m c : nth_error (skipn m l) c = nth_error l (m + c).
Proof. revert l. induction m as [|m IH]; intros [|x l]; cbn; auto. destruct c; reflexivity. Qed.

Section Padding.
  Variables (query : kd_tree) (argsort : list dist -> list nat) (an : analysis) (d : nat) (I : list (list Z)) (P : list (list Q)) (r : Q).
  Hypothesis (Hq : correct_tree query) (Harg : is_argsort dleb argsort) (HP : distinct_points d P) (Hlen : length I = length P).
  Let D := an_distmat an.
  Let N := length P.
  Hypothesis (Hatoms : forall i, In i I -> (0 <= last i 0 < Z.of_nat (length D))%Z).
  Hypothesis (Hr : query_radius an = Some r) (Hr0 : (0 < r)%Q) (Hk2 : 2 <= query_count an).
  Let k := query_count an.
  Hypothesis (Hroom : forall p, In p P -> at_most k (within P p (r * r)%Q)).
  Hypothesis (Hne : P <> []).
  (** Whatever is in range is connected. *)
  Hypothesis Hall : forall i j p, i <> j -> nth_error P i = Some p -> within P p (r * r)%Q j ->
    exists x, connected_sites (fun a b x => In x (nth b (nth a D []) [])) I P i j x.

  Let raw := kd_query N (Some (r * r)%Q) false true (map (fun x => query P x k (Some (r * r)%Q)) P).
  Let rows : list (list (nat * dist)) := map (map (fun e => (fst e, qd_round (snd e)))) raw.

  Lemma padding_all T : compute_neighbors query argsort an I P = Some T -> exists row e, In row T /\ In e row /\ snd e = Inf.
  Proof.
    intro HT.
    destruct (C19_self_query d P k (Some (r * r)%Q) (map (fun x => query P x k (Some (r * r)%Q)) P) HP Hk2) as [Hl [M [HM [Hrows Hcol]]]].
    { nra. }
    { unfold nearest_rows. generalize (Hq P). intro H. clear -H. generalize P at 2 4. intro L. induction L; cbn; constructor; auto. }
    fold N in Hl, Hrows, Hcol. fold raw in Hl, Hrows, Hcol.
    unfold compute_neighbors in HT. rewrite Hr in HT. injection HT as HT.
    assert (T = filter_neighbors argsort D I (map (fun i => last i 0%Z) I) rows) as -> by (symmetry; exact HT). clear HT.
    assert (length rows = N) as HlR by (unfold rows; rewrite map_length; auto).
    assert (forall i, i < N -> exists p row, nth_error P i = Some p /\ nth_error raw i = Some row /\
       nth i rows [] = map (fun e => (fst e, qd_round (snd e))) row /\ nearest_row (fun j => j <> i) P p M (k - 1) (Some (r * r)%Q) row) as Hget.
    { intros i Hi. destruct (nth_error_lt P i Hi) as [p Ep]. destruct (nth_error_lt raw i) as [row Er]; [lia|].
      exists p, row. split; auto. split; auto. split; [|apply Hrows; auto]. apply nth_of_nth_error. unfold rows. rewrite nth_error_map', Er. reflexivity. }
    assert (forall i, i < N -> nth i (map (fun i => last i 0%Z) I) 0%Z = last (nth i I []) 0%Z) as Hal.
    { intros i Hi. rewrite (nth_map_in _ _ _ []) by (unfold N in *; lia). reflexivity. }
    (* the number of entries kept is the number of entries in range *)
    assert (forall i, i < N -> exists m row, m <= M /\ nth_error raw i = Some row /\ length row = M /\
              (forall c, c < M -> (exists j q, nth_error row c = Some (j, Some q)) <-> c < m) /\
              length (kept D I (Z.to_nat (nth i (map (fun i => last i 0%Z) I) 0%Z)) (nth i rows [])) = m) as Hnum.
    { intros i Hi. destruct (Hget i Hi) as [p [row [Ep [Er [-> Hn]]]]].
      destruct (row_entries an I P r Hlen Hk2 Hroom M i p row HM Ep Hn) as [E1 _].
      destruct Hn as [Hlr [m [Hm [H1 [H2 _]]]]]. exists m, row.
      assert (m <= M) as HmM by lia.
      split; auto. split; auto. split; auto. split.
      - intros c Hc. split.
        + intros [j [q E]]. destruct (Nat.lt_ge_cases c m) as [H|H]; auto. rewrite H2 in E by lia. discriminate.
        + intro Hcm. destruct (nth_error_lt row c) as [[j x] E]; [lia|]. destruct (H1 c j x Hcm E) as [_ [p' [q [_ [-> _]]]]]. eauto.
      - rewrite Hal by auto. fold (atom_of I i).
        assert (row = firstn m row ++ skipn m row) as Es by (symmetry; apply firstn_skipn).
        assert (forall e, In e (firstn m row) -> exists j q, e = (j, Some q)) as Hf.
        { intros [j x] He. apply In_firstn in He. destruct He as [c [Hc E]]. destruct (H1 c j x Hc E) as [_ [p' [q [_ [-> _]]]]]. eauto. }
        assert (forall e, In e (skipn m row) -> snd e = None) as Hs.
        { intros e He. apply In_nth_error in He. destruct He as [c E]. rewrite skipn_nth_error in E. pose proof (nth_error_length_lt _ _ _ E).
          rewrite H2 in E by lia. injection E as <-. reflexivity. }
        transitivity (length (firstn m row)); [|apply firstn_length_le; lia].
        rewrite Es at 1. unfold kept. rewrite map_app, filter_app, app_length.
        rewrite (filter_none _ (map _ (skipn m row))).
        2:{ intros e He. apply in_map_iff in He. destruct He as [e' [<- He]]. cbn [snd]. rewrite (Hs e' He). reflexivity. }
        rewrite filter_all; [rewrite map_length; cbn; lia|].
        intros e He. apply in_map_iff in He. destruct He as [e' [<- He]]. cbn [fst snd]. destruct (Hf e' He) as [j [q ->]]. cbn [fst snd qd_round dfinite andb].
        assert (In (j, Some q) row) as Hin by (rewrite Es; apply in_or_app; auto).
        destruct (E1 j q Hin) as [Hji [p' [Hp' [Hqd Hqr]]]].
        destruct (Hall i j p (fun E => Hji (eq_sym E)) Ep) as [x [_ [[p0 [p1 [z [Hp0 [Hp1 [-> Hz]]]]]] Hx]]].
        { exists p'. split; auto. rewrite <- Hqd. auto. }
        rewrite Ep in Hp0. injection Hp0 as <-. rewrite Hp' in Hp1. injection Hp1 as <-.
        assert (z = sqrt_micro q) as <- by (eapply rounds_unique; [exact Hz|apply sqrt_micro_rounds; rewrite Hqd; apply sqdist_nonneg|symmetry; auto]).
        apply existsb_deqb. exact Hx. }
    assert (0 < N) as HN by (unfold N; destruct P; [congruence|cbn; lia]).
    apply (C35_padding_entry argsort D I (map (fun i => last i 0%Z) I) rows M Harg); auto.
    - intro E. rewrite E in HlR. cbn in HlR. lia.
    - rewrite map_length. unfold N in *. lia.
    - intros a Ha. apply in_map_iff in Ha. destruct Ha as [i [<- Hi]]. apply Hatoms. auto.
    - intros row Hrow. apply (In_nth _ _ []) in Hrow. destruct Hrow as [i [Hi <-]]. rewrite HlR in Hi.
      destruct (Hget i Hi) as [p [row [_ [_ [-> Hn]]]]]. rewrite map_length. apply Hn.
    - intros row e Hrow He. apply (In_nth _ _ []) in Hrow. destruct Hrow as [i [Hi <-]]. rewrite HlR in Hi.
      destruct (Hget i Hi) as [p [row [Ep [_ [E Hn]]]]]. rewrite E in He. apply in_map_iff in He. destruct He as [[j x] [<- He]]. cbn [fst snd].
      destruct (row_entries an I P r Hlen Hk2 Hroom M i p row HM Ep Hn) as [E1 [_ [E3 _]]].
      destruct x as [q|].
      + right. split; [discriminate|]. destruct (E1 j q He) as [_ [p' [Hp' _]]]. apply nth_error_length_lt in Hp'. split; [lia|].
        apply Hatoms, nth_In. lia.
      + left. split; auto. rewrite Hlen. apply (E3 _ He eq_refl).
    - cbv zeta. rewrite HlR.
      destruct (Nat.eq_dec M 0) as [->|HM0].
      + left. intros i Hi. destruct (Hnum i Hi) as [m [row [H1 [_ [_ [_ ->]]]]]]. lia.
      + destruct (Hcol (M - 1)) as [i0 [row0 [j0 [q0 [Er0 Ec0]]]]]; [lia|].
        assert (i0 < N) as Hi0 by (apply nth_error_length_lt in Er0; lia).
        destruct (Hnum i0 Hi0) as [m0 [row' [Hm0 [Er [Hl0 [Hc0 Hn0]]]]]]. rewrite Er0 in Er. injection Er as <-.
        assert (m0 = M) as -> by (assert (M - 1 < m0); [apply Hc0; [lia|eauto]|lia]).
        set (number := fun i => length (kept D I (Z.to_nat (nth i (map (fun i => last i 0%Z) I) 0%Z)) (nth i rows []))) in *.
        destruct (forallb (fun i => number i =? M) (seq 0 N)) eqn:Eall.
        * left. rewrite forallb_forall in Eall. intros i Hi. apply Nat.eqb_eq, Eall, in_seq. lia.
        * right. assert (exists i, i < N /\ number i <> M) as [i [Hi Hni]].
          { apply not_true_iff_false in Eall. destruct (existsb (fun i => negb (number i =? M)) (seq 0 N)) eqn:Ex.
            - apply existsb_exists in Ex. destruct Ex as [i [Hi H]]. apply in_seq in Hi. exists i. split; [lia|]. apply negb_true_iff, Nat.eqb_neq in H. auto.
            - exfalso. apply Eall, forallb_forall. intros i Hi. destruct (number i =? M) eqn:E; auto.
              assert (existsb (fun i => negb (number i =? M)) (seq 0 N) = true) by (apply existsb_exists; exists i; rewrite E; auto). congruence. }
          destruct (Hnum i Hi) as [mi [rowi [Hmi [_ [_ [_ Hnumi]]]]]]. fold (number i) in Hnumi. fold (number i0) in Hn0.
          exists i, i0. split; auto. split; auto. change (number i < number i0). unfold number in *. lia.
  Qed.
End Padding.
