(** * The KDTree wrapper *)
From Coq Require Import List ZArith QArith Qround Qabs Qminmax Bool Arith Lia Lqa Setoid Morphisms.
From Verif Require Import Np NpFacts LinAlg LinFacts SpatialModel SpecBasis SpecSpatial BasisProofs.
Import ListNotations.
Open Scope Q_scope.

Lemma sum_nonneg n f : (forall i, (i < n)%nat -> 0 <= f i) -> 0 <= sum_upto n f.
Proof.
  induction n as [|n IH]; intro H; cbn [sum_upto]; [lra|].
  assert (0 <= sum_upto n f) by (apply IH; intros; apply H; lia). specialize (H n ltac:(lia)). lra.
Qed.

Lemma sum_nonneg_zero n f :
  (forall i, (i < n)%nat -> 0 <= f i) -> sum_upto n f == 0 -> forall i, (i < n)%nat -> f i == 0.
Proof.
  induction n as [|n IH]; intros H E i Hi; [lia|]. cbn [sum_upto] in E.
  assert (0 <= sum_upto n f) by (apply sum_nonneg; intros; apply H; lia).
  pose proof (H n ltac:(lia)). destruct (Nat.eq_dec i n) as [->|Hn]; [lra|].
  apply IH; [intros; apply H; lia|lra|lia].
Qed.

Lemma square_nonneg (x : Q) : 0 <= x * x.
Proof.
  destruct (Qlt_le_dec x 0) as [H|H].
  - setoid_replace (x * x) with ((- x) * (- x)) by ring. apply Qmult_le_0_compat; lra.
  - apply Qmult_le_0_compat; lra.
Qed.

Lemma square_zero (x : Q) : x * x == 0 -> x == 0.
Proof. intro H. apply Qmult_integral in H. tauto. Qed.

Lemma sqdist_nonneg u v : 0 <= sqdist u v.
Proof. apply sum_nonneg. intros. apply square_nonneg. Qed.

Lemma sqdist_self u : sqdist u u == 0.
Proof. apply sum_zero. intros. ring. Qed.

Lemma sqdist_zero u v : length u = length v -> sqdist u v == 0 -> forall c, nth c u 0 == nth c v 0.
Proof.
  intros Hl H c. destruct (Nat.lt_ge_cases c (length u)) as [Hc|Hc].
  - unfold sqdist in H. pose proof (sum_nonneg_zero _ _ (fun i _ => square_nonneg _) H c Hc) as E.
    cbv beta in E. apply square_zero in E. lra.
  - rewrite !nth_overflow by lia. reflexivity.
Qed.

Lemma sqdist_dist2 u v : length u = length v -> dist2 u v == sqdist u v.
Proof.
  intro Hl. unfold dist2, norm2. rewrite (dot_sum (length u)) by (rewrite vsub_length; auto).
  apply sum_ext. intros i Hi. rewrite !nth_vsub by assumption. reflexivity.
Qed.

(** The maximum distance never changes an answer of the tree. *)
Lemma exceeds_id keep P x len k r2 row :
  nearest_row keep P x len k r2 row ->
  map (fun e => if qd_exceeds r2 (snd e) then (length P, None) else e) row = row.
Proof.
  intros [Hl [m [Hm [H1 [H2 _]]]]]. apply list_eq_nth_error. intro c. rewrite nth_error_map'.
  destruct (nth_error row c) as [[j d]|] eqn:E; auto. cbn [option_map snd].
  destruct (Nat.lt_ge_cases c m) as [Hc|Hc].
  - destruct (H1 c j d Hc E) as [_ [p [q [_ [-> [_ Hr]]]]]]. unfold qd_exceeds.
    destruct r2 as [r|]; [|reflexivity]. apply Qle_bool_iff in Hr. cbn. rewrite Hr. reflexivity.
  - pose proof (nth_error_length_lt _ _ _ E) as Hlt. rewrite H2 in E by lia. injection E as <- <-.
    unfold qd_exceeds. destruct r2; reflexivity.
Qed.

(** Number of finite entries of a row. *)
Definition finite_at (row : qrow) (c : nat) : bool :=
  match nth_error row c with Some (_, d) => qd_finite d | None => false end.

Lemma nearest_finite keep P x len k r2 row :
  nearest_row keep P x len k r2 row ->
  exists m, (m <= len)%nat /\ forall c, finite_at row c = (c <? m)%nat.
Proof.
  intros [Hl [m [Hm [H1 [H2 _]]]]]. exists m. split; auto. intro c. unfold finite_at.
  destruct (Nat.ltb_spec c m) as [Hc|Hc].
  - destruct (nth_error row c) as [[j d]|] eqn:E.
    + destruct (H1 c j d Hc E) as [_ [p [q [_ [-> _]]]]]. reflexivity.
    + apply nth_error_None in E. lia.
  - destruct (nth_error row c) as [[j d]|] eqn:E; auto.
    pose proof (nth_error_length_lt _ _ _ E). rewrite H2 in E by lia. injection E as <- <-. reflexivity.
Qed.

Lemma select_prefix {A} M n (l : list A) :
  length l = n -> select (map (fun c => c <? M)%nat (seq 0 n)) l = firstn M l.
Proof.
  intros <-. assert (forall s, select (map (fun c => c <? M)%nat (seq s (length l))) l = firstn (M - s) l) as H.
  { induction l as [|x l IH]; intro s; simpl; [rewrite firstn_nil; reflexivity|].
    destruct (Nat.ltb_spec s M) as [Hs|Hs].
    - replace (M - s)%nat with (S (M - S s)) by lia. simpl. rewrite IH. reflexivity.
    - replace (M - s)%nat with 0%nat by lia. simpl. rewrite IH. replace (M - S s)%nat with 0%nat by lia. reflexivity. }
  rewrite H, Nat.sub_0_r. reflexivity.
Qed.

Lemma nth_error_firstn {A} n (l : list A) c :
  nth_error (firstn n l) c = if (c <? n)%nat then nth_error l c else None.
Proof.
  revert l c. induction n as [|n IH]; intros l c; [destruct c; reflexivity|].
  destruct l as [|x l]; [destruct c; simpl; [|destruct (S c <? S n)%nat]; reflexivity|].
  destruct c as [|c]; [reflexivity|]. simpl. rewrite IH. reflexivity.
Qed.

Lemma nearest_firstn keep P x len k r2 row M :
  nearest_row keep P x len k r2 row -> (M <= len)%nat ->
  (forall c, finite_at row c = true -> (c < M)%nat) ->
  nearest_row keep P x M k r2 (firstn M row).
Proof.
  intros H HM Hfin. destruct (nearest_finite _ _ _ _ _ _ _ H) as [m' [Hm' Hf]].
  destruct H as [Hl [m [Hm [H1 [H2 [H3 [H4 H5]]]]]]].
  assert (m <= M)%nat as HmM.
  { destruct m as [|m0]; [lia|]. assert (finite_at row m0 = true) as F.
    { unfold finite_at. destruct (nth_error row m0) as [[j d]|] eqn:E.
      - destruct (H1 m0 j d ltac:(lia) E) as [_ [p [q [_ [-> _]]]]]. reflexivity.
      - apply nth_error_None in E. lia. }
    apply Hfin in F. lia. }
  split; [rewrite firstn_length; lia|].
  assert (forall c e, nth_error (firstn M row) c = Some e <-> (c < M)%nat /\ nth_error row c = Some e) as N.
  { intros c e. rewrite nth_error_firstn. destruct (Nat.ltb_spec c M); split; intuition (try discriminate; try lia). }
  exists m. split; auto. split; [|split; [|split; [|split]]].
  - intros c j d Hc E. apply N in E. apply H1 with (c := c); tauto.
  - intros c Hc. apply N. split; [lia|]. apply H2. lia.
  - intros c c' j d d' Hc Hc' E E'. apply N in E, E'. apply H3 with (j := j) (d := d) (d' := d'); tauto.
  - intros c c' j j' d d' Hc E E'. apply N in E, E'. apply (H4 c c' j j'); tauto.
  - intros j p Hk Hj Hr. destruct (H5 j p Hk Hj Hr) as [[c [d [Hc E]]]|[Hmk Hall]].
    + left. exists c, d. split; auto. apply N. split; [lia|assumption].
    + right. split; auto. intros c j' d E. apply N in E. apply (Hall c j'). tauto.
Qed.

(** Compaction keeps the columns before the last finite entry. *)
Lemma finite_column_spec rows c :
  finite_column rows c = true <-> exists row, In row rows /\ finite_at row c = true.
Proof. unfold finite_column. rewrite existsb_exists. reflexivity. Qed.

Section Compact.
  Variables (P : list (list Q)) (len k : nat) (r2 : option Q).
  Variable spec : nat -> list Q * (nat -> Prop).   (* query point and eligible points of row i *)
  Variable rows : list qrow.
  Hypothesis Hrows : forall i row, nth_error rows i = Some row ->
    nearest_row (snd (spec i)) P (fst (spec i)) len k r2 row.

  Lemma compact_rows :
    let cols := match rows with [] => 0%nat | r :: _ => length r end in
    let out := map (select (map (finite_column rows) (seq 0 cols))) rows in
    exists M, (M <= len)%nat /\
      (forall i row, nth_error out i = Some row ->
         nearest_row (snd (spec i)) P (fst (spec i)) M k r2 row) /\
      (forall c, (c < M)%nat -> exists i row j q,
         nth_error out i = Some row /\ nth_error row c = Some (j, Some q)).
  Proof.
    cbv zeta.
    (* the number of columns kept *)
    assert (exists M, (M <= len)%nat /\ (forall c, finite_column rows c = (c <? M)%nat)) as [M [HM HF]].
    { assert (forall rs : list qrow, (forall row, In row rs -> exists m, (m <= len)%nat /\
                 forall c, finite_at row c = (c <? m)%nat) ->
              exists M, (M <= len)%nat /\ forall c, finite_column rs c = (c <? M)%nat) as G.
      { induction rs as [|r rs IH]; intro H.
        - exists 0%nat. split; [lia|]. intro c. simpl. destruct c; reflexivity.
        - destruct IH as [M [H1 H2]]; [intros; apply H; simpl; auto|].
          destruct (H r (or_introl eq_refl)) as [m [Hm Hf]].
          exists (Nat.max m M). split; [lia|]. intro c.
          change (finite_column (r :: rs) c) with (finite_at r c || finite_column rs c).
          rewrite H2, Hf. destruct (Nat.ltb_spec c m), (Nat.ltb_spec c M), (Nat.ltb_spec c (Nat.max m M));
            simpl; auto; lia. }
      apply G. intros row Hrow. apply In_nth_error in Hrow. destruct Hrow as [i Hi].
      eapply nearest_finite, Hrows, Hi. }
    assert (forall row, In row rows -> length row = len) as Hlen.
    { intros row Hrow. apply In_nth_error in Hrow. destruct Hrow as [i Hi]. apply (Hrows i row Hi). }
    exists M. split; auto.
    set (cols := match rows with [] => 0%nat | r :: _ => length r end).
    assert (rows <> [] -> cols = len) as Hcols.
    { intro Hne. unfold cols. destruct rows as [|r rs]; [congruence|]. apply Hlen. simpl. auto. }
    assert (forall i row', nth_error (map (select (map (finite_column rows) (seq 0 cols))) rows) i = Some row' ->
              exists row, nth_error rows i = Some row /\ row' = firstn M row) as Hsel.
    { intros i row' E. rewrite nth_error_map' in E. destruct (nth_error rows i) as [row|] eqn:Ei; [|discriminate].
      cbn [option_map] in E. injection E as <-. exists row. split; auto.
      assert (rows <> []) as Hne by (intro; subst; destruct i; discriminate).
      rewrite Hcols by assumption. rewrite (map_ext _ (fun c => c <? M)%nat) by (intro; apply HF).
      apply select_prefix. apply Hlen. apply nth_error_In in Ei. assumption. }
    split.
    - intros i row' E. destruct (Hsel i row' E) as [row [Ei ->]].
      apply nearest_firstn with (len := len); auto.
      intros c Hc. apply Nat.ltb_lt. rewrite <- HF. apply finite_column_spec. exists row.
      split; auto. apply nth_error_In in Ei. assumption.
    - intros c Hc. apply Nat.ltb_lt in Hc. rewrite <- HF in Hc. apply finite_column_spec in Hc.
      destruct Hc as [row [Hrow Hc]]. apply In_nth_error in Hrow. destruct Hrow as [i Hi].
      unfold finite_at in Hc. destruct (nth_error row c) as [[j [q|]]|] eqn:E; try discriminate.
      exists i, (firstn M row), j, q. split.
      + rewrite nth_error_map', Hi. cbn [option_map]. f_equal.
        assert (rows <> []) as Hne by (intro; subst; destruct i; discriminate).
        rewrite Hcols by assumption. rewrite (map_ext _ (fun c => c <? M)%nat) by (intro; apply HF).
        apply select_prefix. apply Hlen. apply nth_error_In in Hi. assumption.
      + rewrite nth_error_firstn. 
        replace (c <? M)%nat with true; auto. symmetry. rewrite <- HF. apply finite_column_spec.
        exists row. split; [apply nth_error_In in Hi; assumption|]. unfold finite_at. rewrite E. reflexivity.
  Qed.
End Compact.

(** ** Queries of the tree's own points *)

Lemma first_is_self d P i x k r2 row :
  distinct_points d P -> nth_error P i = Some x -> (1 <= k)%nat ->
  match r2 with Some r => 0 < r | None => True end ->
  nearest_row (fun _ => True) P x k k r2 row ->
  exists q rest, row = (i, Some q) :: rest /\ q == 0.
Proof.
  intros [Hd Hdist] Hx Hk Hr [Hl [m [Hm [H1 [H2 [H3 [H4 H5]]]]]]].
  assert (match r2 with Some r => sqdist x x < r | None => True end) as Hs.
  { destruct r2; auto. rewrite sqdist_self. assumption. }
  assert (forall j q, (0 < m)%nat -> nth_error row 0 = Some (j, Some q) -> q <= 0 -> j = i /\ q == 0) as F.
  { intros j q H0 E Hq. destruct (H1 0%nat j (Some q) H0 E) as [_ [p [q' [Hp [Eq [Hq' _]]]]]].
    injection Eq as <-. pose proof (sqdist_nonneg x p). assert (sqdist x p == 0) as Z by lra. split; [|lra].
    assert (length x = length p) as Hlen.
    { apply nth_error_In in Hx, Hp. rewrite (Hd x Hx), (Hd p Hp). reflexivity. }
    symmetry. apply (Hdist i j x p); auto. apply sqdist_zero; assumption. }
  destruct (H5 i x I Hx Hs) as [[c [dd [Hc E]]]|[Hmk Hall]].
  - destruct (nth_error row 0) as [[j d0]|] eqn:E0; [|apply nth_error_None in E0; lia].
    destruct (H1 0%nat j d0 ltac:(lia) E0) as [_ [p [q [Hp [-> [Hq _]]]]]].
    assert (q <= 0) as Hq0.
    { destruct c as [|c].
      - rewrite E0 in E. injection E as -> _. rewrite Hx in Hp. injection Hp as <-.
        rewrite Hq, sqdist_self. lra.
      - destruct (H1 (S c) i dd Hc E) as [_ [p' [q' [Hp' [-> [Hq' _]]]]]].
        rewrite Hx in Hp'. injection Hp' as <-. rewrite sqdist_self in Hq'.
        assert (q <= q') by (apply (H4 0%nat (S c) j i); auto; lia). lra. }
    destruct (F j q ltac:(lia) eq_refl Hq0) as [-> Hz]. destruct row as [|e row]; [discriminate|].
    simpl in E0. injection E0 as ->. exists q, row. auto.
  - destruct (nth_error row 0) as [[j d0]|] eqn:E0; [|apply nth_error_None in E0; lia].
    destruct (H1 0%nat j d0 ltac:(lia) E0) as [_ [p [q [Hp [-> [Hq _]]]]]].
    pose proof (Hall _ _ _ E0) as Hq0. rewrite sqdist_self in Hq0.
    destruct (F j q ltac:(lia) eq_refl Hq0) as [-> Hz]. destruct row as [|e row]; [discriminate|].
    simpl in E0. injection E0 as ->. exists q, row. auto.
Qed.

Lemma tail_excludes_self d P i x k r2 row :
  distinct_points d P -> nth_error P i = Some x -> (1 <= k)%nat ->
  match r2 with Some r => 0 < r | None => True end ->
  nearest_row (fun _ => True) P x k k r2 row ->
  nearest_row (fun j => j <> i) P x (k - 1) (k - 1) r2 (tl row).
Proof.
  intros Hd Hx Hk Hr H. destruct (first_is_self d P i x k r2 row Hd Hx Hk Hr H) as [q0 [rest [-> Hq0]]].
  destruct H as [Hl [m [Hm [H1 [H2 [H3 [H4 H5]]]]]]]. simpl in Hl. cbn [tl].
  assert (0 < m)%nat as Hm0.
  { destruct m; [|lia]. specialize (H2 0%nat ltac:(lia)). simpl in H2. discriminate. }
  split; [lia|]. exists (m - 1)%nat. split; [lia|].
  assert (forall c, nth_error rest c = nth_error ((i, Some q0) :: rest) (S c)) as N by reflexivity.
  split; [|split; [|split; [|split]]].
  - intros c j dd Hc E. rewrite N in E. split; [|apply (H1 (S c) j dd); auto; lia].
    intros ->. assert (S c = 0%nat); [|discriminate].
    apply (H3 (S c) 0%nat i dd (Some q0)); auto; lia.
  - intros c Hc. rewrite N. apply H2. lia.
  - intros c c' j dd d' Hc Hc' E E'. rewrite N in E, E'.
    assert (S c = S c') by (apply (H3 (S c) (S c') j dd d'); auto; lia). lia.
  - intros c c' j j' dd d' Hc E E'. rewrite N in E, E'. apply (H4 (S c) (S c') j j'); auto. lia.
  - intros j p Hj Hp Hr'. destruct (H5 j p I Hp Hr') as [[c [dd [Hc E]]]|[Hmk Hall]].
    + left. destruct c as [|c]; [simpl in E; congruence|]. exists c, dd. split; [lia|]. assumption.
    + right. split; [lia|]. intros c j' dd E. rewrite N in E. apply (Hall _ _ _ E).
Qed.

Lemma Forall2_nth_error {A B} (R : A -> B -> Prop) l m i y :
  Forall2 R l m -> nth_error m i = Some y -> exists x, nth_error l i = Some x /\ R x y.
Proof.
  intro H. revert i. induction H as [|a b l m Hab H IH]; intros [|i] E; simpl in *; try discriminate.
  - injection E as <-. exists a. auto.
  - apply IH. assumption.
Qed.

Lemma self_query_rows d P k r2 raw :
  distinct_points d P -> (2 <= k)%nat -> match r2 with Some r => 0 < r | None => True end ->
  nearest_rows P P k r2 raw ->
  let out := kd_query (length P) r2 false true raw in
  length out = length P /\
  exists M, (M <= k - 1)%nat /\
    (forall i x row, nth_error P i = Some x -> nth_error out i = Some row ->
       nearest_row (fun j => j <> i) P x M (k - 1) r2 row) /\
    (forall c, (c < M)%nat -> exists i row j q,
       nth_error out i = Some row /\ nth_error row c = Some (j, Some q)).
Proof.
  intros Hd Hk Hr Hraw out.
  assert (forallb (fun r : qrow => match r with (_, d0) :: _ => qd_zero d0 | [] => false end) raw = true) as Hz.
  { apply forallb_forall. intros row Hrow. apply In_nth_error in Hrow. destruct Hrow as [i Hi].
    destruct (Forall2_nth_error _ _ _ _ _ Hraw Hi) as [x [Hx Hn]].
    destruct (first_is_self d P i x k r2 row) as [q [rest [-> Hq]]]; auto; [lia|].
    simpl. apply Qeq_bool_iff. assumption. }
  assert (out = let rows := map (fun r => tl r) raw in
     map (select (map (finite_column rows) (seq 0 (match rows with [] => 0%nat | r :: _ => length r end)))) rows) as Eout.
  { unfold out, kd_query. rewrite Hz. cbn [negb andb]. cbv zeta.
    assert (map (map (fun e => if qd_exceeds r2 (snd e) then (length P, None) else e)) (map (fun r : qrow => tl r) raw)
            = map (fun r : qrow => tl r) raw) as E.
    { rewrite map_map. apply map_ext_in. intros row Hrow. apply In_nth_error in Hrow. destruct Hrow as [i Hi].
      destruct (Forall2_nth_error _ _ _ _ _ Hraw Hi) as [x [Hx Hn]].
      eapply exceeds_id. apply (tail_excludes_self d P i x k r2); auto; lia. }
    rewrite E. reflexivity. }
  assert (length raw = length P) as Hlen by (symmetry; apply (Forall2_len Hraw)).
  split.
  { rewrite Eout. cbv zeta. rewrite !map_length. assumption. }
  destruct (compact_rows P (k - 1) (k - 1) r2 (fun i => (nth i P [], fun j => j <> i)) (map (fun r => tl r) raw))
    as [M [HM [Hn Hf]]].
  { intros i row E. rewrite nth_error_map' in E. destruct (nth_error raw i) as [r|] eqn:Er; [|discriminate].
    cbn [option_map] in E. injection E as <-. cbn [fst snd].
    destruct (Forall2_nth_error _ _ _ _ _ Hraw Er) as [x [Hx Hnr]].
    rewrite (nth_of_nth_error _ _ _ _ Hx). apply (tail_excludes_self d P i x k r2); auto; lia. }
  exists M. split; auto. rewrite Eout. split; auto.
  intros i x row Hx E. specialize (Hn i row E). cbn [fst snd] in Hn.
  rewrite (nth_of_nth_error _ _ _ _ Hx) in Hn. assumption.
Qed.
