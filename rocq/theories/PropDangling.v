(** * C60: the dangling filter *)
From Coq Require Import List ZArith QArith Bool Arith Lia Permutation Sorting.Sorted.
From Verif Require Import Np NpFacts LinAlg SpecUtils StructureModel DataModel DataProofs LatticeModel SpecLattice.
Import ListNotations.
Open Scope nat_scope.
Open Scope list_scope.

Lemma count_finite_degree T i : count_finite (nth i T []) = degree T i.
Proof. reflexivity. Qed.

Lemma fold_drop_one L T : fold_left drop_one L T = map (map (fun e => (fold_left dec1 L (fst e), snd e))) T.
Proof.
  revert T. induction L as [|[c i] L IH]; intro T; cbn [fold_left].
  - symmetry. rewrite (map_ext _ (fun r => r)); [apply map_id|]. intro r. rewrite (map_ext _ (fun e => e)); [apply map_id|]. intros []; reflexivity.
  - rewrite IH. unfold drop_one. rewrite map_map. apply map_ext. intro r. rewrite map_map. reflexivity.
Qed.

Definition few T m := where_ (map (fun r => count_finite r <? m) T).

Lemma In_few T m i : In i (few T m) <-> i < length T /\ degree T i < m.
Proof.
  unfold few. rewrite In_where. split.
  - intro H. destruct (Nat.lt_ge_cases i (length T)) as [Hi|Hi].
    + split; auto. rewrite (nth_indep _ false (count_finite [] <? m)) in H by (rewrite map_length; auto).
      rewrite (map_nth (fun r => count_finite r <? m)) in H. apply Nat.ltb_lt in H. exact H.
    + rewrite nth_overflow in H by (rewrite map_length; auto). discriminate.
  - intros [Hi H]. rewrite (nth_indep _ false (count_finite [] <? m)) by (rewrite map_length; auto).
    rewrite (map_nth (fun r => count_finite r <? m)). apply Nat.ltb_lt. exact H.
Qed.

(** One entry after the filter. *)
Definition moved (N m : nat) (sites : list nat) (e : nat * dist) : nat * dist :=
  if isin sites (fst e) then (m, Inf) else if fst e =? N then (m, snd e) else (length (kept_sites (fst e) sites), snd e).

Lemma filter_all {A} (f : A -> bool) l : (forall x, In x l -> f x = true) -> filter f l = l.
Proof. induction l as [|x l IH]; intro H; cbn; auto. rewrite (H x) by (left; auto). f_equal. apply IH. intros y Hy. apply H. right. auto. Qed.

Lemma kept_mono sites a b : a <= b -> length (kept_sites a sites) <= length (kept_sites b sites).
Proof.
  intro H. replace b with (a + (b - a)) by lia. rewrite kept_app, app_length. lia.
Qed.

Lemma filter_dangling_eq I P T m : length I = length T -> length P = length T ->
  (forall row e, In row T -> In e row -> fst e <= length T) ->
  let N := length T in
  let sites := few T m in
  let kept := kept_sites N sites in
  filter_dangling I P T m =
    if length sites =? 0 then Ok (I, P, T)
    else if length sites =? N then Raise ValueError
    else Ok (map (fun i => nth i I []) kept, map (fun i => nth i P []) kept,
             map (fun i => map (moved N (length kept) sites) (nth i T [])) kept).
Proof.
  intros HI HP HT N sites kept. unfold filter_dangling. change (where_ _) with (few T m). fold sites.
  destruct (length sites =? 0) eqn:E0; auto. rewrite HI. fold N. destruct (length sites =? N) eqn:E1; auto.
  f_equal. assert (NoDup sites) as Hnd by apply where_NoDup.
  assert (forall i, In i sites -> i < N) as Hlt by (intros i Hi; apply In_few in Hi; tauto).
  rewrite (delete_kept [] sites I), HI, (delete_kept ([] : vec) sites P), HP. fold N kept. rewrite map_length.
  f_equal. rewrite (delete_kept [] sites T). fold N kept. rewrite fold_drop_one, !map_map. apply map_ext_in. intros i Hi.
  apply In_kept in Hi. rewrite !map_map. apply map_ext_in. intros e He.
  assert (fst e <= N) as Hle. { apply (HT (nth i T [])); auto. apply nth_In. tauto. }
  assert (forall j, j <= N -> ~ In j sites -> fold_left dec1 (enumerate (sort_stable Nat.leb sites)) j = length (kept_sites j sites)) as Hd.
  { intros j _ Hj. apply dec_all; auto. }
  assert (~ In N sites) as HN by (intro H; apply Hlt in H; lia).
  assert (length kept < N) as Hk.
  { unfold kept. pose proof (below_split sites N Hnd). assert (filter (fun s => s <? N) sites = sites) as E.
    { apply filter_all. intros s Hs. apply Nat.ltb_lt. auto. }
    rewrite E in H. apply Nat.eqb_neq in E0. lia. }
  unfold moved. destruct (isin sites (fst e)) eqn:Ei; cbn [fst snd].
  - rewrite (Hd N) by auto. fold kept. rewrite (proj2 (Nat.eqb_neq _ _)) by lia. reflexivity.
  - apply isin_false in Ei. rewrite (Hd (fst e)) by auto. destruct (fst e =? N) eqn:En.
    + apply Nat.eqb_eq in En. rewrite En. fold kept. rewrite (proj2 (Nat.eqb_neq _ _)) by lia. reflexivity.
    + apply Nat.eqb_neq in En. pose proof (kept_mono sites (fst e) N Hle). fold kept in H. rewrite (proj2 (Nat.eqb_neq _ _)) by lia. reflexivity.
Qed.

Theorem C60_dangling_filter :
  forall I P T m, table_ok (length I) T -> length P = length I ->
    (* all sites would go *)
    (filter_dangling I P T m = Raise ValueError <-> I <> [] /\ forall i, i < length I -> degree T i < m) /\
    (* otherwise the induced sub-lattice *)
    (forall kept, StronglySorted lt kept -> (forall i, In i kept <-> i < length I /\ m <= degree T i) ->
       (I = [] \/ kept <> []) ->
       exists I' P' T', filter_dangling I P T m = Ok (I', P', T') /\
         length I' = length kept /\ length P' = length kept /\ table_ok (length kept) T' /\
         forall p, p < length kept ->
           let q := nth p kept 0 in
           nth p I' [] = nth q I [] /\ nth p P' [] = nth q P [] /\ length (nth p T' []) = length (nth q T []) /\
           map (fun e => (nth (fst e) kept 0, snd e)) (finite_entries (nth p T' [])) =
             filter (fun e => if in_dec Nat.eq_dec (fst e) kept then true else false) (finite_entries (nth q T []))).
Proof.
  intros I P T m [HT Hok] HP.
  assert (forall row e, In row T -> In e row -> fst e <= length T) as Hle.
  { intros row e Hr He. destruct (Hok row e Hr He) as [H1 H2]. rewrite HT. destruct (snd e) eqn:E; [assert (fst e < length I) by (apply H1; discriminate); lia|rewrite H2; auto]. }
  pose proof (filter_dangling_eq I P T m (eq_sym HT) (eq_trans HP (eq_sym HT)) Hle) as E. cbv zeta in E.
  set (sites := few T m) in *. rewrite HT in E.
  assert (forall i, In i sites <-> i < length I /\ degree T i < m) as Hsites by (intro i; unfold sites; rewrite In_few, HT; tauto).
  assert (NoDup sites) as Hnd by apply where_NoDup.
  assert (length sites <= length I) as Hsl.
  { rewrite <- (seq_length (length I) 0). apply NoDup_incl_length; auto. intros i Hi. apply Hsites in Hi. apply in_seq. lia. }
  split.
  - rewrite E. split.
    + intro H. destruct (length sites =? 0) eqn:E0; [discriminate|]. destruct (length sites =? length I) eqn:E1; [|discriminate].
      apply Nat.eqb_neq in E0. apply Nat.eqb_eq in E1. split; [intros ->; cbn in *; lia|].
      intros i Hi. assert (incl (seq 0 (length I)) sites) as Hincl.
      { apply NoDup_length_incl; auto. rewrite seq_length. lia. intros j Hj. apply Hsites in Hj. apply in_seq. lia. }
      apply Hsites. apply Hincl. apply in_seq. lia.
    + intros [Hne Hall]. assert (length sites = length I) as E1.
      { apply Nat.le_antisymm; auto. rewrite <- (seq_length (length I) 0) at 1. apply NoDup_incl_length; [apply seq_NoDup|].
        intros i Hi. apply in_seq in Hi. apply Hsites. split; [lia|]. apply Hall. lia. }
      rewrite E1, Nat.eqb_refl. destruct (length I =? 0) eqn:E0; auto. apply Nat.eqb_eq in E0. destruct I; [congruence|discriminate].
  - intros kept Hs Hk Hne.
    assert (kept = kept_sites (length I) sites) as Ek.
    { apply kept_unique; auto. intro i. rewrite Hk, Hsites. lia. }
    destruct (length sites =? 0) eqn:E0.
    + apply Nat.eqb_eq in E0. assert (sites = []) as Es by (destruct sites; [auto|discriminate]).
      assert (kept = seq 0 (length I)) as Ek'.
      { rewrite Ek, Es. unfold kept_sites. cbn. clear. generalize 0 as k. induction (length I) as [|n IH]; intro k; cbn; f_equal; auto. }
      assert (length kept = length I) as El by (rewrite Ek'; apply seq_length).
      exists I, P, T. rewrite El. split; auto. split; auto. split; auto. split; [split; auto|]. intros p Hp. rewrite Ek', seq_nth by auto. cbn [plus].
      split; auto. split; auto. split; auto.
      assert (forall e, In e (finite_entries (nth p T [])) -> fst e < length I) as Hf.
      { intros e He. apply filter_In in He. destruct He as [He Hx]. apply (Hok (nth p T []) e); auto. apply nth_In. lia. intro Ei. rewrite Ei in Hx. discriminate. }
      clear -Hf. induction (finite_entries (nth p T [])) as [|e l IH]; cbn; auto.
      assert (fst e < length I) by (apply Hf; left; auto). rewrite seq_nth by auto.
      destruct (in_dec _ _ _) as [_|Hn]; [|exfalso; apply Hn, in_seq; lia]. cbn [plus]. rewrite IH by (intros; apply Hf; right; auto). destruct e; reflexivity.
    + assert (length sites <> length I) as E1.
      { intro E1. apply Nat.eqb_neq in E0. destruct Hne as [->|Hne]; [cbn in E1; lia|]. destruct kept as [|i0 kept]; [congruence|].
        assert (In i0 sites) as Hi0.
        { assert (incl (seq 0 (length I)) sites) as Hincl.
          { apply NoDup_length_incl; auto. rewrite seq_length. lia. intros j Hj. apply Hsites in Hj. apply in_seq. lia. }
          apply Hincl, in_seq. assert (i0 < length I) by (apply Hk; left; auto). lia. }
        apply Hsites in Hi0. assert (m <= degree T i0) by (apply Hk; left; auto). lia. }
      rewrite (proj2 (Nat.eqb_neq _ _) E1) in E. rewrite <- Ek in E. eexists _, _, _. split; [exact E|]. rewrite !map_length.
      split; auto. split; auto.
      assert (forall e, (snd e <> Inf -> fst e < length I) -> (snd e = Inf -> fst e = length I) ->
                (In (fst e) kept -> fst (moved (length I) (length kept) sites e) < length kept /\ nth (fst (moved (length I) (length kept) sites e)) kept 0 = fst e /\ snd (moved (length I) (length kept) sites e) = snd e) /\
                (~ In (fst e) kept -> moved (length I) (length kept) sites e = (length kept, Inf))) as Hmoved.
      { intros e H1 H2. unfold moved. split; intro Hin.
        - pose proof Hin as Hin'. rewrite Ek in Hin'. apply In_kept in Hin'. destruct Hin' as [Ha Hb].
          rewrite (proj2 (isin_false _ _) Hb), (proj2 (Nat.eqb_neq _ _)) by lia. cbn.
          destruct (kept_position (length I) sites (fst e) Ha Hb) as [Hp1 Hp2]. rewrite <- Ek in Hp1, Hp2. auto.
        - destruct (isin sites (fst e)) eqn:Ei; auto. destruct (fst e =? length I) eqn:En.
          + apply Nat.eqb_eq in En. destruct (snd e) eqn:Ex; auto. assert (fst e < length I) by (apply H1; discriminate). lia.
          + exfalso. apply Hin. rewrite Ek. apply In_kept. apply isin_false in Ei. apply Nat.eqb_neq in En. split; auto. }
      assert (forall q, In q kept -> In (nth q T []) T) as HinT.
      { intros q Hq. apply nth_In. rewrite HT. apply Hk. auto. }
      split.
      * split; [apply map_length|]. intros row e Hr He. apply in_map_iff in Hr. destruct Hr as [q [<- Hq]]. apply in_map_iff in He. destruct He as [e0 [<- He0]].
        destruct (Hok (nth q T []) e0 (HinT q Hq) He0) as [H1 H2]. destruct (Hmoved e0 H1 H2) as [M1 M2].
        destruct (in_dec Nat.eq_dec (fst e0) kept) as [Hin|Hin].
        -- destruct (M1 Hin) as [A [B C]]. split; [auto|]. rewrite C. intro Hx. rewrite (H2 Hx) in Hin. apply Hk in Hin. lia.
        -- rewrite (M2 Hin). cbn. split; congruence.
      * intros p Hp q. assert (In q kept) as Hq by (apply nth_In; auto).
        assert (forall B (f : nat -> B) d, nth p (map f kept) d = f q) as Hn.
        { intros B f d. rewrite (nth_indep _ d (f 0)) by (rewrite map_length; auto). apply map_nth. }
        rewrite !Hn. split; auto. split; auto. split; [apply map_length|].
        assert (forall e, In e (nth q T []) -> (snd e <> Inf -> fst e < length I) /\ (snd e = Inf -> fst e = length I)) as Hrow by (intros e He; apply (Hok _ e (HinT q Hq) He)).
        induction (nth q T []) as [|e l IH]; auto.
        destruct (Hrow e (or_introl eq_refl)) as [H1 H2]. destruct (Hmoved e H1 H2) as [M1 M2].
        specialize (IH (fun e He => Hrow e (or_intror He))). unfold finite_entries in *. cbn [map filter].
        destruct (in_dec Nat.eq_dec (fst e) kept) as [Hin|Hin].
        -- destruct (M1 Hin) as [A [B C]]. rewrite C. destruct (snd e) eqn:Ex; cbn [map filter]; auto. rewrite B, C.
           destruct (in_dec Nat.eq_dec (fst e) kept); [|contradiction]. rewrite IH, ?Ex. destruct e; cbn in *; subst; reflexivity.
        -- rewrite (M2 Hin). cbn [snd filter]. destruct (snd e) eqn:Ex; auto. cbn [filter].
           destruct (in_dec Nat.eq_dec (fst e) kept); [contradiction|]. auto.
Qed.

(** A chain of five sites, with an isolated sixth. *)
Definition ex_rows : list (list (nat * dist)) :=
  let a := Fin 1000000 in
  [[(1, a); (6, Inf)]; [(0, a); (2, a)]; [(1, a); (3, a)]; [(2, a); (4, a)]; [(3, a); (6, Inf)]; [(6, Inf); (6, Inf)]].
Definition ex_inds : list (list Z) := [[0; 0]; [1; 0]; [2; 0]; [3; 0]; [4; 0]; [7; 0]]%Z.
Definition ex_poss : list (list Q) := [[0]; [1]; [2]; [3]; [4]; [7]]%Q.

Example C60_example :
  table_ok (length ex_inds) ex_rows /\
  filter_dangling ex_inds ex_poss ex_rows 1 =
    Ok ([[0; 0]; [1; 0]; [2; 0]; [3; 0]; [4; 0]]%Z, [[0]; [1]; [2]; [3]; [4]]%Q,
        [[(1, Fin 1000000); (5, Inf)]; [(0, Fin 1000000); (2, Fin 1000000)]; [(1, Fin 1000000); (3, Fin 1000000)];
         [(2, Fin 1000000); (4, Fin 1000000)]; [(3, Fin 1000000); (5, Inf)]]) /\
  filter_dangling ex_inds ex_poss ex_rows 3 = Raise ValueError.
Proof.
  split; [|split; reflexivity]. split; [reflexivity|]. intros row e Hr He.
  repeat (destruct Hr as [<-|Hr]; [repeat (destruct He as [<-|He]; [cbn; split; [try congruence; intro; lia|congruence]|]); destruct He|]). destruct Hr.
Qed.

(** The filter runs once: sites that are left may have too few neighbours. *)
Theorem C60_again_refuted :
  exists I P T, table_ok (length ex_inds) ex_rows /\ filter_dangling ex_inds ex_poss ex_rows 2 = Ok (I, P, T) /\
    (exists i, i < length I /\ degree T i < 2) /\
    exists I' P' T', filter_dangling I P T 2 = Ok (I', P', T') /\ length I' < length I.
Proof.
  eexists _, _, _. split; [apply C60_example|]. split; [reflexivity|]. split; [exists 0; cbn; lia|].
  eexists _, _, _. split; [reflexivity|]. cbn. lia.
Qed.

Print Assumptions C60_dangling_filter.
Print Assumptions C60_again_refuted.
