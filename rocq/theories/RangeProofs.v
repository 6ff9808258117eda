(** * What compute_neighbors asks the tree for: the exact radius and number *)
From Coq Require Import List ZArith QArith Bool Arith Lia Lqa Permutation Sorting.Sorted.
From Verif Require Import Np NpFacts LinAlg LinFacts SpecUtils SpecBasis SpecSpatial BasisModel BasisProofs SpatialModel
  SpecStructure StructureModel StructureFacts RoundFacts AnalyzeProofs StructureProofs PropAnalyze RadiusProofs.
Import ListNotations.
Open Scope nat_scope.
Open Scope list_scope.

Lemma NoDup_flat_map {A B} (f : A -> list B) l :
  NoDup l -> (forall x, In x l -> NoDup (f x)) -> (forall x y z, In x l -> In y l -> In z (f x) -> In z (f y) -> x = y) -> NoDup (flat_map f l).
Proof.
  induction 1 as [|x l Hx Hl IH]; intros H1 H2; cbn; [constructor|]. apply NoDup_app_intro.
  - apply H1. left; auto.
  - apply IH; [intros y Hy; apply H1; right; auto|]. intros y y' z Hy Hy'. apply H2; right; auto.
  - intros z Hz Hz'. apply in_flat_map in Hz'. destruct Hz' as [y [Hy Hz']]. assert (x = y) as -> by (apply (H2 x y z); auto; [left|right]; auto). auto.
Qed.

Lemma fold_add_app l m : fold_right Nat.add 0 (l ++ m) = fold_right Nat.add 0 l + fold_right Nat.add 0 m.
Proof. induction l; cbn; lia. Qed.

Lemma increasing_head x l : increasing dleb (x :: l) -> forall y, In y (x :: l) -> dleb x y = true.
Proof.
  intros H y [<-|Hy]; [destruct x; cbn; auto; apply Z.leb_le; lia|]. inversion H as [|? ? _ Hf]; subst. rewrite Forall_forall in Hf. apply Hf. auto.
Qed.

Section Range.
  Variables (query : kd_tree) (b : basis) (R : list vec) (cells : list (list Z)) (conns : list (list nat)).
  Let d := b_dim b.
  Let V := b_mat b.
  Let nb := length R.
  Let m := max_connections conns.
  Hypothesis (Hq : correct_tree query) (Hb : valid_basis b) (Hd : 1 <= d) (HR : forall r, In r R -> length r = d).
  Hypothesis (Hcells : get_neighbor_cells b (2 * m) true Qle_bool = Some cells) (Hm : m <> 0) (Hsym : sym_table nb conns).
  Let raw := raw_dicts query b R m cells.
  Let an := analyze_raw raw conns nb.
  Let allowed a c x := among_first (nth c (nth a conns []) 0) (occurs d V R cells a c) x.

  Lemma in_raw a c x : a < nb -> c < nb -> In x (dd_keys (entry2 [] raw a c)) <-> among_first m (occurs d V R cells a c) x.
  Proof.
    intros Ha Hc. unfold raw. rewrite (raw_keys query b R m Hq Hb Hd HR cells Hcells a c Ha Hc). rewrite In_firstn.
    destruct (full_keys query b R m Hq Hb Hd HR cells Hcells a c Ha Hc) as [Hinc Hocc]. split.
    - intros [i [Hi E]]. eexists. split; [exact Hinc|]. split; [exact Hocc|]. eauto.
    - intros [L [HL [Ho [i [Hi E]]]]]. exists i. split; auto. rewrite <- E. f_equal. 
      eapply (strict_unique dleb); eauto using dleb_antisym. intro y. rewrite Ho, Hocc. reflexivity.
  Qed.

  Lemma raw_entry_in a c : a < nb -> c < nb -> In (dd_keys (entry2 [] raw a c)) (concat (raw_distance_matrix raw)).
  Proof.
    intros Ha Hc. apply in_concat.
    exists (map dd_keys (nth a raw [])). unfold raw_distance_matrix, entry2.
    assert (a < length raw) as La by (unfold raw, raw_dicts; rewrite map_length, seq_length; auto).
    assert (c < length (nth a raw [])) as Lc.
    { unfold raw, raw_dicts. rewrite (nth_map_in _ _ _ 0) by (rewrite seq_length; auto). rewrite map_length, seq_length. auto. }
    split; [apply in_map, nth_In; auto|]. apply in_map, nth_In. auto.
  Qed.

  Lemma raw_table_in a c x : a < nb -> c < nb -> In x (dd_keys (entry2 [] raw a c)) -> In x (concat (concat (raw_distance_matrix raw))).
  Proof. intros Ha Hc Hx. apply in_concat. exists (dd_keys (entry2 [] raw a c)). split; auto. apply raw_entry_in; auto. Qed.

  Lemma distances_in x : In x (concat (an_distances an)) -> x = Fin 0 \/ exists a c, a < nb /\ c < nb /\ allowed a c x.
  Proof.
    intro H. apply in_concat in H. destruct H as [row [Hrow Hx]]. unfold an, analyze_raw in Hrow. cbn [an_distances] in Hrow. rewrite map_map in Hrow.
    apply in_map_iff in Hrow. destruct Hrow as [a [<- Ha]]. apply in_seq in Ha. assert (a < length R) as Ha' by (destruct Ha; unfold nb in *; lia). apply In_nth_error in Hx. destruct Hx as [i Hi].
    rewrite nth_error_assign_slice in Hi.
    destruct (_ && _) in Hi.
    - right. apply nth_error_In in Hi. apply In_sort_stable in Hi.
      destruct (base_row_spec query b R m Hq Hb Hd HR cells Hcells conns (in_max_connections conns) a Ha') as [_ [Hk _]].
      apply Hk in Hi. destruct Hi as [c [Hc Hin]]. exists a, c. split; auto. split; auto.
      apply (In_pair_dists query b R m Hq Hb Hd HR cells Hcells conns (in_max_connections conns)) in Hin; auto.
    - left. apply nth_error_In, repeat_spec in Hi. auto.
  Qed.

  (** The smallest distance is among the first ones. *)
  Lemma first_raw a c x : a < nb -> c < nb -> occurs d V R cells a c x ->
    exists y, In y (dd_keys (entry2 [] raw a c)) /\ dleb y x = true.
  Proof.
    intros Ha Hc Hx. destruct (full_keys query b R m Hq Hb Hd HR cells Hcells a c Ha Hc) as [Hinc Hocc].
    unfold raw. rewrite (raw_keys query b R m Hq Hb Hd HR cells Hcells a c Ha Hc). apply Hocc in Hx.
    destruct (dd_keys (full_dict query b R cells a c)) as [|y l]; [destruct Hx|]. exists y. split.
    - destruct m as [|m']; [lia|]. left. auto.
    - eapply increasing_head; eauto.
  Qed.

  Lemma radius_exact r : query_radius an = Some r ->
    exists mx mn : Z, (r == (inject_Z mx + (1#10) * inject_Z mn) * (1#1000000))%Q /\
      (mx = 0%Z \/ exists a c, a < nb /\ c < nb /\ allowed a c (Fin mx)) /\
      (forall a c z, a < nb -> c < nb -> allowed a c (Fin z) -> (z <= mx)%Z) /\
      (exists a c, a < nb /\ c < nb /\ occurs d V R cells a c (Fin mn)) /\
      (forall a c z, a < nb -> c < nb -> occurs d V R cells a c (Fin z) -> (mn <= z)%Z).
  Proof.
    unfold query_radius. change (an_raw an) with raw.
    destruct (forallb _ _); [|discriminate].
    destruct (zmax_list _) as [mx|] eqn:Emx; [|discriminate]. destruct (zmin_list _) as [mn|] eqn:Emn; [|discriminate].
    intros E. injection E as <-. apply zmax_list_spec in Emx. apply zmin_list_spec in Emn. destruct Emx as [Hmx1 Hmx2]. destruct Emn as [Hmn1 Hmn2].
    exists mx, mn. split; [reflexivity|]. split; [|split; [|split]].
    - apply in_map_iff in Hmx1. destruct Hmx1 as [x [<- Hx]]. apply distances_in in Hx. destruct Hx as [->|[a [c [Ha [Hc Hx]]]]]; [left; reflexivity|].
      right. exists a, c. split; auto. split; auto. destruct (occurs_pos b R cells conns Hd a c x (allowed_occurs b R cells conns a c x Hx)) as [z [-> _]]. exact Hx.
    - intros a c z Ha Hc Hz. apply Hmx2. apply in_map_iff. exists (Fin z). split; auto.
      apply (allowed_in_distances query b R cells conns Hq Hb Hd HR Hcells a c (Fin z) Ha Hc Hz).
    - apply in_map_iff in Hmn1. destruct Hmn1 as [x [<- Hx]]. apply (In_raw query b R cells conns Hq Hb Hd HR Hcells) in Hx. destruct Hx as [a [c [Ha [Hc [_ Ho]]]]].
      exists a, c. split; auto. split; auto. destruct (occurs_pos b R cells conns Hd a c x Ho) as [z [-> _]]. exact Ho.
    - intros a c z Ha Hc Hz. destruct (first_raw a c _ Ha Hc Hz) as [y [Hy Hle]]. pose proof (raw_table_in a c y Ha Hc Hy) as Hin.
      destruct (In_raw query b R cells conns Hq Hb Hd HR Hcells y Hin) as [a' [c' [_ [_ [_ Ho]]]]].
      destruct (occurs_pos b R cells conns Hd a' c' y Ho) as [z' [-> _]]. apply Z.leb_le in Hle.
      assert (mn <= z')%Z; [|lia]. apply Hmn2. apply in_map_iff. exists (Fin z'). auto.
  Qed.

  (** The radius is defined if between any two sublattices enough distances occur. *)
  Lemma radius_defined : R <> [] ->
    (forall a c, a < nb -> c < nb -> exists L, NoDup L /\ length L = m /\ forall x, In x L -> occurs d V R cells a c x) ->
    query_radius an <> None.
  Proof.
    intros HR0 Hmany.
    assert (0 < nb) as Hnb by (unfold nb; destruct R; [congruence|cbn; lia]).
    assert (forall keys, In keys (concat (raw_distance_matrix raw)) -> length keys = m) as Hkeys.
    { intros keys H. apply in_concat in H. destruct H as [row [H Hk]].
      unfold raw_distance_matrix, raw, raw_dicts in H. rewrite map_map in H. apply in_map_iff in H. destruct H as [a [<- Ha]].
      rewrite map_map in Hk. apply in_map_iff in Hk. destruct Hk as [c [<- Hc]]. apply in_seq in Ha. apply in_seq in Hc.
      assert (a < nb) as Ha' by (destruct Ha; auto). assert (c < nb) as Hc' by (destruct Hc; auto).
      destruct (full_keys query b R m Hq Hb Hd HR cells Hcells a c Ha' Hc') as [Hinc Hocc].
      rewrite drop_extra_keys by exact Hinc. rewrite firstn_length.
      destruct (Hmany a c Ha' Hc') as [L [HL1 [HL2 HL3]]].
      assert (length L <= length (dd_keys (full_dict query b R cells a c))).
      { apply NoDup_incl_length; auto. intros x Hx. apply Hocc. apply HL3. auto. }
      lia. }
    unfold query_radius. change (an_raw an) with raw.
    assert (concat (raw_distance_matrix raw) <> []) as Hne.
    { intro E. pose proof (raw_entry_in 0 0 Hnb Hnb) as H. rewrite E in H. destruct H. }
    destruct (concat (raw_distance_matrix raw)) as [|k0 ks] eqn:Ek; [congruence|].
    replace (forallb (fun r0 => length r0 =? length k0) (k0 :: ks)) with true.
    2:{ symmetry. apply forallb_forall. intros k Hk. apply Nat.eqb_eq. rewrite (Hkeys k Hk), (Hkeys k0) by (left; auto). reflexivity. }
    assert (length k0 = m) as L0 by (apply Hkeys; left; auto).
    destruct k0 as [|x0 k0]; [cbn in L0; congruence|]. cbn [concat map app zmin_list].
    destruct (zmax_list _) as [mx|] eqn:Emx; [discriminate|]. exfalso.
    assert (concat (an_distances an) = []) as E0 by (destruct (concat (an_distances an)); [auto|discriminate]).
    destruct (max_connections_reached conns Hm) as [a [c Eac]]. fold m in Eac.
    destruct Hsym as [S1 [S2 _]]. unfold entry2 in Eac.
    assert (a < nb) as Ha by (destruct (lt_dec a nb); auto; rewrite (nth_overflow conns) in Eac by lia; destruct c; cbn in Eac; lia).
    assert (c < nb) as Hc by (destruct (lt_dec c nb); auto; rewrite nth_overflow in Eac; [lia|]; rewrite S2; [lia|apply nth_In; lia]).
    destruct (Hmany a c Ha Hc) as [L [_ [HL2 HL3]]]. destruct L as [|x L]; [cbn in HL2; congruence|].
    destruct (first_raw a c x Ha Hc (HL3 x (or_introl eq_refl))) as [y [Hy _]]. apply in_raw in Hy; auto.
    assert (allowed a c y) as Hal by (unfold allowed; rewrite Eac; auto).
    apply (allowed_in_distances query b R cells conns Hq Hb Hd HR Hcells a c y Ha Hc) in Hal. fold m in Hal. fold raw nb in Hal. fold an in Hal. rewrite E0 in Hal. destruct Hal.
  Qed.

  (** Everything that is in the dictionaries, with the pair of atoms. *)
  Let everything : list (nat * nat * list Z) :=
    flat_map (fun a => flat_map (fun c => map (fun s => (a, c, site_cell s))
      (concat (map (dd_get (entry2 [] raw a c)) (dd_keys (entry2 [] raw a c))))) (seq 0 nb)) (seq 0 nb).

  Lemma raw_nodup a c : a < nb -> c < nb -> NoDup (dd_keys (entry2 [] raw a c)).
  Proof.
    intros Ha Hc. unfold raw. rewrite (raw_keys query b R m Hq Hb Hd HR cells Hcells a c Ha Hc).
    apply increasing_NoDup, increasing_firstn, (full_keys query b R m Hq Hb Hd HR cells Hcells a c Ha Hc).
  Qed.

  Lemma raw_get a c x : a < nb -> c < nb -> In x (dd_keys (entry2 [] raw a c)) ->
    dd_get (entry2 [] raw a c) x = dd_get (full_dict query b R cells a c) x /\ x <> Fin 0.
  Proof.
    intros Ha Hc Hx. destruct (full_keys query b R m Hq Hb Hd HR cells Hcells a c Ha Hc) as [Hinc Hocc].
    unfold raw in Hx. rewrite (raw_keys query b R m Hq Hb Hd HR cells Hcells a c Ha Hc) in Hx. split.
    - unfold raw. rewrite (raw_entry query b R m cells a c Ha Hc). apply drop_extra_get; auto.
    - apply In_firstn in Hx. destruct Hx as [i [_ Hx]]. apply nth_error_In, Hocc in Hx. apply Hx.
  Qed.

  Lemma in_raw_sites a c x s : a < nb -> c < nb -> In x (dd_keys (entry2 [] raw a c)) ->
    (In s (dd_get (entry2 [] raw a c) x) <-> exists n, s = n ++ [Z.of_nat c] /\ In n cells /\ pair_distance d V R a c n x).
  Proof.
    intros Ha Hc Hx. destruct (raw_get a c x Ha Hc Hx) as [-> H0].
    destruct (full_get query b R m Hq Hb Hd HR cells Hcells a c x Ha Hc) as [_ Hg]. rewrite Hg.
    split; intros [n [H1 [H2 H3]]]; exists n; tauto.
  Qed.

  Lemma count_exact : exists L : list (nat * nat * list Z),
    NoDup L /\ query_count an = S (length L) /\
    forall a c n, In (a, c, n) L <-> a < nb /\ c < nb /\ In n cells /\
      exists x, pair_distance d V R a c n x /\ among_first m (occurs d V R cells a c) x.
  Proof.
    exists everything.
    assert (forall a c t, a < nb -> c < nb ->
      In t (concat (map (dd_get (entry2 [] raw a c)) (dd_keys (entry2 [] raw a c)))) <->
      exists n x, t = n ++ [Z.of_nat c] /\ In n cells /\ pair_distance d V R a c n x /\ among_first m (occurs d V R cells a c) x) as Hin.
    { intros a c t Ha Hc. rewrite in_concat. split.
      - intros [l [Hl Ht]]. apply in_map_iff in Hl. destruct Hl as [x [<- Hx]]. apply in_raw_sites in Ht; auto. destruct Ht as [n [-> [Hn Hp]]].
        exists n, x. split; auto. split; auto. split; auto. apply in_raw in Hx; auto.
      - intros [n [x [-> [Hn [Hp Hx]]]]]. apply in_raw in Hx; auto. exists (dd_get (entry2 [] raw a c) x). split; [apply in_map; auto|].
        apply in_raw_sites; auto. exists n. auto. }
    split; [|split].
    - unfold everything. apply NoDup_flat_map; [apply seq_NoDup| |].
      + intros a Ha. apply in_seq in Ha. apply NoDup_flat_map; [apply seq_NoDup| |].
        * intros c Hc. apply in_seq in Hc. assert (a < nb) as Ha' by (destruct Ha; auto). assert (c < nb) as Hc' by (destruct Hc; auto).
          apply NoDup_map_in.
          -- intros t t' Ht Ht' E. apply Hin in Ht; auto. apply Hin in Ht'; auto.
             destruct Ht as [n [_ [-> _]]]. destruct Ht' as [n' [_ [-> _]]]. rewrite !site_cell_app in E. injection E as ->. reflexivity.
          -- pose proof (raw_nodup a c Ha' Hc') as Hnd.
             assert (forall ks, NoDup ks -> (forall x, In x ks -> In x (dd_keys (entry2 [] raw a c))) -> NoDup (concat (map (dd_get (entry2 [] raw a c)) ks))) as H; [|apply H; auto].
             induction 1 as [|x ks Hx Hks IH]; intro Hsub; cbn; [constructor|]. apply NoDup_app_intro.
             ++ destruct (raw_get a c x Ha' Hc' (Hsub x (or_introl eq_refl))) as [-> _]. apply (full_get query b R m Hq Hb Hd HR cells Hcells a c x Ha' Hc').
             ++ apply IH. intros y Hy. apply Hsub. right; auto.
             ++ intros t Ht Ht'. apply in_concat in Ht'. destruct Ht' as [l [Hl Ht']]. apply in_map_iff in Hl. destruct Hl as [y [<- Hy]].
                apply in_raw_sites in Ht; auto; [|apply Hsub; left; auto]. apply in_raw_sites in Ht'; auto; [|apply Hsub; right; auto].
                destruct Ht as [n [-> [_ Hp]]]. destruct Ht' as [n' [E [_ Hp']]]. apply site_app_inj in E. destruct E as [<- _].
                assert (x = y) as -> by (eapply pair_distance_unique; eauto). auto.
        * intros c c' [[a1 c1] n1] _ _ H1 H2. apply in_map_iff in H1. apply in_map_iff in H2. destruct H1 as [? [E1 _]]. destruct H2 as [? [E2 _]]. congruence.
      + intros a a' [[a1 c1] n1] _ _ H1 H2. apply in_flat_map in H1. apply in_flat_map in H2. destruct H1 as [c [_ H1]]. destruct H2 as [c' [_ H2]].
        apply in_map_iff in H1. apply in_map_iff in H2. destruct H1 as [? [E1 _]]. destruct H2 as [? [E2 _]]. congruence.
    - unfold query_count. change (an_raw an) with raw. rewrite Nat.add_1_r. f_equal.
      unfold sum_all, raw_num_neighbors, everything.
      assert (raw = map (fun a => map (fun c => entry2 [] raw a c) (seq 0 nb)) (seq 0 nb)) as Eraw.
      { unfold raw at 1. unfold raw_dicts. apply map_ext_in. intros a Ha. apply map_ext_in. intros c Hc. apply in_seq in Ha. apply in_seq in Hc.
        unfold raw. rewrite raw_entry; [reflexivity|apply Ha|apply Hc]. }
      rewrite Eraw at 1. rewrite map_map.
      assert (forall as_ , (forall a, In a as_ -> a < nb) -> 
        fold_right Nat.add 0 (concat (map (fun a => map dd_count (map (fun c => entry2 [] raw a c) (seq 0 nb))) as_)) =
        length (flat_map (fun a => flat_map (fun c => map (fun s => (a, c, site_cell s))
          (concat (map (dd_get (entry2 [] raw a c)) (dd_keys (entry2 [] raw a c))))) (seq 0 nb)) as_)) as H.
      { induction as_ as [|a as_ IH]; intro Has; cbn; auto. rewrite fold_add_app, app_length. f_equal; [|apply IH; intros; apply Has; right; auto].
        assert (a < nb) as Ha by (apply Has; left; auto).
        assert (forall cs, (forall c, In c cs -> c < nb) -> fold_right Nat.add 0 (map dd_count (map (fun c => entry2 [] raw a c) cs)) =
          length (flat_map (fun c => map (fun s => (a, c, site_cell s)) (concat (map (dd_get (entry2 [] raw a c)) (dd_keys (entry2 [] raw a c))))) cs)) as Hc.
        { induction cs as [|c cs IHc]; intro Hcs; cbn; auto. rewrite app_length, map_length. f_equal; [|apply IHc; intros; apply Hcs; right; auto].
          apply dd_count_get, raw_nodup; auto. apply Hcs. left; auto. }
        apply Hc. intros c Hc'. apply in_seq in Hc'. destruct Hc'; auto. }
      apply H. intros a Ha. apply in_seq in Ha. destruct Ha; auto.
    - intros a c n. unfold everything. rewrite in_flat_map. split.
      + intros [a' [Ha H]]. apply in_flat_map in H. destruct H as [c' [Hc H]]. apply in_map_iff in H. destruct H as [t [E Ht]].
        apply in_seq in Ha. apply in_seq in Hc. apply Hin in Ht; [|apply Ha|apply Hc]. destruct Ht as [n' [x [-> [Hn [Hp Hx]]]]]. rewrite site_cell_app in E. injection E as -> -> ->.
        split; [apply Ha|]. split; [apply Hc|]. split; auto. eauto.
      + intros [Ha [Hc [Hn [x [Hp Hx]]]]]. exists a. split; [apply in_seq; cbn; auto with arith|]. apply in_flat_map. exists c. split; [apply in_seq; cbn; auto with arith|].
        apply in_map_iff. exists (n ++ [Z.of_nat c]). split; [rewrite site_cell_app; reflexivity|]. apply Hin; auto. eauto 6.
  Qed.
End Range.
