(** * The analysis of the unit cell *)
From Coq Require Import List ZArith QArith Qround Bool Arith Lia Lqa Permutation Sorting.Sorted.
From Verif Require Import Np NpFacts UtilsModel UtilsProofs LinAlg LinFacts SpecUtils SpecBasis SpecSpatial SpecStructure
  BasisModel BasisProofs PropBasis SpatialModel KDProofs StructureModel RoundFacts StructureFacts.
Import ListNotations.
Open Scope nat_scope.
Open Scope list_scope.

(** ** A query for all points *)

Lemma full_row (P : list (list Q)) (x : list Q) row :
  nearest_row (fun _ => True) P x (length P) (length P) None row ->
  Permutation (map fst row) (seq 0 (length P)) /\
  (forall j d, In (j, d) row -> exists p q, nth_error P j = Some p /\ d = Some q /\ (q == sqdist x p)%Q) /\
  (forall c c' j j' q q', c < c' -> nth_error row c = Some (j, Some q) -> nth_error row c' = Some (j', Some q') ->
     (q <= q')%Q).
Proof.
  intros [Hl [m [Hm [H1 [H2 [H3 [H4 H5]]]]]]].
  assert (NoDup (firstn m (map fst row))) as Hnd.
  { rewrite NoDup_nth_error. intros i j Hi E. rewrite firstn_length, map_length in Hi.
    rewrite !nth_error_firstn in E. destruct (Nat.ltb_spec i m) as [Hi'|]; [|lia].
    destruct (Nat.ltb_spec j m) as [Hj'|].
    - rewrite !nth_error_map' in E. destruct (nth_error_lt row i) as [[a da] Ea]; [lia|].
      destruct (nth_error_lt row j) as [[b db] Eb]; [lia|]. rewrite Ea, Eb in E. cbn in E. injection E as <-.
      eapply (H3 i j a da db); auto.
    - rewrite nth_error_map' in E. destruct (nth_error_lt row i) as [e Ee]; [lia|]. rewrite Ee in E. discriminate. }
  assert (m = length P) as Em.
  { destruct (Nat.eq_dec m (length P)) as [|Hne]; auto. exfalso.
    assert (incl (seq 0 (length P)) (firstn m (map fst row))) as Hi.
    { intros j Hj. apply in_seq in Hj. destruct (nth_error_lt P j) as [p Hp]; [lia|].
      destruct (H5 j p I Hp I) as [[c [d [Hc E]]]|[E _]]; [|lia].
      apply nth_error_In with (n := c). rewrite nth_error_firstn. destruct (Nat.ltb_spec c m); [|lia].
      rewrite nth_error_map', E. reflexivity. }
    apply NoDup_incl_length in Hi; [|apply seq_NoDup]. rewrite seq_length, firstn_length, map_length in Hi. lia. }
  subst m. rewrite firstn_all2 in Hnd by (rewrite map_length; lia). split; [|split].
  - apply NoDup_Permutation_bis; auto; [rewrite seq_length, map_length; lia|].
    intros j Hj. apply in_map_iff in Hj. destruct Hj as [[j' d] [<- Hj]]. apply In_nth_error in Hj. destruct Hj as [c Hc].
    destruct (H1 c j' d) as [_ [p [q [Hp _]]]]; auto; [apply nth_error_length_lt in Hc; lia|].
    apply nth_error_length_lt in Hp. apply in_seq. cbn. lia.
  - intros j d Hin. apply In_nth_error in Hin. destruct Hin as [c Hc].
    destruct (H1 c j d) as [_ [p [q [Hp [Hq [E _]]]]]]; eauto. apply nth_error_length_lt in Hc. lia.
  - intros c c' j j' q q' Hcc Hc Hc'. apply (H4 c c' j j'); auto. apply nth_error_length_lt in Hc'. lia.
Qed.

Lemma kd_query_plain n row : kd_query n None true false [row] = [row].
Proof.
  unfold kd_query. cbn [negb andb map]. f_equal. rewrite <- (map_id row) at 2. apply map_ext. intros [j d]. reflexivity.
Qed.

Lemma sort_by_nth {A} (R : A -> A -> Prop) l :
  (forall i j x y, i < j -> nth_error l i = Some x -> nth_error l j = Some y -> R x y) -> StronglySorted R l.
Proof.
  induction l as [|a l IH]; intro H; constructor.
  - apply IH. intros i j x y Hij Hi Hj. apply (H (S i) (S j)); auto. lia.
  - rewrite Forall_forall. intros y Hy. apply In_nth_error in Hy. destruct Hy as [j Hj]. apply (H 0 (S j)); auto. lia.
Qed.

(** The distances found from [x], with the sites. *)
Definition found_from (query : kd_tree) (sites : list (list Z)) (points : list (list Q)) (x : list Q) : list (dist * list Z) :=
  map (fun e => (qd_round (snd e), nth (fst e) sites [])) (query points x (length points) None).

Lemma found_spec query sites (points : list (list Q)) (x : list Q) :
  correct_tree query -> length sites = length points -> NoDup sites ->
  let found := found_from query sites points x in
  StronglySorted (fun a b => dleb a b = true) (map fst found) /\
  NoDup (map snd found) /\
  (forall z s, In (z, s) found <-> exists j p, nth_error sites j = Some s /\ nth_error points j = Some p /\
     z = Fin (sqrt_micro (sqdist x p))).
Proof.
  intros Hq Hlen Hnd found. unfold found, found_from.
  set (row := query points x (length points) None).
  destruct (full_row points x row (Hq _ _ _ _)) as [Hp [Hd Hs]].
  assert (forall j d p, In (j, d) row -> nth_error points j = Some p -> qd_round d = Fin (sqrt_micro (sqdist x p))) as Hr.
  { intros j d p Hin Hj. destruct (Hd j d Hin) as [p' [q [Hp' [-> E]]]]. assert (p = p') as <- by (unfold vec in *; congruence). cbn.
    f_equal. symmetry. apply sqrt_micro_eq; [apply sqdist_nonneg|]. symmetry. exact E. }
  split; [|split].
  - rewrite map_map. cbn [fst]. apply sort_by_nth. intros i j x0 y0 Hij Hi Hj. rewrite nth_error_map' in Hi, Hj.
    destruct (nth_error row i) as [[a da]|] eqn:Ei; [|discriminate]. destruct (nth_error row j) as [[b db]|] eqn:Ej; [|discriminate].
    cbn [option_map snd] in Hi, Hj. injection Hi as <-. injection Hj as <-.
    destruct (Hd a da) as [p [q [Hpp [-> E]]]]; [eapply nth_error_In; eauto|].
    destruct (Hd b db) as [p' [q' [Hpp' [-> E']]]]; [eapply nth_error_In; eauto|].
    cbn. apply Z.leb_le. apply sqrt_micro_mono; [rewrite E; apply sqdist_nonneg|]. eapply Hs; eauto.
  - rewrite map_map. cbn [snd].
    rewrite <- (map_map fst (fun j => nth j sites [])).
    eapply Permutation_NoDup; [apply Permutation_map; symmetry; exact Hp|].
    assert (forall (l : list (list Z)) k, map (fun j => nth (j - k) l []) (seq k (length l)) = l) as Hseq.
    { induction l as [|a l IH]; intro k; cbn; auto. rewrite Nat.sub_diag. f_equal.
      rewrite <- (IH (S k)) at 2. apply map_ext_in. intros j Hj. apply in_seq in Hj.
      replace (j - k) with (S (j - S k)) by lia. reflexivity. }
    rewrite <- Hlen. rewrite (map_ext _ (fun j => nth (j - 0) sites [])) by (intro; rewrite Nat.sub_0_r; auto).
    rewrite Hseq. exact Hnd.
  - intros z s. rewrite in_map_iff. split.
    + intros [[j d] [E Hin]]. cbn in E. injection E as <- <-.
      assert (In j (seq 0 (length points))) as Hj.
      { eapply Permutation_in; [exact Hp|]. apply in_map_iff. exists (j, d). auto. }
      apply in_seq in Hj. destruct (nth_error_lt points j) as [p Ep]; [lia|]. exists j, p. split; [|split]; auto.
      * apply nth_error_nth'. lia.
      * eapply Hr; eauto.
    + intros [j [p [Es [Ep ->]]]].
      assert (In j (map fst row)) as Hj.
      { eapply Permutation_in; [symmetry; exact Hp|]. apply in_seq. apply nth_error_length_lt in Ep. lia. }
      apply in_map_iff in Hj. destruct Hj as [[j' d] [<- Hin]]. exists (j', d). split; auto. cbn [fst snd].
      f_equal; [eapply Hr; eauto|]. apply nth_error_nth. exact Es.
Qed.

(** ** Positions *)

Lemma nth_lattice_point d V r n i : i < d ->
  nth i (lattice_point d V r n) 0%Q = (nth i r 0 + sum_upto d (fun k => entry V i k * inject_Z (nth k n 0%Z)))%Q.
Proof. intro H. unfold lattice_point. rewrite (nth_map_in _ _ _ 0) by (rewrite seq_length; auto). rewrite seq_nth by auto. reflexivity. Qed.

Lemma lattice_point_length d V r n : length (lattice_point d V r n) = d.
Proof. unfold lattice_point. rewrite map_length, seq_length. reflexivity. Qed.

Lemma translate_point b n r :
  valid_basis b -> length n = b_dim b -> length r = b_dim b ->
  veq (translate b n r) (lattice_point (b_dim b) (b_mat b) r n).
Proof.
  intros Hb Hn Hr. destruct (C15_translate_group_action b n n r Hb Hn Hn Hr) as [_ [_ [_ [Hl H]]]].
  apply veq_nth. rewrite lattice_point_length. split; auto. intro i.
  destruct (Nat.lt_ge_cases i (b_dim b)) as [Hi|Hi].
  - rewrite H by auto. rewrite nth_lattice_point by auto. reflexivity.
  - rewrite !nth_overflow; [reflexivity|rewrite lattice_point_length; auto|rewrite Hl; auto].
Qed.

Lemma sqdist_veq u v u' v' : veq u u' -> veq v v' -> (sqdist u v == sqdist u' v')%Q.
Proof.
  intros Hu Hv. unfold sqdist. rewrite (veq_length _ _ Hu). apply sum_ext. intros k _.
  apply veq_nth in Hu. apply veq_nth in Hv. destruct Hu as [_ Hu], Hv as [_ Hv]. rewrite Hu, Hv. reflexivity.
Qed.

Lemma sqdist_sym u v : length u = length v -> (sqdist u v == sqdist v u)%Q.
Proof. intro H. unfold sqdist. rewrite H. apply sum_ext. intros. ring. Qed.

(** ** The raw neighbours *)

Section Analysis.
  Variables (query : kd_tree) (b : basis) (R : list (list Q)) (max : nat).
  Hypothesis Hquery : correct_tree query.
  Hypothesis Hb : valid_basis b.
  Hypothesis Hdim : 1 <= b_dim b.
  Hypothesis HR : forall r, In r R -> length r = b_dim b.
  Variable cells : list (list Z).
  Hypothesis Hcells : get_neighbor_cells b (2 * max) true Qle_bool = Some cells.

  Let d := b_dim b.
  Let V := b_mat b.
  Let nb := length R.

  Lemma cells_props : NoDup cells /\ (forall n, In n cells -> length n = d) /\
    (forall n, In n cells -> In (map Z.opp n) cells).
  Proof.
    destruct (C14_neighbor_cells b (2 * max) true Qle_bool Hb Hdim) as [cs [cut [E [Hin [Hnd [Hneg _]]]]]].
    { intros x x' y y' Hx Hy. destruct (Qle_bool x y) eqn:E1, (Qle_bool x' y') eqn:E2; auto.
      - apply Qle_bool_iff in E1. apply Qle_bool_false_iff in E2. exfalso. lra.
      - apply Qle_bool_iff in E2. apply Qle_bool_false_iff in E1. exfalso. lra. }
    rewrite Hcells in E. injection E as <-. split; auto. split; auto.
    intros n Hn. apply Hin in Hn. destruct Hn as [[[Hl _] _]|[_ ->]]; auto. apply repeat_length.
  Qed.

  Let sites := sites_of nb cells.
  Let points := get_positions b R sites.

  Lemma points_nth j s : nth_error sites j = Some s ->
    exists n a, s = n ++ [Z.of_nat a] /\ In n cells /\ a < nb /\
      nth_error points j = Some (translate b n (nth a R [])).
  Proof.
    intro E. pose proof (nth_error_In _ _ E) as Hin. apply In_sites_of in Hin. destruct Hin as [n [a [Hn [Ha ->]]]].
    exists n, a. split; auto. split; auto. split; auto. unfold points, get_positions. rewrite nth_error_map', E. cbn [option_map].
    rewrite site_cell_app, site_atom_app. reflexivity.
  Qed.

  Lemma points_length : length sites = length points.
  Proof. unfold points, get_positions. rewrite map_length. reflexivity. Qed.

  Lemma pair_distance_iff a c n x :
    In n cells -> a < nb -> c < nb ->
    (pair_distance d V R a c n x <-> x = Fin (sqrt_micro (sqdist (nth a R []) (translate b n (nth c R []))))).
  Proof.
    intros Hn Ha Hc. destruct cells_props as [_ [Hl _]].
    assert (sqdist (nth a R []) (translate b n (nth c R [])) ==
            sqdist (nth a R []) (lattice_point d V (nth c R []) n))%Q as E.
    { apply sqdist_veq; [apply veq_refl|]. apply translate_point; auto. apply HR, nth_In. exact Hc. }
    pose proof (sqrt_micro_rounds _ (sqdist_nonneg (nth a R []) (translate b n (nth c R [])))) as Hr.
    split.
    - intros [z [-> Hz]]. f_equal. eapply rounds_unique; [exact Hz|exact Hr|]. symmetry. exact E.
    - intros ->. eexists. split; [reflexivity|].
      rewrite (sqrt_micro_eq _ _ (sqdist_nonneg _ _) E). apply sqrt_micro_rounds, sqdist_nonneg.
  Qed.

  (** The complete dictionary of the pair (a, c). *)
  Definition full_dict (a c : nat) : distdict :=
    group (filter (relevant c) (found_from query sites points (nth a R []))).

  Lemma In_found a z n c : a < nb -> c < nb ->
    In (z, n ++ [Z.of_nat c]) (found_from query sites points (nth a R [])) <->
    In n cells /\ pair_distance d V R a c n z.
  Proof.
    intros Ha Hc. destruct cells_props as [Hnd [Hl _]].
    destruct (found_spec query sites points (nth a R []) Hquery points_length (NoDup_sites_of _ _ Hnd)) as [_ [_ H]].
    rewrite H. split.
    - intros [j [p [Es [Ep ->]]]]. destruct (points_nth j _ Es) as [n' [a' [E [Hn [Ha' Ep']]]]].
      apply site_app_inj in E. destruct E as [<- <-].
      assert (p = translate b n (nth c R [])) as -> by (unfold vec in *; congruence). split; auto.
      apply pair_distance_iff; auto.
    - intros [Hn Hz]. apply pair_distance_iff in Hz; auto. subst z.
      assert (In (n ++ [Z.of_nat c]) sites) as Hin by (apply In_sites_of; eauto).
      apply In_nth_error in Hin. destruct Hin as [j Hj]. destruct (points_nth j _ Hj) as [n' [a' [E [_ [_ Ep']]]]].
      apply site_app_inj in E. destruct E as [<- <-]. eauto.
  Qed.

  Lemma In_relevant a z s c : a < nb -> c < nb ->
    In (z, s) (filter (relevant c) (found_from query sites points (nth a R []))) <->
    exists n, s = n ++ [Z.of_nat c] /\ In n cells /\ pair_distance d V R a c n z /\ z <> Fin 0.
  Proof.
    intros Ha Hc. rewrite filter_In. unfold relevant, dist_truthy. cbn [fst snd]. rewrite andb_true_iff, negb_true_iff, Nat.eqb_eq.
    destruct cells_props as [Hnd [Hl _]].
    destruct (found_spec query sites points (nth a R []) Hquery points_length (NoDup_sites_of _ _ Hnd)) as [_ [_ H]].
    split.
    - intros [Hin [Hz Hs]]. pose proof Hin as Hin'. apply H in Hin'. destruct Hin' as [j [p [Es _]]].
      apply nth_error_In, In_sites_of in Es. destruct Es as [n [c' [Hn [Hc' ->]]]]. rewrite site_atom_app in Hs. subst c'.
      apply In_found in Hin; auto. exists n. split; auto. split; auto. split; [apply Hin|]. apply deqb_neq. auto.
    - intros [n [-> [Hn [Hp Hz]]]]. split; [apply In_found; auto|]. rewrite site_atom_app. split; auto. apply deqb_neq. auto.
  Qed.

  Lemma full_keys a c : a < nb -> c < nb ->
    increasing dleb (dd_keys (full_dict a c)) /\
    forall x, In x (dd_keys (full_dict a c)) <-> occurs d V R cells a c x.
  Proof.
    intros Ha Hc. destruct cells_props as [Hnd [Hl _]].
    destruct (found_spec query sites points (nth a R []) Hquery points_length (NoDup_sites_of _ _ Hnd)) as [Hs _].
    split.
    - apply keys_group_sorted. revert Hs. generalize (found_from query sites points (nth a R [])).
      induction l as [|e l IH]; cbn; intro Hs; [constructor|]. inversion Hs as [|? ? H1 H2]; subst.
      destruct (relevant c e); auto. cbn. constructor; auto. rewrite Forall_forall in *. intros y Hy. apply H2.
      apply in_map_iff in Hy. destruct Hy as [e' [<- He]]. apply filter_In in He. apply in_map. apply He.
    - intro x. unfold full_dict. rewrite In_keys_group. split.
      + intros [s Hin]. apply In_relevant in Hin; auto. destruct Hin as [n [_ [Hn [Hp Hx]]]]. split; eauto.
      + intros [Hx [n [Hn Hp]]]. exists (n ++ [Z.of_nat c]). apply In_relevant; auto. exists n. auto.
  Qed.

  Lemma full_get a c x : a < nb -> c < nb ->
    NoDup (dd_get (full_dict a c) x) /\
    forall s, In s (dd_get (full_dict a c) x) <->
      exists n, s = n ++ [Z.of_nat c] /\ In n cells /\ pair_distance d V R a c n x /\ x <> Fin 0.
  Proof.
    intros Ha Hc. unfold full_dict. rewrite dd_get_group.
    destruct cells_props as [Hnd [Hl _]].
    destruct (found_spec query sites points (nth a R []) Hquery points_length (NoDup_sites_of _ _ Hnd)) as [_ [Hsnd _]].
    split.
    - revert Hsnd. generalize (found_from query sites points (nth a R [])).
      assert (forall (p : dist * list Z -> bool) l, NoDup (map snd l) -> NoDup (map snd (filter p l))) as Hf.
      { intros p l. induction l as [|e l IH]; cbn; intro H; auto. inversion H; subst. destruct (p e); auto. cbn.
        constructor; auto. intro Hin. apply H2. apply in_map_iff in Hin. destruct Hin as [e' [E He]].
        apply filter_In in He. apply in_map_iff. exists e'. tauto. }
      intros l H. apply Hf, Hf, H.
    - intro s. rewrite in_map_iff. split.
      + intros [[x' s'] [<- Hin]]. apply filter_In in Hin. destruct Hin as [Hin E]. cbn in E. apply deqb_eq in E. subst x'.
        cbn [snd]. apply In_relevant in Hin; auto.
      + intro H. exists (x, s). split; auto. apply filter_In. split; [apply In_relevant; auto|]. cbn. apply deqb_refl.
  Qed.

  Lemma compute_base_neighbors_eq :
    compute_base_neighbors query b R max = Some (map (fun a => map (fun c => drop_extra max (full_dict a c)) (seq 0 nb)) (seq 0 nb)).
  Proof.
    unfold compute_base_neighbors. rewrite Hcells. destruct cells_props as [_ [Hl _]].
    rewrite site_indices_eq by auto. fold nb. fold sites. fold points. f_equal.
    assert (forall (A : Type) (f : vec -> A), map f R = map (fun a => f (nth a R [])) (seq 0 nb)) as HmapR.
    { intros A f. rewrite <- (map_map (fun a => nth a R []) f). f_equal. unfold nb.
      assert (forall (l : list vec) k, l = map (fun j => nth (j - k) l []) (seq k (length l))) as Hseq.
      { induction l as [|a l IH]; intro k; cbn; auto. rewrite Nat.sub_diag. f_equal.
        rewrite (IH (S k)) at 1. apply map_ext_in. intros j Hj. apply in_seq in Hj.
        replace (j - k) with (S (j - S k)) by lia. reflexivity. }
      rewrite (Hseq R 0) at 1. apply map_ext. intro. rewrite Nat.sub_0_r. reflexivity. }
    rewrite HmapR. apply map_ext_in. intros a Ha. rewrite kd_query_plain. cbn [nth].
    fold (found_from query sites points (nth a R [])).
    set (found := found_from query sites points (nth a R [])).
    assert (forall l, length (fold_left collect l (repeat [] nb)) = nb) as Hlen.
    { intro l. rewrite <- (repeat_length (@nil (dist * list (list Z))) nb) at 2. generalize (repeat (@nil (dist * list (list Z))) nb).
      induction l as [|e l IH]; intro acc; cbn; auto. rewrite IH. apply collect_length. }
    apply (list_eq_nth _ _ (drop_extra max [])); [rewrite !map_length, seq_length; apply Hlen|].
    intros c Hc. rewrite map_length, Hlen in Hc. rewrite map_nth, nth_collect by auto.
    rewrite (nth_map_in _ _ _ 0) by (rewrite seq_length; auto). rewrite seq_nth by auto. reflexivity.
  Qed.

  Definition raw_dicts : list (list distdict) :=
    map (fun a => map (fun c => drop_extra max (full_dict a c)) (seq 0 nb)) (seq 0 nb).

  Lemma raw_entry a c : a < nb -> c < nb -> entry2 [] raw_dicts a c = drop_extra max (full_dict a c).
  Proof.
    intros Ha Hc. unfold entry2, raw_dicts.
    rewrite (nth_map_in _ _ _ 0) by (rewrite seq_length; auto). rewrite seq_nth by auto.
    rewrite (nth_map_in _ _ _ 0) by (rewrite seq_length; auto). rewrite seq_nth by auto. reflexivity.
  Qed.

  Lemma raw_keys a c : a < nb -> c < nb -> dd_keys (entry2 [] raw_dicts a c) = firstn max (dd_keys (full_dict a c)).
  Proof. intros Ha Hc. rewrite raw_entry by auto. apply drop_extra_keys. apply full_keys; auto. Qed.

  (** ** Filtering by connections *)

  Variable conns : list (list nat).
  Hypothesis Hmax : forall a c, entry2 0 conns a c <= max.

  Lemma pair_dists_eq a c : a < nb -> c < nb ->
    pair_dists raw_dicts conns a c = firstn (entry2 0 conns a c) (dd_keys (full_dict a c)).
  Proof.
    intros Ha Hc. unfold pair_dists. rewrite raw_keys by auto. rewrite firstn_firstn. rewrite Nat.min_l; auto.
  Qed.

  Lemma In_pair_dists a c x : a < nb -> c < nb ->
    In x (pair_dists raw_dicts conns a c) <-> among_first (nth c (nth a conns []) 0) (occurs d V R cells a c) x.
  Proof.
    intros Ha Hc. rewrite pair_dists_eq by auto. rewrite In_firstn. destruct (full_keys a c Ha Hc) as [Hinc Hocc].
    split.
    - intros [i [Hi E]]. exists (dd_keys (full_dict a c)). split; auto. split; auto. exists i. split; auto.
    - intros [L [HL [Ho [i [Hi E]]]]]. assert (L = dd_keys (full_dict a c)) as ->.
      { eapply (strict_unique dleb); eauto using dleb_antisym. intro y. rewrite Ho, Hocc. reflexivity. }
      exists i. auto.
  Qed.

  (** Adding the entries of several distances. *)
  Lemma fold_extend (g : dist -> list (list Z)) L acc :
    NoDup L -> NoDup (dd_keys acc) ->
    let res := fold_left (fun acc x => dd_extend acc x (g x)) L acc in
    NoDup (dd_keys res) /\
    (forall k, In k (dd_keys res) <-> In k (dd_keys acc) \/ In k L) /\
    (forall k, dd_get res k = dd_get acc k ++ (if existsb (deqb k) L then g k else [])).
  Proof.
    revert acc. induction L as [|x L IH]; intros acc HL Hacc; cbn [fold_left existsb].
    - split; auto. split; [intro k; cbn; tauto|]. intro k. rewrite app_nil_r. reflexivity.
    - inversion HL as [|? ? Hx HL']; subst. destruct (IH (dd_extend acc x (g x)) HL') as [H1 [H2 H3]].
      { apply NoDup_keys_extend. auto. }
      split; auto. split.
      + intro k. rewrite H2, In_keys_extend. cbn. intuition auto.
      + intro k. rewrite H3, dd_get_extend. destruct (deqb x k) eqn:E.
        * apply deqb_eq in E. subst k. rewrite deqb_refl. cbn [orb].
          destruct (existsb (deqb x) L) eqn:Ex; [apply existsb_deqb in Ex; tauto|]. rewrite app_nil_r. reflexivity.
        * replace (deqb k x) with false; [reflexivity|]. symmetry. apply deqb_neq. apply deqb_neq in E. auto.
  Qed.

  Lemma pair_dists_increasing a c : a < nb -> c < nb -> increasing dleb (pair_dists raw_dicts conns a c).
  Proof. intros Ha Hc. rewrite pair_dists_eq by auto. apply increasing_firstn. apply full_keys; auto. Qed.

  (** The sites of atom [c] among the neighbours of [a] at distance [k]. *)
  Definition part (a : nat) (k : dist) (c : nat) : list (list Z) :=
    if existsb (deqb k) (pair_dists raw_dicts conns a c) then dd_get (entry2 [] raw_dicts a c) k else [].

  Lemma base_row_spec a : a < nb ->
    let row := base_row raw_dicts conns nb a in
    NoDup (dd_keys row) /\
    (forall k, In k (dd_keys row) <-> exists c, c < nb /\ In k (pair_dists raw_dicts conns a c)) /\
    (forall k, dd_get row k = flat_map (part a k) (seq 0 nb)).
  Proof.
    intro Ha. unfold base_row.
    set (step := fun acc a2 => _).
    assert (forall l acc, (forall c, In c l -> c < nb) -> NoDup (dd_keys acc) ->
      let row := fold_left step l acc in
      NoDup (dd_keys row) /\
      (forall k, In k (dd_keys row) <-> In k (dd_keys acc) \/ exists c, In c l /\ In k (pair_dists raw_dicts conns a c)) /\
      (forall k, dd_get row k = dd_get acc k ++ flat_map (part a k) l)) as H.
    { induction l as [|c l IH]; intros acc Hl Hacc; cbn [fold_left flat_map].
      - split; auto. split; [intro k; split; [auto|intros [?|[c [[] _]]]; auto]|]. intro k. rewrite app_nil_r. reflexivity.
      - assert (c < nb) as Hc by (apply Hl; left; auto).
        destruct (fold_extend (fun k => dd_get (entry2 [] raw_dicts a c) k) (pair_dists raw_dicts conns a c) acc)
          as [H1 [H2 H3]]; auto.
        { apply increasing_NoDup, pair_dists_increasing; auto. }
        destruct (IH (step acc c)) as [K1 [K2 K3]]; [intros; apply Hl; right; auto|exact H1|].
        split; auto. split.
        + intro k. rewrite K2. unfold step at 1. rewrite H2. split.
          * intros [[H|H]|[c' [Hc' H]]]; auto; right; [exists c|exists c']; split; auto; [left|right]; auto.
          * intros [H|[c' [[<-|Hc'] H]]]; auto. right. exists c'. auto.
        + intro k. rewrite K3. unfold step at 1. rewrite H3. rewrite <- app_assoc. reflexivity. }
    destruct (H (seq 0 nb) []) as [H1 [H2 H3]].
    { intros c Hc. apply in_seq in Hc. lia. }
    { constructor. }
    split; auto. split.
    - intro k. rewrite H2. split.
      + intros [[]|[c [Hc Hk]]]. apply in_seq in Hc. exists c. split; [lia|auto].
      + intros [c [Hc Hk]]. right. exists c. split; auto. apply in_seq. lia.
    - exact H3.
  Qed.

  Lemma In_part a k c s : a < nb -> c < nb ->
    In s (part a k c) <-> exists n, s = n ++ [Z.of_nat c] /\ linked d V R cells conns a c n k.
  Proof.
    intros Ha Hc. unfold part. destruct (existsb (deqb k) (pair_dists raw_dicts conns a c)) eqn:E.
    - apply existsb_deqb in E. pose proof E as E'. rewrite pair_dists_eq in E' by auto.
      rewrite raw_entry by auto. rewrite drop_extra_get; [|apply full_keys; auto|].
      2:{ rewrite In_firstn in E' |- *. destruct E' as [i [Hi Ei]]. exists i. split; auto. specialize (Hmax a c). lia. }
      destruct (full_get a c k Ha Hc) as [_ Hg]. rewrite Hg. apply In_pair_dists in E; auto. split.
      + intros [n [-> [Hn [Hp Hk]]]]. exists n. split; auto. split; auto.
      + intros [n [-> [Hn [Hp Haf]]]]. exists n. split; auto. split; auto. split; auto.
        destruct Haf as [L [_ [HL [i [_ Ei]]]]]. apply nth_error_In, HL in Ei. apply Ei.
    - split; [intros []|]. intros [n [_ [_ [_ Haf]]]]. apply In_pair_dists in Haf; auto. apply existsb_deqb in Haf. congruence.
  Qed.

  Lemma NoDup_part a k c : a < nb -> c < nb -> NoDup (part a k c).
  Proof.
    intros Ha Hc. unfold part. destruct (existsb (deqb k) (pair_dists raw_dicts conns a c)) eqn:E; [|constructor].
    apply existsb_deqb in E. rewrite pair_dists_eq in E by auto.
    rewrite raw_entry by auto. rewrite drop_extra_get; [|apply full_keys; auto|].
    2:{ rewrite In_firstn in E |- *. destruct E as [i [Hi Ei]]. exists i. split; auto. specialize (Hmax a c). lia. }
    apply full_get; auto.
  Qed.

  Lemma base_get a k : a < nb ->
    NoDup (dd_get (base_row raw_dicts conns nb a) k) /\
    forall s, In s (dd_get (base_row raw_dicts conns nb a) k) <->
      exists n c, c < nb /\ s = n ++ [Z.of_nat c] /\ linked d V R cells conns a c n k.
  Proof.
    intro Ha. destruct (base_row_spec a Ha) as [_ [_ H]]. rewrite H. split.
    - assert (forall l, NoDup l -> (forall c, In c l -> c < nb) -> NoDup (flat_map (part a k) l)) as G.
      { induction l as [|c l IH]; intros Hl Hlt; cbn; [constructor|]. inversion Hl; subst.
        apply NoDup_app_intro; [apply NoDup_part; auto; apply Hlt; left; auto|apply IH; auto; intros; apply Hlt; right; auto|].
        intros s Hs Hs'. apply In_part in Hs; auto; [|apply Hlt; left; auto]. destruct Hs as [n [-> _]].
        apply in_flat_map in Hs'. destruct Hs' as [c' [Hc' Hs']]. apply In_part in Hs'; auto; [|apply Hlt; right; auto].
        destruct Hs' as [n' [E _]]. apply site_app_inj in E. destruct E as [_ <-]. auto. }
      apply G; [apply seq_NoDup|]. intros c Hc. apply in_seq in Hc. lia.
    - intro s. rewrite in_flat_map. split.
      + intros [c [Hc Hs]]. apply in_seq in Hc. apply In_part in Hs; auto; [|lia]. destruct Hs as [n [-> Hn]].
        exists n, c. split; [lia|]. auto.
      + intros [n [c [Hc [-> Hn]]]]. exists c. split; [apply in_seq; lia|]. apply In_part; auto. eauto.
  Qed.

  Lemma base_keys a : a < nb ->
    increasing dleb (sort_stable dleb (dd_keys (base_row raw_dicts conns nb a))) /\
    forall k, In k (sort_stable dleb (dd_keys (base_row raw_dicts conns nb a))) <->
      exists c n, c < nb /\ linked d V R cells conns a c n k.
  Proof.
    intro Ha. destruct (base_row_spec a Ha) as [Hnd [Hk _]]. split.
    - unfold increasing. set (l := dd_keys _) in *.
      pose proof (sort_stable_sorted dleb dleb_total dleb_trans l) as Hs.
      assert (NoDup (sort_stable dleb l)) as Hn by (eapply Permutation_NoDup; [symmetry; apply sort_stable_perm|auto]).
      revert Hn. induction Hs as [|x m Hs IH Hf]; intro Hn; constructor; inversion Hn; subst; auto.
      rewrite Forall_forall in *. intros y Hy. split; auto. intros ->. auto.
    - intro k. rewrite In_sort_stable, Hk. split.
      + intros [c [Hc Hin]]. apply In_pair_dists in Hin; auto. pose proof Hin as [L [_ [HL [i [_ Ei]]]]].
        apply nth_error_In, HL in Ei. destruct Ei as [Hz [n [Hn Hp]]]. exists c, n. split; auto. split; auto.
      + intros [c [n [Hc [Hn [Hp Haf]]]]]. exists c. split; auto. apply In_pair_dists; auto.
  Qed.
End Analysis.

(** ** Symmetry *)

Lemma pair_distance_sym d V R a c n x :
  length (nth a R []) = d -> length (nth c R []) = d -> length n = d ->
  pair_distance d V R a c n x -> pair_distance d V R c a (map Z.opp n) x.
Proof.
  intros Ha Hc Hn [z [-> Hz]]. exists z. split; auto.
  assert (sqdist (nth a R []) (lattice_point d V (nth c R []) n) ==
          sqdist (nth c R []) (lattice_point d V (nth a R []) (map Z.opp n)))%Q as E.
  { unfold sqdist. rewrite Ha, Hc. apply sum_ext. intros i Hi. rewrite !nth_lattice_point by auto.
    assert (sum_upto d (fun k => entry V i k * inject_Z (nth k (map Z.opp n) 0%Z)) ==
            - sum_upto d (fun k => entry V i k * inject_Z (nth k n 0%Z)))%Q as En.
    { rewrite (sum_ext _ _ (fun k => (-(1)) * (entry V i k * inject_Z (nth k n 0%Z))))%Q.
      - rewrite sum_scale. ring.
      - intros k Hk. change 0%Z with (Z.opp 0) at 1. rewrite map_nth, inject_Z_opp. ring. }
    rewrite En. ring. }
  unfold rounds_to_micro in *. cbv zeta in *.
  assert (sqdist (nth a R []) (lattice_point d V (nth c R []) n) * (1000000000000 # 1) ==
          sqdist (nth c R []) (lattice_point d V (nth a R []) (map Z.opp n)) * (1000000000000 # 1))%Q as E' by (rewrite E; reflexivity).
  destruct Hz as [H0 [H1 [H2 [H3 H4]]]]. split; auto.
  split; [rewrite <- E'; auto|]. split; [rewrite <- E'; auto|]. split; rewrite <- E'; auto.
Qed.

Lemma opp_opp n : map Z.opp (map Z.opp n) = n.
Proof. rewrite map_map. rewrite <- (map_id n) at 2. apply map_ext. intro. lia. Qed.

Lemma linked_sym d V R cells conns a c n x :
  (forall r, In r R -> length r = d) -> a < length R -> c < length R ->
  (forall m, In m cells -> length m = d /\ In (map Z.opp m) cells) ->
  nth c (nth a conns []) 0 = nth a (nth c conns []) 0 ->
  linked d V R cells conns a c n x -> linked d V R cells conns c a (map Z.opp n) x.
Proof.
  intros HR Ha Hc Hcells Hconn [Hn [Hp Haf]].
  assert (length (nth a R []) = d) as La by (apply HR, nth_In; auto).
  assert (length (nth c R []) = d) as Lc by (apply HR, nth_In; auto).
  assert (forall y, occurs d V R cells a c y <-> occurs d V R cells c a y) as Ho.
  { intro y. split; intros [Hy [m [Hm Hpm]]]; destruct (Hcells m Hm) as [Hl Hneg]; split; auto;
      exists (map Z.opp m); (split; [exact Hneg|]); apply pair_distance_sym; auto. }
  destruct (Hcells n Hn) as [Hl Hneg]. split; auto. split; [apply pair_distance_sym; auto|].
  destruct Haf as [L [HL [HLo Hi]]]. exists L. split; auto. split; [intro y; rewrite HLo; apply Ho|].
  rewrite <- Hconn. exact Hi.
Qed.
