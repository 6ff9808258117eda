(** * Property C105 (lattpy/structure.py: the analysis finds the true neighbours) *)
From Coq Require Import String List ZArith QArith Qabs Bool Arith Lia Lqa Permutation Sorting.Sorted.
From Verif Require Import Np NpFacts LinAlg LinFacts SpecUtils UtilsModel UtilsProofs SpecBasis AtomModel BasisModel BasisProofs
  NeighborCellProofs PropBasis SpecSpatial KDProofs SpecStructure StructureModel KDBrute RoundFacts StructureFacts
  AnalyzeProofs StructureProofs PropStructure PropAnalyze SpecShell ShellProofs PropReciprocal PresetModel PropPreset
  SpecGrid GridProofs PropPrimitive PropGrid.
Import ListNotations.
Open Scope nat_scope.
Open Scope list_scope.

(** ** C105 *)

(** If the configured neighbours of all atoms in the infinite lattice lie within the reach of the search, the analysis
    finds exactly them. *)
Theorem C105_true_neighbors :
  forall query s s' conns m,
    correct_tree query -> valid_basis (st_basis s) -> 1 <= b_dim (st_basis s) -> in_step s ->
    st_connections s = Some conns -> analyze query s = (s', Ok tt) ->
    (forall a c, nth c (nth a conns []) 0 <= m) -> (exists a c, nth c (nth a conns []) 0 = m) ->
    let d := b_dim (st_basis s) in
    let V := b_mat (st_basis s) in
    let R := st_positions s in
    (forall a c n z, a < length R -> c < length R -> true_neighbor d V R conns a c n z -> in_reach d V m n) ->
    forall a, a < length R ->
      exists Ds, StronglySorted Z.lt Ds /\
        (forall z, In z Ds <-> exists c n, c < length R /\ true_neighbor d V R conns a c n z) /\
        forall N i, length N = d ->
          match nth_error Ds i with
          | None => get_neighbors s' N a i = Raise IndexError
          | Some z => exists L, get_neighbors s' N a i = Ok L /\ NoDup L /\
              forall t, In t L <-> exists n c, c < length R /\ t = map2 Z.add n N ++ [Z.of_nat c] /\ true_neighbor d V R conns a c n z
          end.
Proof.
  intros query s s' conns m Hq Hb Hd Hs Ec Han Hm1 Hm2 d V R Hreach a Ha.
  destruct (C29_neighbors_translation_covariant query s s' conns Hq Hb Hd Hs Ec Han) as [m' [cells [Hm1' [Hm2' [Ecells Hn]]]]].
  fold d V R in Hn.
  assert (m' = m) as ->.
  { destruct Hm2 as [x [y E]], Hm2' as [x' [y' E']]. specialize (Hm1 x' y'). specialize (Hm1' x y). lia. }
  assert (forall r, In r R -> length r = b_dim (st_basis s)) as HR by (destruct Hs as [_ [Hs _]]; exact Hs).
  assert (forall c n x, c < length R -> linked d V R cells conns a c n x <-> exists z, x = Fin z /\ true_neighbor d V R conns a c n z) as Hl.
  { intros c n x Hc.
    assert (forall n z i, away d V R a c n z -> i < nth c (nth a conns []) 0 -> ranked (distance_between d V R a c) i z -> In n cells) as Hin.
    { intros n' z i H1 H2 H3. apply (reach_cells (st_basis s) m cells Hb Hd Ecells). apply (Hreach a c n' z); auto. split; auto. exists i. auto. }
    pose proof (first_distances query (st_basis s) R m Hq Hb Hd HR cells Ecells a c _ Ha Hc Hin) as Hf. fold d V in Hf. split.
    - intros [Hcell [[z [-> Hz]] Hfirst]]. exists z. split; auto. split; [|apply Hf; auto]. split; auto.
      apply (cell_length (st_basis s) m Hb Hd cells Ecells). auto.
    - intros [z [-> [Haw Hrk]]]. pose proof Hrk as [i [Hi Hr]]. split; [eapply Hin; eauto|]. split; [|apply Hf; auto].
      exists z. split; auto. apply Haw. }
  destruct (Hn a Ha) as [Ds [Hinc [HDs Hget]]].
  assert (forall x, In x Ds -> exists z, x = Fin z) as Hfin.
  { intros x Hx. apply HDs in Hx. destruct Hx as [c [n [Hc Hx]]]. apply Hl in Hx; auto. destruct Hx as [z [-> _]]. eauto. }
  exists (map micro Ds). split; [|split].
  - clear - Hinc Hfin. induction Hinc as [|x L Hs IH Hf]; cbn; constructor.
    + apply IH. intros y Hy. apply Hfin. right. auto.
    + rewrite Forall_forall in Hf |- *. intros y Hy. apply in_map_iff in Hy. destruct Hy as [x' [<- Hx']].
      destruct (Hfin x (or_introl eq_refl)) as [z ->]. destruct (Hfin x' (or_intror Hx')) as [z' ->].
      destruct (Hf _ Hx') as [H1 H2]. cbn in H1 |- *. apply Z.leb_le in H1. assert (z <> z') by congruence. lia.
  - intro z. rewrite in_map_iff. split.
    + intros [x [<- Hx]]. pose proof Hx as Hx'. apply HDs in Hx'. destruct Hx' as [c [n [Hc Hx']]]. apply Hl in Hx'; auto. destruct Hx' as [z [-> Hz]].
      exists c, n. auto.
    + intros [c [n [Hc H]]]. exists (Fin z). split; auto. apply HDs. exists c, n. split; auto. apply Hl; eauto.
  - intros N i HN. rewrite nth_error_map. specialize (Hget N i HN). destruct (nth_error Ds i) as [x|] eqn:Ei; cbn; auto.
    destruct (Hfin x (nth_error_In _ _ Ei)) as [z ->]. destruct Hget as [L [L0 [E1 [_ [_ [Hnd [Hin _]]]]]]]. exists L. split; auto. split; auto.
    intro t. rewrite Hin. cbn. split.
    + intros [n [c [Hc [-> H]]]]. apply Hl in H; auto. destruct H as [z' [E H]]. injection E as <-. exists n, c. auto.
    + intros [n [c [Hc [-> H]]]]. exists n, c. split; auto. split; auto. apply Hl; eauto.
Qed.

(** Neighbours out of reach are missed. *)
Theorem C105_missed :
  forall query s s' conns m a c n,
    correct_tree query -> valid_basis (st_basis s) -> 1 <= b_dim (st_basis s) -> in_step s ->
    st_connections s = Some conns -> analyze query s = (s', Ok tt) ->
    (forall a c, nth c (nth a conns []) 0 <= m) -> (exists a c, nth c (nth a conns []) 0 = m) ->
    a < length (st_positions s) ->
    ~ in_reach (b_dim (st_basis s)) (b_mat (st_basis s)) m n ->
    forall i L, get_neighbors s' (repeat 0%Z (b_dim (st_basis s))) a i = Ok L -> ~ In (n ++ [Z.of_nat c]) L.
Proof.
  intros query s s' conns m a c n Hq Hb Hd Hs Ec Han Hm1 Hm2 Ha Hnr i L E Hin.
  destruct (C28_analyze_finds_configured_distances query s s' conns Hq Hb Hd Hs Ec Han) as [m' [cells [Hm1' [Hm2' [Ecells [Hn _]]]]]].
  assert (m' = m) as ->.
  { destruct Hm2 as [x [y E1]], Hm2' as [x' [y' E2]]. specialize (Hm1 x' y'). specialize (Hm1' x y). lia. }
  destruct (proj1 (Hn a (n ++ [Z.of_nat c]) Ha)) as [c' [n' [x [_ [E' [Hcell _]]]]]]; [eauto|].
  apply app_inj_tail in E'. destruct E' as [<- _]. apply Hnr. apply (reach_cells (st_basis s) m cells Hb Hd Ecells). auto.
Qed.

(** ** The nearest distance between two sublattices *)

Lemma rounds_gap q q' z z' : rounds_to_micro q z -> rounds_to_micro q' z' -> (10 <= z)%Z -> ((5#4) * q <= q')%Q -> (z < z')%Z.
Proof.
  intros [_ [_ [H1 _]]] [H0 [H2 _]] Hz Hle. specialize (H1 ltac:(lia)). cbv zeta in *. apply Znot_ge_lt. intro G.
  assert (inject_Z z' <= inject_Z z)%Q as G' by (rewrite <- Zle_Qle; lia). assert (0 <= inject_Z z')%Q as Z0 by (change 0%Q with (inject_Z 0); rewrite <- Zle_Qle; auto).
  assert (10 <= inject_Z z)%Q as T by (change 10%Q with (inject_Z 10); rewrite <- Zle_Qle; auto).
  set (x := inject_Z z) in *. set (y := inject_Z z') in *.
  assert ((y + (1#2)) * (y + (1#2)) <= (x + (1#2)) * (x + (1#2)))%Q by nra.
  assert ((5#4) * ((x - (1#2)) * (x - (1#2))) <= (x + (1#2)) * (x + (1#2)))%Q as B by lra. nra.
Qed.

Lemma rounds_ten q z : ((1#10000000000) < q)%Q -> rounds_to_micro q z -> (10 <= z)%Z.
Proof.
  intros Hq Hz. assert (rounds_to_micro (1#10000000000) 10) as H by (change 10%Z with (sqrt_micro (1#10000000000)); apply sqrt_micro_rounds; lra).
  eapply rounds_mono; [exact H|exact Hz|]. lra.
Qed.

Lemma rounds_zero q z : (q == 0)%Q -> rounds_to_micro q z -> z = 0%Z.
Proof.
  intros E H. assert (rounds_to_micro 0 0) as H0 by (change 0%Z with (sqrt_micro 0) at 2; apply sqrt_micro_rounds; lra).
  eapply rounds_unique; eauto.
Qed.

Lemma first_shell d V R a c q :
  let D n := sqdist (nth a R []) (lattice_point d V (nth c R []) n) in
  ((1#10000000000) < q)%Q -> (exists n, length n = d /\ (D n == q)%Q) ->
  (forall n, length n = d -> (D n == 0 \/ D n == q \/ (5#4) * q <= D n)%Q) ->
  forall n z, (away d V R a c n z /\ exists i, i < 1 /\ ranked (distance_between d V R a c) i z) <->
    length n = d /\ (D n == q)%Q /\ rounds_to_micro q z.
Proof.
  intros D Hq [n0 [Hn0 En0]] Hall n z. split.
  - intros [[Hn Hz] [i [Hi [[Hne _] [L [_ [HL HLi]]]]]]]. fold (D n) in Hz.
    destruct (Hall n Hn) as [E|[E|E]]; [apply (rounds_zero _ _ E) in Hz; contradiction| |].
    + split; auto. split; auto. eapply rounds_ext; eauto.
    + exfalso. assert (i = 0) as -> by lia. destruct L; [|discriminate].
      assert (0 <= q)%Q as Hq0 by lra. pose proof (sqrt_micro_rounds q Hq0) as Hs.
      pose proof (rounds_ten _ _ Hq Hs) as H10. apply (proj2 (HL (sqrt_micro q))). split.
      * split; [lia|]. exists n0. split; auto. eapply rounds_ext; [|exact Hs]. symmetry. exact En0.
      * eapply rounds_gap; eauto.
  - intros [Hn [E Hz]]. assert (away d V R a c n z) as Haw by (split; auto; eapply rounds_ext; [|exact Hz]; symmetry; exact E).
    pose proof (rounds_ten _ _ Hq Hz) as H10. split; auto. exists 0. split; auto. split; [split; [lia|eauto]|].
    exists []. split; [constructor|]. split; auto. intro y. split; [intros []|]. intros [[Hy [n' [Hn' Hy']]] Hlt].
    fold (D n') in Hy'. destruct (Hall n' Hn') as [E'|[E'|E']].
    + apply (rounds_zero _ _ E') in Hy'. contradiction.
    + assert (y = z) by (eapply rounds_unique; eauto). lia.
    + pose proof (rounds_gap _ _ _ _ Hz Hy' H10 E'). lia.
Qed.

Lemma own_distance d V r n : length r = d -> (sqdist r (lattice_point d V r n) == cell_sq d V n)%Q.
Proof.
  intro Hr. unfold sqdist, cell_sq. rewrite Hr. apply sum_ext. intros i Hi. rewrite nth_lattice_point by lia. cbv zeta. ring.
Qed.

Lemma cell_sq_zero d V : (cell_sq d V (repeat 0%Z d) == 0)%Q.
Proof.
  unfold cell_sq. apply sum_zero. intros i Hi. cbv zeta.
  assert (sum_upto d (fun k => entry V i k * inject_Z (nth k (repeat 0%Z d) 0%Z)) == 0)%Q as ->; [|ring].
  apply sum_zero. intros k Hk. rewrite nth_repeat. change (inject_Z 0) with 0%Q. ring.
Qed.

Lemma lengths_exist d V : exists lengths, lists_values (fun q => exists k, k < d /\ (column_sq d V k == q)%Q) lengths.
Proof.
  pose proof (unique_qc_values (map (column_sq d V) (seq 0 d))) as [H1 H2]. eexists. split; [exact H1|].
  intro q. rewrite <- H2. split.
  - intros [k [Hk E]]. exists (column_sq d V k). split; auto. apply in_map. apply in_seq. lia.
  - intros [v [Hv E]]. apply in_map_iff in Hv. destruct Hv as [k [<- Hk]]. apply in_seq in Hk. exists k. split; [lia|auto].
Qed.

(** At most [k] different lengths below that of [n]: in reach. *)
Lemma few_in_reach d V m n : int_box d (2 * Z.of_nat m + 1) n ->
  (forall l, spread l -> (forall x, In x l -> exists n', int_box d (2 * Z.of_nat m + 1) n' /\ (cell_sq d V n' == x)%Q /\ (x < cell_sq d V n)%Q) ->
     exists lengths, lists_values (fun q => exists k, k < d /\ (column_sq d V k == q)%Q) lengths /\ length l <= 2 * m + length lengths) ->
  in_reach d V m n.
Proof.
  intros Hbox H. split; auto. destruct (lengths_exist d V) as [lengths Hl]. exists lengths. split; auto. intros l H1 H2.
  destruct (H l H1 H2) as [l' [Hl' Hle]]. rewrite (lists_values_length _ _ _ Hl Hl'). auto.
Qed.

(** One atom with connections to the nearest neighbours: if the shortest lattice vectors (length at least 1e-5, all others
    longer by a factor sqrt(5/4)) have coordinates between -3 and 3, they are the neighbours found. *)
Theorem C105_nearest :
  forall query s s' r0,
    correct_tree query -> valid_basis (st_basis s) -> 1 <= b_dim (st_basis s) -> in_step s ->
    st_positions s = [r0] -> st_connections s = Some [[1]] -> analyze query s = (s', Ok tt) ->
    let d := b_dim (st_basis s) in
    let V := b_mat (st_basis s) in
    forall q shell, ((1#10000000000) < q)%Q -> shell <> [] ->
      (forall n, In n shell <-> length n = d /\ (cell_sq d V n == q)%Q) ->
      (forall n, length n = d -> n <> repeat 0%Z d -> (cell_sq d V n == q \/ (5#4) * q <= cell_sq d V n)%Q) ->
      (forall n k, In n shell -> In k n -> (-3 <= k <= 3)%Z) ->
      forall N, length N = d ->
        (exists L, get_neighbors s' N 0 0 = Ok L /\ NoDup L /\
           forall t, In t L <-> exists n, In n shell /\ t = map2 Z.add n N ++ [0%Z]) /\
        forall i, 1 <= i -> get_neighbors s' N 0 i = Raise IndexError.
Proof.
  intros query s s' r0 Hq Hb Hd Hs ER Ec Han d V q shell Hq0 Hne Hsh Hgap Hbox N HN.
  assert (length r0 = d) as Hr0 by (destruct Hs as [_ [Hs _]]; apply Hs; rewrite ER; left; auto).
  assert (exists n, length n = d /\ (cell_sq d V n == q)%Q) as [n0 [Hn0 En0]].
  { destruct shell as [|n0 ?]; [congruence|]. exists n0. apply Hsh. left. auto. }
  assert (forall n, length n = d -> (cell_sq d V n == 0 \/ cell_sq d V n == q \/ (5#4) * q <= cell_sq d V n)%Q) as Hall.
  { intros n Hn. destruct (list_eq_dec Z.eq_dec n (repeat 0%Z d)) as [->|Hnz]; [left; apply cell_sq_zero|right; auto]. }
  assert (forall n z, true_neighbor d V [r0] [[1]] 0 0 n z <-> In n shell /\ rounds_to_micro q z) as Htrue.
  { intros n z. unfold true_neighbor. cbn [nth]. rewrite (first_shell d V [r0] 0 0 q); cbn [nth]; auto.
    - rewrite (own_distance d V r0 n Hr0), Hsh. tauto.
    - exists n0. split; auto. rewrite own_distance; auto.
    - intros n' Hn'. rewrite own_distance by auto. auto. }
  assert (forall a c n z, a < length [r0] -> c < length [r0] -> true_neighbor d V [r0] [[1]] a c n z -> in_reach d V 1 n) as Hreach.
  { intros [|a] [|c] n z Ha Hc; cbn in Ha, Hc; try lia. intro H. apply Htrue in H. destruct H as [Hin _]. pose proof (proj1 (Hsh n) Hin) as [Hn En].
    apply few_in_reach; [split; auto; intros k Hk; cbn; eapply Hbox; eauto|]. intros l Hl Hsmall. destruct (lengths_exist d V) as [lengths Hlen]. exists lengths. split; auto.
    assert (length l <= length [0%Q]) as H1.
    { apply spread_le; auto. intros x Hx. destruct (Hsmall x Hx) as [n' [[Hn' _] [E Hlt]]]. exists 0%Q. split; [left; auto|].
      destruct (Hall n' Hn') as [E'|[E'|E']]; [rewrite <- E; symmetry; auto|exfalso; lra|exfalso; lra]. }
    cbn in H1. lia. }
  pose proof (C105_true_neighbors query s s' [[1]] 1 Hq Hb Hd Hs Ec Han) as T. cbv zeta in T. fold d V in T. rewrite ER in T.
  assert (forall a c, nth c (nth a [[1]] []) 0 <= 1) as Hm1 by (intros [|[|a]] [|[|c]]; cbn; lia).
  destruct (T Hm1 (ex_intro _ 0 (ex_intro _ 0 eq_refl)) Hreach 0 ltac:(cbn; lia)) as [Ds [Hsort [HDs Hget]]]. clear T.
  pose proof (sqrt_micro_rounds q ltac:(lra)) as Hz. set (z := sqrt_micro q) in *.
  assert (forall x, In x Ds <-> x = z) as HDs'.
  { intro x. rewrite HDs. split.
    - intros [[|c] [n [Hc H]]]; cbn in Hc; try lia. apply Htrue in H. destruct H as [_ H]. eapply rounds_unique; eauto. reflexivity.
    - intros ->. exists 0, n0. split; [cbn; lia|]. apply Htrue. split; auto. apply Hsh. auto. }
  assert (Ds = [z]) as ->.
  { destruct Ds as [|x [|y Ds]]; [exfalso; apply (proj2 (HDs' z)); auto|f_equal; apply HDs'; left; auto|exfalso].
    inversion Hsort as [|? ? _ Hf]; subst. inversion Hf; subst. assert (x = z) by (apply HDs'; left; auto). assert (y = z) by (apply HDs'; right; left; auto). lia. }
  split.
  - specialize (Hget N 0 HN). cbn in Hget. destruct Hget as [L [E [Hnd HL]]]. exists L. split; auto. split; auto. intro t. rewrite HL. split.
    + intros [n [[|c] [Hc [-> H]]]]; [|lia]. apply Htrue in H. exists n. split; [apply H|reflexivity].
    + intros [n [Hn ->]]. exists n, 0. split; [lia|]. split; auto. apply Htrue. auto.
  - intros i Hi. specialize (Hget N i HN). destruct i as [|i]; [lia|]. cbn in Hget. destruct i; exact Hget.
Qed.

(** ** Face-centred and body-centred cubic lattices *)

Lemma preset_one query b at_ k : valid_basis b -> 1 <= b_dim b -> k <> 0 ->
  exists s s', preset query b [(None, at_)] k = Ok s' /\ analyze query s = (s', Ok tt) /\ in_step s /\ st_basis s = b /\
    st_positions s = [repeat 0%Q (b_dim b)] /\ st_connections s = Some [[k]].
Proof.
  intros Hb Hd Hk.
  destruct (C73_preset query b [(None, at_)] k Hb Hd ltac:(discriminate)) as [H _]; [intros r [<-|[]]; apply repeat_length|].
  destruct (H (all_different_one _) Hk) as [s [s' [E [Han [Hs [Eb [_ [_ [Ep [Ec _]]]]]]]]]]. exists s, s'.
  destruct (analyze_ok query s s' Han) as [conns [raw [_ [Ec' [_ [_ Es]]]]]]. rewrite Es in Ep, Ec. cbn in Ep, Ec.
  split; auto. split; auto. split; auto. split; auto. split; [exact Ep|]. rewrite Ec'. exact Ec.
Qed.

Lemma three (n : list Z) : length n = 3 -> exists n1 n2 n3, n = [n1; n2; n3].
Proof. destruct n as [|n1 [|n2 [|n3 [|]]]]; intro L; try discriminate L. eauto. Qed.

Definition fcc_cells : list (list Z) :=
  [[1; 0; 0]; [0; 1; 0]; [0; 0; 1]; [-1; 0; 0]; [0; -1; 0]; [0; 0; -1];
   [1; -1; 0]; [1; 0; -1]; [0; 1; -1]; [-1; 1; 0]; [-1; 0; 1]; [0; -1; 1]]%Z.

Definition bcc_cells : list (list Z) :=
  [[1; 0; 0]; [0; 1; 0]; [0; 0; 1]; [-1; 0; 0]; [0; -1; 0]; [0; 0; -1]; [1; -1; -1]; [-1; 1; 1]]%Z.

Lemma fcc_sq inv a n1 n2 n3 : (cell_sq 3 (b_mat (fcc inv a)) [n1; n2; n3] ==
  a * a / 4 * inject_Z ((n1 + n2) * (n1 + n2) + (n1 + n3) * (n1 + n3) + (n2 + n3) * (n2 + n3)))%Q.
Proof. unfold cell_sq, entry. cbn -[Qmult Qplus inject_Z Qdiv]. rewrite !inject_Z_plus, !inject_Z_mult, !inject_Z_plus. field. Qed.

Lemma bcc_sq inv a n1 n2 n3 : (cell_sq 3 (b_mat (bcc inv a)) [n1; n2; n3] ==
  a * a / 4 * inject_Z ((n1 + n2 - n3) * (n1 + n2 - n3) + (n1 - n2 + n3) * (n1 - n2 + n3) + (n1 + n2 + n3) * (n1 + n2 + n3)))%Q.
Proof. unfold cell_sq, entry, Z.sub. cbn -[Qmult Qplus inject_Z Qdiv]. rewrite !inject_Z_plus, !inject_Z_mult, !inject_Z_plus, !inject_Z_opp. field. Qed.

(** [e * z == e * z'] and [e * z <= e * z'] for integers. *)
Lemma scale_eq e z z' : (0 < e)%Q -> (e * inject_Z z == e * inject_Z z')%Q <-> z = z'.
Proof.
  intro He. split; [|intros ->; reflexivity]. intro E. apply inject_Z_injective. apply (Qmult_inj_l _ _ e); auto. intro H. lra.
Qed.
Lemma scale_le e z z' : (0 < e)%Q -> (z <= z')%Z -> (e * inject_Z z <= e * inject_Z z')%Q.
Proof. intros He H. rewrite Zle_Qle in H. nra. Qed.

Lemma small_cases n : (-1 <= n <= 1)%Z -> (n = -1 \/ n = 0 \/ n = 1)%Z.
Proof. lia. Qed.

Lemma fcc_form n1 n2 n3 : let f := ((n1 + n2) * (n1 + n2) + (n1 + n3) * (n1 + n3) + (n2 + n3) * (n2 + n3))%Z in
  ([n1; n2; n3] <> [0; 0; 0]%Z -> f = 2 \/ 4 <= f)%Z /\ (f = 2%Z <-> In [n1; n2; n3] fcc_cells).
Proof.
  intro f. split.
  - intro N. assert (2 <= f)%Z as B.
    { unfold f. destruct (Z.eq_dec (n1 + n2) 0), (Z.eq_dec (n1 + n3) 0), (Z.eq_dec (n2 + n3) 0); try nia. exfalso. apply N. repeat f_equal; lia. }
    assert (exists g, f = 2 * g)%Z as [g Eg] by (exists (n1 * n1 + n2 * n2 + n3 * n3 + n1 * n2 + n1 * n3 + n2 * n3)%Z; unfold f; ring). lia.
  - split.
    + intro B. destruct (squares_small (n1 + n2) (n1 + n3) (n2 + n3)) as [? [? ?]]; [fold f; lia|].
      destruct (small_cases n1 ltac:(lia)) as [->|[->| ->]], (small_cases n2 ltac:(lia)) as [->|[->| ->]], (small_cases n3 ltac:(lia)) as [->|[->| ->]];
        try discriminate B; cbn; auto 14.
    + intro H. unfold fcc_cells in H. cbn [In] in H. repeat destruct H as [E|H]; try (injection E as <- <- <-; reflexivity). destruct H.
Qed.

Lemma bcc_form n1 n2 n3 : let f := ((n1 + n2 - n3) * (n1 + n2 - n3) + (n1 - n2 + n3) * (n1 - n2 + n3) + (n1 + n2 + n3) * (n1 + n2 + n3))%Z in
  ([n1; n2; n3] <> [0; 0; 0]%Z -> f = 3 \/ 4 <= f)%Z /\ (f = 3%Z <-> In [n1; n2; n3] bcc_cells).
Proof.
  intro f. split.
  - intro N. assert (3 <= f)%Z; [|lia]. unfold f.
    set (i := (n1 + n2 - n3)%Z). set (j := (n1 - n2 + n3)%Z). set (k := (n1 + n2 + n3)%Z).
    destruct (Z.eq_dec i 0) as [Ei|Ei], (Z.eq_dec j 0) as [Ej|Ej], (Z.eq_dec k 0) as [Ek|Ek]; unfold i, j, k in *; try nia.
    all: first [exfalso; apply N; repeat f_equal; lia | assert (2 <= Z.abs (n1 + n2 + n3))%Z by lia; nia
        | assert (2 <= Z.abs (n1 - n2 + n3))%Z by lia; nia | assert (2 <= Z.abs (n1 + n2 - n3))%Z by lia; nia].
  - split.
    + intro B. destruct (squares_small (n1 + n2 - n3) (n1 - n2 + n3) (n1 + n2 + n3)) as [? [? ?]]; [fold f; lia|].
      destruct (small_cases n1 ltac:(lia)) as [->|[->| ->]], (small_cases n2 ltac:(lia)) as [->|[->| ->]], (small_cases n3 ltac:(lia)) as [->|[->| ->]];
        try discriminate B; cbn; auto 14.
    + intro H. unfold bcc_cells in H. cbn [In] in H. repeat destruct H as [E|H]; try (injection E as <- <- <-; reflexivity). destruct H.
Qed.

Lemma fcc_valid inv a : inverts inv 3 -> ~ (a == 0)%Q -> valid_basis (fcc inv a).
Proof. intros I3 Ha. apply I3. exists [[/ a; / a; - / a]; [/ a; - / a; / a]; [- / a; / a; / a]]%Q. matrix_check; field; auto. Qed.
Lemma bcc_valid inv a : inverts inv 3 -> ~ (a == 0)%Q -> valid_basis (bcc inv a).
Proof. intros I3 Ha. apply I3. exists [[/ a; / a; 0]; [0; - / a; / a]; [- / a; 0; / a]]%Q. matrix_check; field; auto. Qed.

(** What a list of neighbours around [N] is to contain. *)
Definition around (N : list Z) (cells : list (list Z)) (c : nat) (L : list (list Z)) : Prop :=
  NoDup L /\ length L = length cells /\ forall t, In t L <-> exists n, In n cells /\ t = map2 Z.add n N ++ [Z.of_nat c].

Lemma shifted_NoDup N cells c : NoDup cells -> (forall n, In n cells -> length n = length N) ->
  NoDup (map (fun n => map2 Z.add n N ++ [Z.of_nat c]) cells).
Proof.
  intros Hn Hl. apply NoDup_map_in; auto. intros x y Hx Hy E. apply app_inj_tail in E. destruct E as [E _].
  pose proof (Hl x Hx) as Lx. pose proof (Hl y Hy) as Ly. apply (list_eq_nth _ _ 0%Z); [lia|]. intros k Hk.
  assert (nth k (map2 Z.add x N) 0%Z = nth k (map2 Z.add y N) 0%Z) as Ek by (rewrite E; auto).
  rewrite !(nth_map2 _ _ _ _ 0%Z 0%Z) in Ek by lia. lia.
Qed.

Lemma around_intro N cells c L : NoDup cells -> (forall n, In n cells -> length n = length N) -> NoDup L ->
  (forall t, In t L <-> exists n, In n cells /\ t = map2 Z.add n N ++ [Z.of_nat c]) -> around N cells c L.
Proof.
  intros Hn Hl HL Hin. split; auto. split; auto. rewrite <- (map_length (fun n => map2 Z.add n N ++ [Z.of_nat c]) cells).
  assert (forall t, In t L <-> In t (map (fun n => map2 Z.add n N ++ [Z.of_nat c]) cells)) as H.
  { intro t. rewrite Hin, in_map_iff. split; intros [n [H1 H2]]; exists n; auto. }
  apply Nat.le_antisymm; apply NoDup_incl_length; auto; try (intros t Ht; apply H; auto; fail). apply shifted_NoDup; auto.
Qed.

Theorem C105_fcc :
  forall query inv a at1, correct_tree query -> inverts inv 3 -> ((1#1000000) < a * a)%Q ->
    exists s, preset query (fcc inv a) [(None, at1)] 1 = Ok s /\
      forall N, length N = 3 ->
        (exists L, get_neighbors s N 0 0 = Ok L /\ around N fcc_cells 0 L) /\
        forall i, 1 <= i -> get_neighbors s N 0 i = Raise IndexError.
Proof.
  intros query inv a at1 Hq I3 Ha. assert (~ (a == 0)%Q) as Ha0 by (intro E; rewrite E in Ha; lra).
  pose proof (fcc_valid inv a I3 Ha0) as Hb. assert (b_dim (fcc inv a) = 3) as Hd by reflexivity.
  destruct (preset_one query (fcc inv a) at1 1 Hb ltac:(lia) ltac:(lia)) as [s [s' [E [Han [Hs [Eb [Ep Ec]]]]]]].
  exists s'. split; auto. intros N HN.
  pose proof (C105_nearest query s s' _ Hq ltac:(rewrite Eb; auto) ltac:(rewrite Eb, Hd; lia) Hs Ep Ec Han) as T.
  cbv zeta in T. rewrite Eb, Hd in T.
  assert (0 < a * a / 4)%Q as He by (apply Qlt_shift_div_l; lra).
  destruct (T (a * a / 4 * inject_Z 2)%Q fcc_cells) with (N := N) as [[L [E1 [Hnd HL]]] Hover]; auto.
  - change (inject_Z 2) with 2%Q. setoid_replace (a * a / 4 * 2)%Q with (a * a * (1#2))%Q by field. lra.
  - discriminate.
  - intro n. split.
    + intro Hin. assert (length n = 3) as Hn by (cbn in Hin; intuition (subst; reflexivity)). split; auto.
      destruct (three n Hn) as [n1 [n2 [n3 ->]]]. rewrite fcc_sq, (proj2 (proj2 (fcc_form n1 n2 n3)) Hin). reflexivity.
    + intros [Hn En]. destruct (three n Hn) as [n1 [n2 [n3 ->]]]. rewrite fcc_sq in En. apply scale_eq in En; auto. apply fcc_form. auto.
  - intros n Hn Hnz. destruct (three n Hn) as [n1 [n2 [n3 ->]]]. rewrite fcc_sq. destruct (proj1 (fcc_form n1 n2 n3) Hnz) as [->|H]; [left; reflexivity|right].
    apply (scale_le (a * a / 4) _ _ He) in H. change (inject_Z 4) with 4%Q in H. change (inject_Z 2) with 2%Q. lra.
  - intros n k Hn Hk. cbn in Hn. intuition (subst; cbn in Hk; intuition lia).
  - split; auto. exists L. split; auto. apply around_intro; auto; [repeat (constructor; [cbn; intuition discriminate|]); constructor|].
    intros n Hn. rewrite HN. cbn in Hn. intuition (subst; reflexivity).
Qed.

Theorem C105_bcc :
  forall query inv a at1, correct_tree query -> inverts inv 3 -> ((1#1000000) < a * a)%Q ->
    exists s, preset query (bcc inv a) [(None, at1)] 1 = Ok s /\
      forall N, length N = 3 ->
        (exists L, get_neighbors s N 0 0 = Ok L /\ around N bcc_cells 0 L) /\
        forall i, 1 <= i -> get_neighbors s N 0 i = Raise IndexError.
Proof.
  intros query inv a at1 Hq I3 Ha. assert (~ (a == 0)%Q) as Ha0 by (intro E; rewrite E in Ha; lra).
  pose proof (bcc_valid inv a I3 Ha0) as Hb. assert (b_dim (bcc inv a) = 3) as Hd by reflexivity.
  destruct (preset_one query (bcc inv a) at1 1 Hb ltac:(lia) ltac:(lia)) as [s [s' [E [Han [Hs [Eb [Ep Ec]]]]]]].
  exists s'. split; auto. intros N HN.
  pose proof (C105_nearest query s s' _ Hq ltac:(rewrite Eb; auto) ltac:(rewrite Eb, Hd; lia) Hs Ep Ec Han) as T.
  cbv zeta in T. rewrite Eb, Hd in T.
  assert (0 < a * a / 4)%Q as He by (apply Qlt_shift_div_l; lra).
  destruct (T (a * a / 4 * inject_Z 3)%Q bcc_cells) with (N := N) as [[L [E1 [Hnd HL]]] Hover]; auto.
  - change (inject_Z 3) with 3%Q. setoid_replace (a * a / 4 * 3)%Q with (a * a * (3#4))%Q by field. lra.
  - discriminate.
  - intro n. split.
    + intro Hin. assert (length n = 3) as Hn by (cbn in Hin; intuition (subst; reflexivity)). split; auto.
      destruct (three n Hn) as [n1 [n2 [n3 ->]]]. rewrite bcc_sq, (proj2 (proj2 (bcc_form n1 n2 n3)) Hin). reflexivity.
    + intros [Hn En]. destruct (three n Hn) as [n1 [n2 [n3 ->]]]. rewrite bcc_sq in En. apply scale_eq in En; auto. apply bcc_form. auto.
  - intros n Hn Hnz. destruct (three n Hn) as [n1 [n2 [n3 ->]]]. rewrite bcc_sq. destruct (proj1 (bcc_form n1 n2 n3) Hnz) as [->|H]; [left; reflexivity|right].
    apply (scale_le (a * a / 4) _ _ He) in H. change (inject_Z 4) with 4%Q in H. change (inject_Z 3) with 3%Q. lra.
  - intros n k Hn Hk. cbn in Hn. intuition (subst; cbn in Hk; intuition lia).
  - split; auto. exists L. split; auto. apply around_intro; auto; [repeat (constructor; [cbn; intuition discriminate|]); constructor|].
    intros n Hn. rewrite HN. cbn in Hn. intuition (subst; reflexivity).
Qed.

(** ** The chain with any number of distances *)

Lemma rounds_apart p p' z z' : (0 <= p)%Q -> (p + (1#1000000) < p')%Q -> rounds_to_micro (p * p)%Q z -> rounds_to_micro (p' * p')%Q z' -> (z < z')%Z.
Proof.
  intros Hp Hlt [Z0 [_ [H1 _]]] [Z0' [H2 _]]. cbv zeta in *. apply Znot_ge_lt. intro G.
  assert (0 <= inject_Z z')%Q as Y0 by (change 0%Q with (inject_Z 0); rewrite <- Zle_Qle; auto).
  assert (inject_Z z' <= inject_Z z)%Q as G' by (rewrite <- Zle_Qle; lia).
  assert (p' * 1000000 <= inject_Z z' + (1#2))%Q as B'.
  { apply Qnot_lt_le. intro L. assert ((inject_Z z' + (1#2)) * (inject_Z z' + (1#2)) < (p' * 1000000) * (p' * 1000000))%Q by nra. lra. }
  destruct (Z.eq_dec z 0) as [->|Hz].
  - change (inject_Z 0) with 0%Q in *. lra.
  - specialize (H1 ltac:(lia)). assert (1 <= inject_Z z)%Q as Z1 by (change 1%Q with (inject_Z 1); rewrite <- Zle_Qle; lia).
    assert (inject_Z z - (1#2) <= p * 1000000)%Q as B.
    { apply Qnot_lt_le. intro L. assert ((p * 1000000) * (p * 1000000) < (inject_Z z - (1#2)) * (inject_Z z - (1#2)))%Q by nra. lra. }
    lra.
Qed.

Lemma sorted_unique (l m : list Z) : StronglySorted Z.lt l -> StronglySorted Z.lt m -> (forall x, In x l <-> In x m) -> l = m.
Proof.
  intros Hl. revert m. induction Hl as [|x l Hl IH Hf]; intros m Hm H.
  - destruct m as [|y m]; auto. exfalso. apply (H y). left. auto.
  - rewrite Forall_forall in Hf. inversion Hm as [|y m' Hm' Hf']; subst; [exfalso; apply (H x); left; auto|]. rewrite Forall_forall in Hf'.
    assert (x = y) as ->.
    { destruct (proj1 (H x) (or_introl eq_refl)) as [->|H1]; auto. destruct (proj2 (H y) (or_introl eq_refl)) as [->|H2]; auto.
      apply Hf' in H1. apply Hf in H2. lia. }
    f_equal. apply IH; auto. intro z. split; intro Hz.
    + destruct (proj1 (H z) (or_intror Hz)) as [->|]; auto. apply Hf in Hz. lia.
    + destruct (proj2 (H z) (or_intror Hz)) as [->|]; auto. apply Hf' in Hz. lia.
Qed.

Section Chain.
  Variable a : Q.
  Hypothesis Ha : ((1#1000000) < Qabs a)%Q.

  (** The rounded [j]-th multiple of the lattice constant. *)
  Definition multiple (j : nat) : Z := sqrt_micro ((Qabs a * inject_Z (Z.of_nat j)) * (Qabs a * inject_Z (Z.of_nat j)))%Q.

  Lemma of_nat_q j : (0 <= inject_Z (Z.of_nat j))%Q.
  Proof. change 0%Q with (inject_Z 0). rewrite <- Zle_Qle. lia. Qed.

  Lemma multiple_rounds j : rounds_to_micro ((Qabs a * inject_Z (Z.of_nat j)) * (Qabs a * inject_Z (Z.of_nat j)))%Q (multiple j).
  Proof. apply sqrt_micro_rounds. pose proof (of_nat_q j). nra. Qed.

  Lemma multiple_lt i j : i < j -> (multiple i < multiple j)%Z.
  Proof.
    intro H. eapply rounds_apart; [| |apply multiple_rounds|apply multiple_rounds].
    - pose proof (of_nat_q i). nra.
    - assert (inject_Z (Z.of_nat i) + 1 <= inject_Z (Z.of_nat j))%Q by (change 1%Q with (inject_Z 1); rewrite <- inject_Z_plus, <- Zle_Qle; lia). nra.
  Qed.

  Lemma multiple_inj i j : multiple i = multiple j -> i = j.
  Proof. intro E. destruct (Nat.lt_trichotomy i j) as [L|[L|L]]; auto; apply multiple_lt in L; lia. Qed.

  Lemma multiple_zero : multiple 0 = 0%Z.
  Proof. eapply rounds_zero; [|apply multiple_rounds]. change (inject_Z (Z.of_nat 0)) with 0%Q. ring. Qed.

  Lemma multiples_sorted k i : StronglySorted Z.lt (map multiple (seq i k)).
  Proof.
    revert i. induction k as [|k IH]; intro i; cbn; constructor; auto. apply Forall_forall. intros z Hz. apply in_map_iff in Hz.
    destruct Hz as [j [<- Hj]]. apply in_seq in Hj. apply multiple_lt. lia.
  Qed.

  Lemma sorted_lt_NoDup l : StronglySorted Z.lt l -> NoDup l.
  Proof. induction 1 as [|x l _ IH Hf]; constructor; auto. intro H. rewrite Forall_forall in Hf. apply Hf in H. lia. Qed.

  Let V := [[a]].
  Let R := [[0]]%Q.

  Lemma chain_sq n : (cell_sq 1 V [n] == (Qabs a * inject_Z (Z.of_nat (Z.abs_nat n))) * (Qabs a * inject_Z (Z.of_nat (Z.abs_nat n))))%Q.
  Proof.
    unfold cell_sq, entry, V. cbn -[Qmult Qplus inject_Z Z.of_nat]. rewrite Zabs2Nat.id_abs.
    assert (forall x, (Qabs x * Qabs x == x * x)%Q) as Hx by (intro x; rewrite <- Qabs_Qmult; apply Qabs_pos; nra).
    assert (inject_Z (Z.abs n) * inject_Z (Z.abs n) == inject_Z n * inject_Z n)%Q as Hn by (rewrite <- !inject_Z_mult; rewrite <- Z.abs_mul, Z.abs_eq by nia; reflexivity).
    setoid_replace (Qabs a * inject_Z (Z.abs n) * (Qabs a * inject_Z (Z.abs n)))%Q with ((Qabs a * Qabs a) * (inject_Z (Z.abs n) * inject_Z (Z.abs n)))%Q by ring.
    rewrite Hx, Hn. ring.
  Qed.

  Lemma chain_away n z : away 1 V R 0 0 n z <-> exists x, n = [x] /\ z = multiple (Z.abs_nat x).
  Proof.
    unfold away. cbn [nth R]. split.
    - intros [Hn Hz]. destruct n as [|x [|]]; try discriminate Hn. exists x. split; auto.
      eapply rounds_unique; [exact Hz|apply multiple_rounds|]. rewrite <- chain_sq. apply own_distance. reflexivity.
    - intros [x [-> ->]]. split; auto. eapply rounds_ext; [|apply multiple_rounds]. rewrite <- chain_sq. symmetry. apply own_distance. reflexivity.
  Qed.

  Lemma chain_between z : distance_between 1 V R 0 0 z <-> exists j, 1 <= j /\ z = multiple j.
  Proof.
    split.
    - intros [Hz [n H]]. apply chain_away in H. destruct H as [x [-> ->]]. exists (Z.abs_nat x). split; auto.
      destruct (Z.abs_nat x) eqn:E; [exfalso; apply Hz, multiple_zero|lia].
    - intros [j [Hj ->]]. split; [pose proof (multiple_lt 0 j ltac:(lia)) as H; rewrite multiple_zero in H; lia|].
      exists [Z.of_nat j]. apply chain_away. exists (Z.of_nat j). rewrite Zabs2Nat.id. auto.
  Qed.

  Lemma chain_ranked i z : ranked (distance_between 1 V R 0 0) i z <-> z = multiple (S i).
  Proof.
    assert (forall j y, In y (map multiple (seq 1 j)) <-> distance_between 1 V R 0 0 y /\ (y < multiple (S j))%Z) as HL.
    { intros j y. rewrite in_map_iff, chain_between. split.
      - intros [t [<- Ht]]. apply in_seq in Ht. split; [exists t; split; [lia|auto]|apply multiple_lt; lia].
      - intros [[t [Ht ->]] Hlt]. exists t. split; auto. apply in_seq. destruct (le_lt_dec (S j) t) as [C|C]; [|lia].
        exfalso. destruct (Nat.eq_dec t (S j)) as [->|]; [lia|]. pose proof (multiple_lt (S j) t ltac:(lia)). lia. }
    split.
    - intros [Hz [L [Hnd [HLz Hlen]]]]. apply chain_between in Hz. destruct Hz as [[|j] [Hj ->]]; [lia|]. f_equal. f_equal.
      rewrite <- Hlen. rewrite <- (seq_length j 1), <- (map_length multiple (seq 1 j)).
      apply Nat.le_antisymm; apply NoDup_incl_length; auto; try apply sorted_lt_NoDup, multiples_sorted; intros y Hy; [apply HLz, HL; auto|apply HL, HLz; auto].
    - intros ->. split; [apply chain_between; exists (S i); split; [lia|auto]|]. exists (map multiple (seq 1 i)).
      split; [apply sorted_lt_NoDup, multiples_sorted|]. split; [apply HL|]. rewrite map_length, seq_length. auto.
  Qed.

  Lemma chain_true k n z : true_neighbor 1 V R [[k]] 0 0 n z <-> exists x i, n = [x] /\ i < k /\ Z.abs_nat x = S i /\ z = multiple (S i).
  Proof.
    unfold true_neighbor. cbn [nth]. split.
    - intros [H [i [Hi Hr]]]. apply chain_away in H. apply chain_ranked in Hr. destruct H as [x [-> ->]]. exists x, i. split; auto. split; auto. split; auto.
      apply multiple_inj. auto.
    - intros [x [i [-> [Hi [Hx ->]]]]]. split; [apply chain_away; exists x; rewrite Hx; auto|]. exists i. split; auto. apply chain_ranked. auto.
  Qed.

  Lemma chain_reach k n z : true_neighbor 1 V R [[k]] 0 0 n z -> in_reach 1 V k n.
  Proof.
    intro H. apply chain_true in H. destruct H as [x [i [-> [Hi [Hx _]]]]]. apply few_in_reach.
    - split; auto. intros y [<-|[]]. lia.
    - intros l Hl Hsmall. destruct (lengths_exist 1 V) as [lengths Hlen]. exists lengths. split; auto.
      set (f := fun j => ((Qabs a * inject_Z (Z.of_nat j)) * (Qabs a * inject_Z (Z.of_nat j)))%Q).
      assert (length l <= length (map f (seq 0 (S i)))) as H.
      { apply spread_le; auto. intros q Hq. destruct (Hsmall q Hq) as [n' [[Hn' _] [E Hlt]]]. destruct n' as [|x' [|]]; try discriminate Hn'.
        exists (f (Z.abs_nat x')). rewrite chain_sq in E, Hlt. split; [|exact E]. apply in_map. apply in_seq. split; [lia|].
        destruct (le_lt_dec (S i) (Z.abs_nat x')) as [C|C]; [|lia]. exfalso. rewrite Hx in Hlt. rewrite <- E in Hlt.
        assert (inject_Z (Z.of_nat (S i)) <= inject_Z (Z.of_nat (Z.abs_nat x')))%Q by (rewrite <- Zle_Qle; lia).
        pose proof (of_nat_q (S i)). assert (0 <= Qabs a)%Q by lra.
        assert (Qabs a * inject_Z (Z.of_nat (S i)) <= Qabs a * inject_Z (Z.of_nat (Z.abs_nat x')))%Q by nra.
        assert (0 <= Qabs a * inject_Z (Z.of_nat (S i)))%Q by nra. nra. }
      rewrite map_length, seq_length in H. lia.
  Qed.
End Chain.

Theorem C105_chain :
  forall query inv a at1 k, correct_tree query -> inverts inv 1 -> ((1#1000000) < Qabs a)%Q -> 1 <= k ->
    exists s, simple_chain query inv a at1 k = Ok s /\
      forall N i,
        (i < k -> exists L, get_neighbors s [N] 0 i = Ok L /\ Permutation L [[N - Z.of_nat (i + 1); 0]; [N + Z.of_nat (i + 1); 0]]%Z) /\
        (k <= i -> get_neighbors s [N] 0 i = Raise IndexError).
Proof.
  intros query inv a at1 k Hq I1 Ha Hk. assert (~ (a == 0)%Q) as Ha0 by (intro E; rewrite E in Ha; cbn in Ha; lra).
  assert (valid_basis (chain_basis inv a)) as Hb by (apply I1; exists [[/ a]]%Q; matrix_check; field; auto).
  destruct (preset_one query (chain_basis inv a) at1 k Hb ltac:(cbn; lia) ltac:(lia)) as [s [s' [E [Han [Hs [Eb [Ep Ec]]]]]]].
  exists s'. split; [exact E|].
  pose proof (C105_true_neighbors query s s' [[k]] k Hq ltac:(rewrite Eb; auto) ltac:(rewrite Eb; cbn; lia) Hs Ec Han) as T.
  cbv zeta in T. rewrite Ep, Eb in T. change (b_dim (chain_basis inv a)) with 1 in T. change (b_mat (chain_basis inv a)) with [[a]] in T. cbn [repeat] in T.
  assert (forall x c, nth c (nth x [[k]] []) 0 <= k) as Hm1 by (intros [|[|x]] [|[|c]]; cbn; lia).
  destruct (T Hm1 (ex_intro _ 0 (ex_intro _ 0 eq_refl))) with (a := 0) as [Ds [Hsort [HDs Hget]]]; [|cbn; lia|].
  { intros [|x] [|c] n z Hx Hc; cbn in Hx, Hc; try lia. apply chain_reach. auto. }
  assert (Ds = map (multiple a) (seq 1 k)) as ->.
  { apply sorted_unique; auto; [apply multiples_sorted; auto|]. intro z. rewrite HDs, in_map_iff. split.
    - intros [[|c] [n [Hc H]]]; cbn in Hc; try lia. apply (chain_true a Ha) in H. destruct H as [x [i [-> [Hi [_ ->]]]]]. exists (S i). split; auto. apply in_seq. lia.
    - intros [[|i] [<- Hi]]; apply in_seq in Hi; [lia|]. exists 0, [Z.of_nat (S i)]. split; [cbn; lia|]. apply (chain_true a Ha). exists (Z.of_nat (S i)), i.
      rewrite Zabs2Nat.id. split; auto. split; [lia|]. auto. }
  intros N i. specialize (Hget [N] i eq_refl). rewrite nth_error_map in Hget. split; intro Hi.
  - rewrite (nth_error_nth' (seq 1 k) 0) in Hget by (rewrite seq_length; auto). rewrite seq_nth in Hget by auto. cbn in Hget.
    destruct Hget as [L [E1 [Hnd HL]]]. exists L. split; auto. apply NoDup_Permutation; auto.
    + constructor; [|constructor; [intros []|constructor]]. intros [E'|[]]. injection E' as E'. lia.
    + intro t. rewrite HL. split.
      * intros [n [[|c] [Hc [-> H]]]]; [|lia]. apply (chain_true a Ha) in H. destruct H as [x [j [-> [Hj [Hx Hz]]]]]. apply multiple_inj in Hz; auto. assert (j = i) as -> by lia. clear Hz.
        cbn. assert (x = Z.of_nat (i + 1) \/ x = - Z.of_nat (i + 1))%Z as [->| ->] by lia; [right; left|left]; f_equal; lia.
      * intros [<-|[<-|[]]]; [exists [(- Z.of_nat (i + 1))%Z], 0|exists [Z.of_nat (i + 1)], 0]; (split; [lia|]); (split; [cbn; f_equal; lia|]); apply (chain_true a Ha).
        -- exists (- Z.of_nat (i + 1))%Z, i. split; auto. split; auto. split; auto. lia.
        -- exists (Z.of_nat (i + 1)), i. split; auto. split; auto. split; auto. lia.
  - rewrite (proj2 (nth_error_None (seq 1 k) i)) in Hget by (rewrite seq_length; auto). exact Hget.
Qed.

(** ** Rock salt *)

Definition plus_cells : list (list Z) := [[0; 0; 1]; [1; 1; 0]; [0; 1; 0]; [1; 0; 1]; [1; 0; 0]; [0; 1; 1]]%Z.
Definition minus_cells : list (list Z) := map (map Z.opp) plus_cells.

Lemma other_form s n1 n2 n3 : (s = 1 \/ s = -1)%Z ->
  let f := ((n1 + n2 + s) * (n1 + n2 + s) + (n1 + n3 + s) * (n1 + n3 + s) + (n2 + n3 + s) * (n2 + n3 + s))%Z in
  (f = 1 \/ 3 <= f)%Z /\ (f = 1%Z <-> In [n1; n2; n3] (if Z.eqb s 1 then minus_cells else plus_cells)).
Proof.
  intros Hs f.
  assert (exists g, f = 2 * g + 1)%Z as [g Eg].
  { destruct Hs as [->| ->].
    - exists (n1 * n1 + n2 * n2 + n3 * n3 + n1 * n2 + n1 * n3 + n2 * n3 + 2 * n1 + 2 * n2 + 2 * n3 + 1)%Z. unfold f. ring.
    - exists (n1 * n1 + n2 * n2 + n3 * n3 + n1 * n2 + n1 * n3 + n2 * n3 - 2 * n1 - 2 * n2 - 2 * n3 + 1)%Z. unfold f. ring. }
  assert (0 <= f)%Z.
  { unfold f. pose proof (Z.square_nonneg (n1 + n2 + s)). pose proof (Z.square_nonneg (n1 + n3 + s)). pose proof (Z.square_nonneg (n2 + n3 + s)). lia. }
  split; [lia|]. split.
  - intro B. destruct (squares_small (n1 + n2 + s) (n1 + n3 + s) (n2 + n3 + s)) as [? [? ?]]; [fold f; lia|].
    unfold f in B. clear Eg f H. destruct (small_cases (n1 + n2 + s) ltac:(lia)) as [E1|[E1|E1]], (small_cases (n1 + n3 + s) ltac:(lia)) as [E2|[E2|E2]],
      (small_cases (n2 + n3 + s) ltac:(lia)) as [E3|[E3|E3]]; rewrite E1, E2, E3 in B; try discriminate B; try (exfalso; lia).
    all: destruct Hs as [->| ->]; cbn [Z.eqb Pos.eqb minus_cells plus_cells map Z.opp]; unfold plus_cells, minus_cells; cbn [In map Z.opp].
    all: assert (n1 = -1 \/ n1 = 0 \/ n1 = 1)%Z as C1 by lia; assert (n2 = -1 \/ n2 = 0 \/ n2 = 1)%Z as C2 by lia; assert (n3 = -1 \/ n3 = 0 \/ n3 = 1)%Z as C3 by lia;
      destruct C1 as [->|[->| ->]], C2 as [->|[->| ->]], C3 as [->|[->| ->]]; try (exfalso; lia); auto 10.
  - intro H1. destruct Hs as [->| ->]; cbn [Z.eqb Pos.eqb] in H1; unfold minus_cells, plus_cells in H1; cbn [In map Z.opp] in H1;
      repeat destruct H1 as [E|H1]; try (injection E as <- <- <-; reflexivity); destruct H1.
Qed.

Section RockSalt.
  Variables (inv : mat -> mat) (a : Q).
  Hypothesis Ha : ((1#1000000) < a * a)%Q.
  Let V := b_mat (fcc inv a).
  Let R := [[0; 0; 0]; [a / 2; a / 2; a / 2]]%Q.
  Let conns := [[1; 1]; [1; 1]].
  Let e := (a * a / 4)%Q.

  Lemma e_pos : (0 < e)%Q.
  Proof. unfold e. apply Qlt_shift_div_l; lra. Qed.

  Lemma own_sq x n1 n2 n3 : x < 2 -> (sqdist (nth x R []) (lattice_point 3 V (nth x R []) [n1; n2; n3]) ==
    e * inject_Z ((n1 + n2) * (n1 + n2) + (n1 + n3) * (n1 + n3) + (n2 + n3) * (n2 + n3)))%Q.
  Proof. intro Hx. rewrite own_distance; [apply fcc_sq|]. destruct x as [|[|x]]; [reflexivity|reflexivity|lia]. Qed.

  Definition sgn (x : nat) : Z := match x with 0 => 1%Z | _ => (-1)%Z end.

  Lemma other_sq x n1 n2 n3 : x < 2 -> (sqdist (nth x R []) (lattice_point 3 V (nth (1 - x) R []) [n1; n2; n3]) ==
    e * inject_Z ((n1 + n2 + sgn x) * (n1 + n2 + sgn x) + (n1 + n3 + sgn x) * (n1 + n3 + sgn x) + (n2 + n3 + sgn x) * (n2 + n3 + sgn x)))%Q.
  Proof.
    intro Hx. destruct x as [|[|x]]; [| |lia]; unfold sqdist, lattice_point, entry, R, V, e, sgn; cbn -[Qmult Qplus Qminus inject_Z Qdiv];
      rewrite !inject_Z_plus, !inject_Z_mult, !inject_Z_plus; change (inject_Z 1) with 1%Q; change (inject_Z (-1)) with (-(1))%Q; field.
  Qed.

  Definition other_cells (x : nat) : list (list Z) := match x with 0 => minus_cells | _ => plus_cells end.

  Lemma other_cells_sgn x : x < 2 -> other_cells x = if Z.eqb (sgn x) 1 then minus_cells else plus_cells.
  Proof. destruct x as [|[|x]]; auto. Qed.

  Lemma own_first x n z : x < 2 -> true_neighbor 3 V R conns x x n z <-> In n fcc_cells /\ rounds_to_micro (e * inject_Z 2)%Q z.
  Proof.
    intro Hx. pose proof e_pos as He. unfold true_neighbor. replace (nth x (nth x conns []) 0) with 1 by (destruct x as [|[|x]]; [reflexivity|reflexivity|lia]).
    rewrite (first_shell 3 V R x x (e * inject_Z 2)%Q).
    - split.
      + intros [Hn [E Hz]]. split; auto. destruct (three n Hn) as [n1 [n2 [n3 ->]]]. rewrite own_sq in E by auto. apply scale_eq in E; auto. apply fcc_form. auto.
      + intros [Hin Hz]. assert (length n = 3) as Hn by (cbn in Hin; intuition (subst; reflexivity)). split; auto. split; auto.
        destruct (three n Hn) as [n1 [n2 [n3 ->]]]. rewrite own_sq by auto. apply scale_eq; auto. apply fcc_form. auto.
    - unfold e. change (inject_Z 2) with 2%Q. setoid_replace (a * a / 4 * 2)%Q with (a * a * (1#2))%Q by field. lra.
    - exists [1; 0; 0]%Z. split; auto. rewrite own_sq by auto. reflexivity.
    - intros n' Hn'. destruct (three n' Hn') as [n1 [n2 [n3 ->]]]. rewrite own_sq by auto.
      destruct (list_eq_dec Z.eq_dec [n1; n2; n3] [0; 0; 0]%Z) as [E|Hnz]; [injection E as -> -> ->; left; cbn; ring|right].
      destruct (proj1 (fcc_form n1 n2 n3) Hnz) as [->|H]; [left; reflexivity|right].
      apply (scale_le e _ _ He) in H. change (inject_Z 4) with 4%Q in H. change (inject_Z 2) with 2%Q. lra.
  Qed.

  Lemma other_first x n z : x < 2 -> true_neighbor 3 V R conns x (1 - x) n z <-> In n (other_cells x) /\ rounds_to_micro e z.
  Proof.
    intro Hx. pose proof e_pos as He. unfold true_neighbor. replace (nth (1 - x) (nth x conns []) 0) with 1 by (destruct x as [|[|x]]; [reflexivity|reflexivity|lia]).
    assert (sgn x = 1 \/ sgn x = -1)%Z as Hs by (destruct x; auto).
    assert (e == e * inject_Z 1)%Q as E1 by (change (inject_Z 1) with 1%Q; ring).
    rewrite (first_shell 3 V R x (1 - x) e).
    - split.
      + intros [Hn [E Hz]]. split; auto. destruct (three n Hn) as [n1 [n2 [n3 ->]]]. rewrite other_sq in E by auto. rewrite E1 in E at 2. apply scale_eq in E; auto.
        rewrite other_cells_sgn by auto. apply (other_form (sgn x) n1 n2 n3 Hs). auto.
      + intros [Hin Hz]. assert (length n = 3) as Hn by (destruct x as [|[|x]]; [| |lia]; cbn in Hin; intuition (subst; reflexivity)). split; auto. split; auto.
        destruct (three n Hn) as [n1 [n2 [n3 ->]]]. rewrite other_sq by auto. rewrite E1 at 2. apply scale_eq; auto.
        apply (other_form (sgn x) n1 n2 n3 Hs). rewrite <- other_cells_sgn by auto. auto.
    - unfold e. setoid_replace (a * a / 4)%Q with (a * a * (1#4))%Q by field. lra.
    - destruct x as [|[|x]]; [exists [0; 0; -1]%Z|exists [0; 0; 1]%Z|lia]; (split; auto); rewrite other_sq by auto; rewrite E1 at 2; reflexivity.
    - intros n' Hn'. destruct (three n' Hn') as [n1 [n2 [n3 ->]]]. rewrite other_sq by auto. right.
      destruct (proj1 (other_form (sgn x) n1 n2 n3 Hs)) as [->|H]; [left; symmetry; exact E1|right].
      apply (scale_le e _ _ He) in H. change (inject_Z 3) with 3%Q in H. lra.
  Qed.

  (** Lattice vectors up to the length sqrt(6)a/2 are in reach. *)
  Lemma salt_reach n1 n2 n3 : (-1 <= n1 <= 1 -> -1 <= n2 <= 1 -> -1 <= n3 <= 1 ->
      (n1 + n2) * (n1 + n2) + (n1 + n3) * (n1 + n3) + (n2 + n3) * (n2 + n3) <= 6)%Z -> (-1 <= n1 <= 1 -> -1 <= n2 <= 1 -> -1 <= n3 <= 1 ->
    in_reach 3 V 1 [n1; n2; n3])%Z.
  Proof.
    intros H6 B1 B2 B3. specialize (H6 B1 B2 B3). pose proof e_pos as He. apply few_in_reach.
    - split; auto. intros k Hk. cbn in Hk. intuition lia.
    - intros l Hl Hsmall. destruct (lengths_exist 3 V) as [lengths Hlen]. exists lengths. split; auto.
      assert (1 <= length lengths) as H1.
      { destruct Hlen as [_ Hlen]. destruct (proj1 (Hlen (column_sq 3 V 0))) as [x [Hx _]]; [exists 0; split; [lia|reflexivity]|].
        destruct lengths; [destruct Hx|cbn; lia]. }
      assert (length l <= length [e * inject_Z 0; e * inject_Z 2; e * inject_Z 4]%Q) as H.
      { apply spread_le; auto. intros x Hx. destruct (Hsmall x Hx) as [n' [[Hn' _] [E Hlt]]]. destruct (three n' Hn') as [m1 [m2 [m3 ->]]].
        unfold V in E, Hlt. rewrite fcc_sq in E, Hlt. fold e in E, Hlt.
        set (F := ((m1 + m2) * (m1 + m2) + (m1 + m3) * (m1 + m3) + (m2 + m3) * (m2 + m3))%Z) in *.
        assert (exists g, F = 2 * g)%Z as [g Eg] by (exists (m1 * m1 + m2 * m2 + m3 * m3 + m1 * m2 + m1 * m3 + m2 * m3)%Z; unfold F; ring).
        assert (0 <= F)%Z as F0.
        { unfold F. pose proof (Z.square_nonneg (m1 + m2)). pose proof (Z.square_nonneg (m1 + m3)). pose proof (Z.square_nonneg (m2 + m3)). lia. }
        assert (F < 6)%Z as F6.
        { apply Znot_ge_lt. intro G. assert (6 <= F)%Z as G' by lia. assert (e * inject_Z 6 <= e * inject_Z F)%Q by (apply scale_le; auto).
          pose proof (scale_le e _ _ He H6). rewrite <- E in Hlt. lra. }
        exists (e * inject_Z F)%Q. split; [|exact E].
        assert (F = 0 \/ F = 2 \/ F = 4)%Z as [->|[->| ->]] by lia; cbn; auto. }
      cbn [length] in H. lia.
  Qed.
End RockSalt.

Theorem C105_rock_salt :
  forall query inv a at1 at2, correct_tree query -> inverts inv 3 -> ((1#1000000) < a * a)%Q ->
    exists s, nacl_structure query inv a at1 at2 1 = Ok s /\
      forall N x, length N = 3 -> x < 2 ->
        (exists L, get_neighbors s N x 0 = Ok L /\ around N (other_cells x) (1 - x) L) /\
        (exists L, get_neighbors s N x 1 = Ok L /\ around N fcc_cells x L) /\
        forall i, 2 <= i -> get_neighbors s N x i = Raise IndexError.
Proof.
  intros query inv a at1 at2 Hq I3 Ha. assert (~ (a == 0)%Q) as Ha0 by (intro E; rewrite E in Ha; lra).
  pose proof (fcc_valid inv a I3 Ha0) as Hb. assert (b_dim (fcc inv a) = 3) as Hd by reflexivity.
  assert (exists s s', nacl_structure query inv a at1 at2 1 = Ok s' /\ analyze query s = (s', Ok tt) /\ in_step s /\ st_basis s = fcc inv a /\
    st_positions s = [[0; 0; 0]; [a / 2; a / 2; a / 2]]%Q /\ st_connections s = Some [[1; 1]; [1; 1]]) as [s [s' [E [Han [Hs [Eb [Ep Ec]]]]]]].
  { destruct (C73_preset query (fcc inv a) [(Some [0; 0; 0]%Q, at1); (Some [a / 2; a / 2; a / 2]%Q, at2)] 1 Hb ltac:(lia) ltac:(discriminate)) as [H _];
      [intros r [<-|[<-|[]]]; reflexivity|].
    destruct H as [s [s' [E [Han [Hs [Eb [_ [_ [Ep [Ec _]]]]]]]]]]; [|discriminate|].
    { apply all_different_two. cbn [meant_position fst]. rewrite same_cons. intros [E _]. apply Ha0. setoid_replace a with (2 * (a / 2))%Q by field. rewrite <- E. ring. }
    exists s, s'. destruct (analyze_ok query s s' Han) as [conns [raw [_ [Ec' [_ [_ Es]]]]]]. rewrite Es in Ep, Ec. cbn in Ep, Ec.
    split; [exact E|]. split; auto. split; auto. split; auto. split; [exact Ep|]. rewrite Ec'. exact Ec. }
  exists s'. split; auto. intros N x HN Hx.
  pose proof (C105_true_neighbors query s s' [[1; 1]; [1; 1]] 1 Hq ltac:(rewrite Eb; auto) ltac:(rewrite Eb, Hd; lia) Hs Ec Han) as T.
  cbv zeta in T. rewrite Eb, Hd, Ep in T.
  assert (forall x c, nth c (nth x [[1; 1]; [1; 1]] []) 0 <= 1) as Hm1 by (intros [|[|[|y]]] [|[|[|c]]]; cbn; lia).
  assert (forall c, c < 2 -> forall y, y < 2 -> c = y \/ c = 1 - y) as Hcases by (intros; lia).
  destruct (T Hm1 (ex_intro _ 0 (ex_intro _ 0 eq_refl))) with (a := x) as [Ds [Hsort [HDs Hget]]]; [|exact Hx|].
  { intros y c n z Hy Hc H. cbn [length] in Hy, Hc. destruct (Hcases c Hc y Hy) as [->| ->].
    - apply (own_first inv a Ha) in H; auto. destruct H as [H _]. cbn in H. intuition subst; apply salt_reach; auto; intros; lia.
    - apply (other_first inv a Ha) in H; auto. destruct H as [H _].
      destruct y as [|[|y]]; [| |lia]; cbn in H; intuition subst; apply salt_reach; auto; intros; lia. }
  pose proof (e_pos a Ha) as He. set (e := (a * a / 4)%Q) in *.
  pose proof (sqrt_micro_rounds e ltac:(lra)) as Hz1. set (z1 := sqrt_micro e) in *.
  assert (0 <= e * inject_Z 2)%Q as He2 by (change (inject_Z 2) with 2%Q; lra).
  pose proof (sqrt_micro_rounds _ He2) as Hz2. set (z2 := sqrt_micro (e * inject_Z 2)%Q) in *.
  assert ((1#10000000000) < e)%Q as Hbig by (unfold e; setoid_replace (a * a / 4)%Q with (a * a * (1#4))%Q by field; lra).
  assert (z1 < z2)%Z as Hz.
  { eapply rounds_gap; [exact Hz1|exact Hz2|eapply rounds_ten; eauto|]. change (inject_Z 2) with 2%Q. lra. }
  assert (Ds = [z1; z2]) as ->.
  { apply sorted_unique; auto.
    - repeat constructor. auto.
    - intro z. rewrite HDs. split.
      + intros [c [n [Hc H]]]. cbn [length] in Hc. destruct (Hcases c Hc x Hx) as [->| ->].
        * apply (own_first inv a Ha) in H; auto. right. left. destruct H as [_ H]. eapply rounds_unique; [exact Hz2|exact H|reflexivity].
        * apply (other_first inv a Ha) in H; auto. left. destruct H as [_ H]. eapply rounds_unique; [exact Hz1|exact H|reflexivity].
      + intros [<-|[<-|[]]].
        * exists (1 - x), (nth 0 (other_cells x) []). split; [cbn [length]; lia|]. apply (other_first inv a Ha); auto. split; auto. apply nth_In. destruct x; cbn; lia.
        * exists x, [1; 0; 0]%Z. split; [cbn; lia|]. apply (own_first inv a Ha); auto. split; auto. cbn. auto. }
  assert (z1 <> z2) as Hne by lia. split; [|split].
  - specialize (Hget N 0 HN). cbn in Hget. destruct Hget as [L [E1 [Hnd HL]]]. exists L. split; auto. apply around_intro; auto.
    + destruct x as [|[|x]]; [| |lia]; repeat (constructor; [cbn; intuition discriminate|]); constructor.
    + intros n Hn. rewrite HN. destruct x as [|[|x]]; [| |lia]; cbn in Hn; intuition (subst; reflexivity).
    + intro t. rewrite HL. split.
      * intros [n [c [Hc [-> H]]]]. destruct (Hcases c ltac:(lia) x Hx) as [->| ->].
        -- apply (own_first inv a Ha) in H; auto. exfalso. apply Hne. destruct H as [_ H]. eapply rounds_unique; [exact H|exact Hz2|reflexivity].
        -- apply (other_first inv a Ha) in H; auto. exists n. split; auto. apply H.
      * intros [n [Hn ->]]. exists n, (1 - x). split; [lia|]. split; auto. apply (other_first inv a Ha); auto.
  - specialize (Hget N 1 HN). cbn in Hget. destruct Hget as [L [E1 [Hnd HL]]]. exists L. split; auto. apply around_intro; auto.
    + repeat (constructor; [cbn; intuition discriminate|]); constructor.
    + intros n Hn. rewrite HN. cbn in Hn; intuition (subst; reflexivity).
    + intro t. rewrite HL. split.
      * intros [n [c [Hc [-> H]]]]. destruct (Hcases c ltac:(lia) x Hx) as [->| ->].
        -- apply (own_first inv a Ha) in H; auto. exists n. split; auto. apply H.
        -- apply (other_first inv a Ha) in H; auto. exfalso. apply Hne. destruct H as [_ H]. eapply rounds_unique; [exact Hz1|exact H|reflexivity].
      * intros [n [Hn ->]]. exists n, x. split; [lia|]. split; auto. apply (own_first inv a Ha); auto.
  - intros i Hi. specialize (Hget N i HN). destruct i as [|[|i]]; try lia. cbn in Hget. destruct i; exact Hget.
Qed.

(** ** Hypercubic lattices of any dimension *)

Theorem C105_hypercubic :
  forall query inv d a at1, correct_tree query -> 1 <= d -> valid_basis (hypercubic inv d a) -> ((1#1000) < a)%Q ->
    exists s, preset query (hypercubic inv d a) [(None, at1)] 1 = Ok s /\
      forall N, length N = d ->
        (exists L, get_neighbors s N 0 0 = Ok L /\ NoDup L /\ length L = 2 * d /\
           forall t, In t L <-> exists M, length M = d /\ unit_step d N M /\ t = M ++ [0%Z]) /\
        forall i, 1 <= i -> get_neighbors s N 0 i = Raise IndexError.
Proof.
  intros query inv d a at1 Hq Hd Hb Ha.
  destruct (hypercubic_preset query inv d a at1 Hd Hb) as [s [s' [Eb [Ep [Ec [Hs [Han E]]]]]]].
  exists s'. split; auto. intros N HN.
  assert (b_dim (hypercubic inv d a) = d) as Hbd by apply hypercubic_dim.
  pose proof (C105_nearest query s s' _ Hq ltac:(rewrite Eb; auto) ltac:(rewrite Eb, Hbd; lia) Hs Ep Ec Han) as T.
  cbv zeta in T. rewrite Eb, Hbd in T. set (V := b_mat (hypercubic inv d a)) in *.
  assert (cubic_lattice d V a) as HV by (split; [lra|intros; apply hypercubic_entry; auto]).
  assert (forall n, length n = d -> (cell_sq d V n == (a * a) * inject_Z (zs d (fun k => nth k n 0%Z)))%Q) as Hsq.
  { intros n Hn. rewrite <- (own_distance d V (repeat 0%Q d) n (repeat_length _ _)). apply origin_sq; auto. apply repeat_length. }
  assert (0 < a * a)%Q as Haa by nra.
  assert (forall n, In n (steps d) -> length n = d) as Hsl.
  { intros n Hn. unfold steps in Hn. apply in_flat_map in Hn. destruct Hn as [k [_ [<-|[<-|[]]]]]; apply unit_vector_length. }
  destruct (T (a * a)%Q (steps d)) with (N := N) as [[L [E1 [Hnd HL]]] Hover]; auto.
  - nra.
  - intro H. pose proof (steps_length d) as H1. rewrite H in H1. cbn in H1. lia.
  - intro n. split.
    + intro Hin. pose proof (Hsl n Hin) as Hn. split; auto. rewrite Hsq by auto. apply In_steps in Hin; auto. rewrite Hin. change (inject_Z 1) with 1%Q. ring.
    + intros [Hn En]. apply In_steps; auto. rewrite Hsq in En by auto. apply (scale_eq (a * a)); auto. rewrite En. change (inject_Z 1) with 1%Q. ring.
  - intros n Hn Hnz. rewrite Hsq by auto. pose proof (zs_nonneg d (fun k => nth k n 0%Z)) as Z0.
    assert (zs d (fun k => nth k n 0%Z) <> 0%Z) as Z1.
    { intro Z. apply Hnz. apply (list_eq_nth _ _ 0%Z); [rewrite repeat_length; auto|]. intros k Hk. rewrite nth_repeat. apply (zs_zero d _ Z k). lia. }
    set (w := zs d (fun k => nth k n 0%Z)) in *. assert (w = 1 \/ 2 <= w)%Z as [->|H] by lia.
    + left. change (inject_Z 1) with 1%Q. ring.
    + right. apply (scale_le (a * a) _ _ Haa) in H. change (inject_Z 2) with 2%Q in H. lra.
  - intros n k Hn Hk. pose proof (Hsl n Hn) as Hl. apply In_steps in Hn; auto. apply (In_nth _ _ 0%Z) in Hk. destruct Hk as [j [Hj <-]].
    pose proof (zs_entry d (fun k => nth k n 0%Z) j ltac:(lia)) as H. cbv beta in H. rewrite Hn in H. nia.
  - split; auto. exists L. split; auto. split; auto. split.
    + rewrite <- (steps_length d). apply (around_intro N (steps d) 0 L (steps_NoDup d)); auto. intros n Hn. rewrite HN. auto.
    + intro t. rewrite HL. split.
      * intros [n [Hn ->]]. pose proof (Hsl n Hn) as Hl. exists (map2 Z.add n N). split; [rewrite map2_length; lia|]. split; auto.
        apply unit_step_sq. apply In_steps in Hn; auto. rewrite <- Hn. apply zs_ext. intros k Hk. rewrite (nth_map2 _ _ _ _ 0%Z 0%Z) by lia. lia.
      * intros [M [HM [Hu ->]]]. exists (map2 Z.sub M N). assert (length (map2 Z.sub M N) = d) as Hl by (rewrite map2_length; lia). split.
        -- apply In_steps; auto. apply unit_step_sq in Hu. rewrite <- Hu. apply zs_ext. intros k Hk. rewrite (nth_map2 _ _ _ _ 0%Z 0%Z) by lia. lia.
        -- f_equal. apply (list_eq_nth _ _ 0%Z); [rewrite !map2_length; lia|]. intros k Hk. rewrite !(nth_map2 _ _ _ _ 0%Z 0%Z) by lia. lia.
Qed.

(** ** Examples *)

(** An unanalysed structure with one atom at the origin. *)
Definition one_atom (b : basis) (k : nat) : structure := mkStructure b [ex_atom "A"] [repeat 0%Q (b_dim b)] false (Some [[k]]) None.

Lemma one_atom_in_step b k : in_step (one_atom b k).
Proof.
  split; [reflexivity|]. split; [intros r [<-|[]]; apply repeat_length|]. split; [apply all_different_one|].
  split; [reflexivity|]. split; [intros row [<-|[]]; reflexivity|]. intros [|[|x]] [|[|y]]; reflexivity.
Qed.

(** A chain with three distances: all neighbours are in reach. *)
Example C105_true_neighbors_example :
  let b := mkBasis [[2]]%Q [[1#2]]%Q in
  correct_tree brute /\ valid_basis b /\ in_step (one_atom b 3) /\
  (forall x c n z, x < 1 -> c < 1 -> true_neighbor 1 [[2]]%Q [[0]]%Q [[3]] x c n z -> in_reach 1 [[2]]%Q 3 n) /\
  true_neighbor 1 [[2]]%Q [[0]]%Q [[3]] 0 0 [-3]%Z 6000000 /\
  exists s', analyze brute (one_atom b 3) = (s', Ok tt) /\ get_neighbors s' [7]%Z 0 2 = Ok [[4; 0]; [10; 0]]%Z.
Proof.
  split; [exact brute_nearest|]. split; [matrix_check; first [reflexivity|exfalso; cbn in *; lia]|]. split; [apply one_atom_in_step|]. split; [|split].
  - intros [|x] [|c] n z Hx Hc; try lia. apply chain_reach. reflexivity.
  - apply chain_true; [reflexivity|]. exists (-3)%Z, 2. repeat split; auto.
  - eexists. split; vm_compute; reflexivity.
Qed.

(** In the basis (1, 0), (10, 1) the four nearest neighbours include the cells (10, -1) and (-10, 1), which are missed. *)
Example C105_missed_example :
  let b := mkBasis [[1; 10]; [0; 1]]%Q [[1; -10]; [0; 1]]%Q in
  valid_basis b /\ in_step (one_atom b 1) /\ true_neighbor 2 [[1; 10]; [0; 1]]%Q [[0; 0]]%Q [[1]] 0 0 [-10; 1]%Z 1000000 /\
  ~ in_reach 2 [[1; 10]; [0; 1]]%Q 1 [-10; 1]%Z /\
  exists s', analyze brute (one_atom b 1) = (s', Ok tt) /\ get_neighbors s' [0; 0]%Z 0 0 = Ok [[-1; 0; 0]; [1; 0; 0]]%Z.
Proof.
  split; [apply inverse2_check; reflexivity|]. split; [apply one_atom_in_step|]. split; [|split].
  - apply (first_shell 2 [[1; 10]; [0; 1]]%Q [[0; 0]]%Q 0 0 1%Q).
    + reflexivity.
    + exists [1; 0]%Z. split; reflexivity.
    + intros n Hn. destruct n as [|x [|y [|]]]; try discriminate Hn. cbn [nth]. rewrite own_distance by reflexivity.
      assert (cell_sq 2 [[1; 10]; [0; 1]]%Q [x; y] == inject_Z ((x + 10 * y) * (x + 10 * y) + y * y))%Q as ->.
      { unfold cell_sq, entry. cbn -[Qmult Qplus inject_Z Qdiv Z.mul Z.add]. repeat rewrite ?inject_Z_plus, ?inject_Z_mult. change (inject_Z 10) with 10%Q. ring. }
      set (f := ((x + 10 * y) * (x + 10 * y) + y * y)%Z). assert (0 <= f)%Z as F0.
      { unfold f. pose proof (Z.square_nonneg (x + 10 * y)). pose proof (Z.square_nonneg y). lia. }
      assert (f = 0 \/ f = 1 \/ 2 <= f)%Z as [->|[->|H]] by lia; [left; reflexivity|right; left; reflexivity|right; right].
      rewrite Zle_Qle in H. change (inject_Z 2) with 2%Q in H. lra.
    + split; [reflexivity|]. split; [reflexivity|]. change 1000000%Z with (sqrt_micro 1). apply sqrt_micro_rounds. discriminate.
  - intros [[_ H] _]. specialize (H (-10)%Z (or_introl eq_refl)). cbn in H. lia.
  - eexists. split; vm_compute; reflexivity.
Qed.

(** The cells examined in a square lattice: the two vectors have one length, so with [distidx] 1 the cut-off is the second length. *)
Example C105_cells_example :
  get_neighbor_cells (mkBasis [[3; 0]; [0; 3]]%Q [[1#3; 0]; [0; 1#3]]%Q) 1 true Qle_bool =
    Some [[-1; -1]; [-1; 0]; [-1; 1]; [0; -1]; [0; 0]; [0; 1]; [1; -1]; [1; 0]; [1; 1]]%Z.
Proof. vm_compute. reflexivity. Qed.

(** The square lattice with lattice constant 3. *)
Example C105_nearest_example :
  let b := mkBasis [[3; 0]; [0; 3]]%Q [[1#3; 0]; [0; 1#3]]%Q in
  let shell := [[1; 0]; [-1; 0]; [0; 1]; [0; -1]]%Z in
  valid_basis b /\ in_step (one_atom b 1) /\
  (forall n, In n shell <-> length n = 2 /\ (cell_sq 2 [[3; 0]; [0; 3]]%Q n == 9)%Q) /\
  (forall n, length n = 2 -> n <> [0; 0]%Z -> (cell_sq 2 [[3; 0]; [0; 3]]%Q n == 9 \/ (5#4) * 9 <= cell_sq 2 [[3; 0]; [0; 3]]%Q n)%Q) /\
  exists s', analyze brute (one_atom b 1) = (s', Ok tt) /\
    get_neighbors s' [4; 4]%Z 0 0 = Ok [[3; 4; 0]; [4; 3; 0]; [4; 5; 0]; [5; 4; 0]]%Z /\ get_neighbors s' [4; 4]%Z 0 1 = Raise IndexError.
Proof.
  assert (forall x y, (cell_sq 2 [[3; 0]; [0; 3]]%Q [x; y] == 9 * inject_Z (x * x + y * y))%Q) as Hsq.
  { intros x y. unfold cell_sq, entry. cbn -[Qmult Qplus inject_Z Qdiv]. rewrite !inject_Z_plus, !inject_Z_mult. ring. }
  split; [apply inverse2_check; reflexivity|]. split; [apply one_atom_in_step|]. split; [|split].
  - intro n. split.
    + intro H. cbn in H. intuition (subst; reflexivity).
    + intros [Hn E]. destruct n as [|x [|y [|]]]; try discriminate Hn. rewrite Hsq in E.
      assert (x * x + y * y = 1)%Z as B by (apply (scale_eq 9%Q); [reflexivity|rewrite E; reflexivity]).
      assert (-1 <= x <= 1 /\ -1 <= y <= 1)%Z as [Bx By] by nia.
      destruct (small_cases x Bx) as [->|[->| ->]], (small_cases y By) as [->|[->| ->]]; try discriminate B; cbn; auto.
  - intros n Hn Hnz. destruct n as [|x [|y [|]]]; try discriminate Hn. rewrite Hsq.
    assert (x * x + y * y = 1 \/ 2 <= x * x + y * y)%Z as [->|H].
    { assert (x * x + y * y <> 0)%Z; [|nia]. intro E. apply Hnz. assert (x = 0 /\ y = 0)%Z as [-> ->] by nia. reflexivity. }
    + left. reflexivity.
    + right. rewrite Zle_Qle in H. change (inject_Z 2) with 2%Q in H. lra.
  - eexists. split; [vm_compute; reflexivity|]. split; vm_compute; reflexivity.
Qed.

Example C105_fcc_example :
  correct_tree brute /\ inverts inverse_small 3 /\ ((1#1000000) < 4 * 4)%Q /\
  exists s, preset brute (fcc inverse_small 4) [(None, ex_atom "Al")] 1 = Ok s /\
    get_neighbors s [1; 0; 0]%Z 0 0 =
      Ok [[0; 0; 0; 0]; [0; 0; 1; 0]; [0; 1; 0; 0]; [1; -1; 0; 0]; [1; -1; 1; 0]; [1; 0; -1; 0]; [1; 0; 1; 0]; [1; 1; -1; 0]; [1; 1; 0; 0];
          [2; -1; 0; 0]; [2; 0; -1; 0]; [2; 0; 0; 0]]%Z.
Proof. split; [exact brute_nearest|]. split; [exact inverse_small_3|]. split; [reflexivity|]. eexists. split; vm_compute; reflexivity. Qed.

Example C105_bcc_example :
  exists s, preset brute (bcc inverse_small 4) [(None, ex_atom "Fe")] 1 = Ok s /\
    get_neighbors s [0; 0; 0]%Z 0 0 =
      Ok [[-1; 0; 0; 0]; [-1; 1; 1; 0]; [0; -1; 0; 0]; [0; 0; -1; 0]; [0; 0; 1; 0]; [0; 1; 0; 0]; [1; -1; -1; 0]; [1; 0; 0; 0]]%Z.
Proof. eexists. split; vm_compute; reflexivity. Qed.

(** The basis of the four-dimensional lattice is valid; the neighbours in two dimensions. *)
Example C105_hypercubic_example :
  valid_basis (hypercubic diagonal_inverse 4 2) /\
  exists s, preset brute (hypercubic diagonal_inverse 2 2) [(None, ex_atom "A")] 1 = Ok s /\
    get_neighbors s [1; 1]%Z 0 0 = Ok [[0; 1; 0]; [1; 0; 0]; [1; 2; 0]; [2; 1; 0]]%Z.
Proof.
  split.
  - split; [split; [reflexivity|intros r Hr; cbn in Hr; intuition (subst; reflexivity)]|].
    split; [split; [reflexivity|intros r Hr; cbn in Hr; intuition (subst; reflexivity)]|].
    split; intros [|[|[|[|i]]]] [|[|[|[|j]]]] Hi Hj; cbn in Hi, Hj; try lia; reflexivity.
  - eexists. split; vm_compute; reflexivity.
Qed.

(** A negative lattice constant and four distances. *)
Example C105_chain_example :
  ((1#1000000) < Qabs (-(3#2)))%Q /\
  exists s, simple_chain brute inverse_small (-(3#2)) (ex_atom "A") 4 = Ok s /\
    get_neighbors s [5]%Z 0 3 = Ok [[1; 0]; [9; 0]]%Z /\ get_neighbors s [5]%Z 0 4 = Raise IndexError.
Proof. split; [reflexivity|]. eexists. split; [vm_compute; reflexivity|]. split; vm_compute; reflexivity. Qed.

(** A chloride ion. *)
Example C105_rock_salt_example :
  exists s, nacl_structure brute inverse_small 2 (ex_atom "Na") (ex_atom "Cl") 1 = Ok s /\
    get_neighbors s [0; 0; 0]%Z 1 0 = Ok [[0; 0; 1; 0]; [0; 1; 0; 0]; [0; 1; 1; 0]; [1; 0; 0; 0]; [1; 0; 1; 0]; [1; 1; 0; 0]]%Z /\
    get_neighbors s [0; 0; 0]%Z 1 2 = Raise IndexError.
Proof. eexists. split; [vm_compute; reflexivity|]. split; vm_compute; reflexivity. Qed.

Print Assumptions C105_true_neighbors.
Print Assumptions C105_missed.
Print Assumptions C105_nearest.
Print Assumptions C105_fcc.
Print Assumptions C105_bcc.
Print Assumptions C105_chain.
Print Assumptions C105_rock_salt.
Print Assumptions C105_hypercubic.
