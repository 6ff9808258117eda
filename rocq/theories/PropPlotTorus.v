(** * Property C98: plots of periodic boxes of a hypercubic lattice (lattpy/lattice.py: plot, set_periodic) *)
From Coq Require Import String List ZArith QArith Qabs Bool Arith Lia Lqa Permutation Sorting.Sorted.
From Verif Require Import Np NpFacts LinAlg LinFacts UtilsModel SpecUtils SpecBasis AtomModel BasisModel BasisProofs PropBasis SpatialModel SpecSpatial
  NeighborCellProofs SpecStructure ShapeModel StructureModel StructureFacts StructureProofs KDBrute RoundFacts AnalyzeProofs DataModel SpecData DataFacts DataProofs PropData PropDataMap LatticeModel LatticeExamples
  SpecGrid GridProofs SpecJoin SpecTorus PropMinDist PropStructure PropJoin PropTorus IdentityModel PathModel PropPath PropLimits RangeProofs PlotModel SpecPlot PropPlot.
Import ListNotations.
Open Scope nat_scope.
Open Scope list_scope.

(** [q] is [p] moved by [t] along axis [k]. *)
Definition moved_along (k : nat) (t : Q) (p q : list Q) : Prop :=
  length q = length p /\ forall b, b < length p -> (nth b q 0 == nth b p 0 + (if (b =? k)%nat then t else 0))%Q.

(** One step along axis [k] from a cell. *)
Definition next_cell (d k : nat) (s : Z) (n m : list Z) : Prop := forall b, b < d -> nth b m 0%Z = (nth b n 0 + (if (b =? k)%nat then s else 0))%Z.

(** A line of the plot of a periodic box: a whole step to a site of the box in black, or the fraction [pscale] of a step out of
    the box in grey. *)
Definition torus_line (d : nat) (a pscale : Q) (C : list Z -> Prop) (axes : list nat) (dt : data) (s : line) : Prop :=
  exists i k sg q, i < nsites dt /\ k < d /\ (sg = 1 \/ sg = -1)%Z /\ ln_start s = on_page (place_of dt i) /\ veq (ln_end s) (on_page q) /\
    ((ln_color s = VStr "k" /\ moved_along k (inject_Z sg * a)%Q (place_of dt i) q /\
      exists j, j < nsites dt /\ next_cell d k sg (nth i (d_indices dt) []) (nth j (d_indices dt) [])) \/
     (ln_color s = VStr "0.5" /\ moved_along k (pscale * (inject_Z sg * a))%Q (place_of dt i) q /\
      forall m, next_cell d k sg (nth i (d_indices dt) []) m -> ~ C m)).

Lemma unit_step_next d n m : unit_step d n m -> exists k sg, k < d /\ (sg = 1 \/ sg = -1)%Z /\ next_cell d k sg n m.
Proof.
  intros [k [Hk [Ha Hb]]]. exists k, (nth k m 0 - nth k n 0)%Z. split; auto. split; [lia|]. intros b Hlt.
  destruct (Nat.eqb_spec b k) as [->|Hne]; [lia|]. rewrite (Hb b Hlt Hne). lia.
Qed.

(** The sites of [dt] are the cells of a box, at their positions. *)
Record on_grid (d : nat) (a : Q) (r0 : list Q) (o L : list Z) (dt : data) : Prop := {
  og_dim : d_dim dt = d;
  og_cells : forall s, In s (d_indices dt) <-> exists n, s = n ++ [0%Z] /\ length n = d /\ box d o L n;
  og_positions : forall i, i < nsites dt -> length (place_of dt i) = d /\
    forall k, k < d -> (nth k (place_of dt i) 0 == nth k r0 0 + a * inject_Z (nth k (nth i (d_indices dt) []) 0%Z))%Q }.

Section Torus.
  Variables (d : nat) (a : Q) (za : Z) (r0 : list Q) (o L : list Z) (axes : list nat) (dt : data) (V : list (list Q)).
  Hypothesis HV : cubic_lattice d V a.
  Hypothesis G : on_grid d a r0 o L dt.
  Hypothesis T : torus_data d za L axes dt.

  Notation idx i := (nth i (d_indices dt) []).

  Lemma site_in_box i : i < nsites dt -> box d o L (idx i) /\ last (idx i) 0%Z = 0%Z.
  Proof.
    intro Hi. destruct (proj1 (og_cells _ _ _ _ _ _ G (idx i)) (nth_In _ _ Hi)) as [n [-> [Ln Hn]]]. split; [|apply last_last].
    intros k Hk. rewrite app_nth1 by lia. apply Hn. auto.
  Qed.

  Lemma box_site m : box d o L m -> exists j, j < nsites dt /\ forall b, b < d -> nth b (idx j) 0%Z = nth b m 0%Z.
  Proof.
    intro Hm. set (n := map (fun k => nth k m 0%Z) (seq 0 d)).
    assert (length n = d) as Ln by (unfold n; rewrite map_length, seq_length; auto).
    assert (forall b, b < d -> nth b n 0%Z = nth b m 0%Z) as Hn.
    { intros b Hb. unfold n. rewrite (nth_map_in _ _ _ 0) by (rewrite seq_length; auto). rewrite seq_nth by auto. reflexivity. }
    assert (In (n ++ [0%Z]) (d_indices dt)) as Hin.
    { apply (og_cells _ _ _ _ _ _ G). exists n. split; auto. split; auto. intros k Hk. rewrite Hn by auto. apply Hm. auto. }
    destruct (In_nth _ _ [] Hin) as [j [Hj Ej]]. exists j. split; auto. intros b Hb. rewrite Ej, app_nth1 by lia. auto.
  Qed.

  Lemma step_moved i j k sg : i < nsites dt -> j < nsites dt -> next_cell d k sg (idx i) (idx j) -> moved_along k (inject_Z sg * a)%Q (place_of dt i) (place_of dt j).
  Proof.
    intros Hi Hj H. destruct (og_positions _ _ _ _ _ _ G i Hi) as [Li Pi], (og_positions _ _ _ _ _ _ G j Hj) as [Lj Pj]. split; [congruence|].
    rewrite Li. intros b Hb. rewrite Pj, Pi, (H b Hb) by auto. rewrite inject_Z_plus. destruct (b =? k); [ring|change (inject_Z 0) with 0%Q; ring].
  Qed.

  (** The cell of the image of a periodic neighbour. *)
  Definition image_cell (s : slot) : list Z := map (fun b => (nth b (idx (s_nbr s)) 0 - nth b (s_nvec s) 0)%Z) (seq 0 d).

  Lemma image_nth s b : b < d -> nth b (image_cell s) 0%Z = (nth b (idx (s_nbr s)) 0 - nth b (s_nvec s) 0)%Z.
  Proof. intro H. unfold image_cell. rewrite (nth_map_in _ _ _ 0) by (rewrite seq_length; auto). rewrite seq_nth by auto. reflexivity. Qed.

  Lemma slot_site i s : i < nsites dt -> In s (slots dt i) -> s_nbr s < nsites dt.
  Proof. intros Hi Hs. apply (proj1 (td_neighbors _ _ _ _ _ T i (s_nbr s) Hi)). apply in_map. auto. Qed.

  Lemma image_step i s : i < nsites dt -> In s (slots dt i) -> s_per s = true ->
    (exists k sg, k < d /\ (sg = 1 \/ sg = -1)%Z /\ next_cell d k sg (idx i) (image_cell s)) /\ ~ box d o L (image_cell s).
  Proof.
    intros Hi Hs Hp. destruct (td_periodic _ _ _ _ _ T i s Hi Hs Hp) as (k & Hk & _ & Ln & Habs & _ & _ & _ & c & Hc & [b0 [Hb0 [H1 H2]]]).
    pose proof (site_in_box _ (slot_site _ _ Hi Hs)) as [HB _]. split.
    - apply unit_step_next. exists b0. split; auto. rewrite image_nth by auto. split; [specialize (Hc b0 Hb0); lia|].
      intros b Hb Hne. rewrite image_nth by auto. specialize (Hc b Hb). specialize (H2 b Hb Hne). lia.
    - intro H. specialize (H k Hk). specialize (HB k Hk). rewrite image_nth in H by auto. lia.
  Qed.

  Lemma image_moved i s k sg pscale : i < nsites dt -> In s (slots dt i) -> next_cell d k sg (idx i) (image_cell s) ->
    moved_along k (pscale * (inject_Z sg * a))%Q (place_of dt i) (part_way pscale (place_of dt i) (lattice_point d V (place_of dt (s_nbr s)) (map Z.opp (s_nvec s)))).
  Proof.
    intros Hi Hs Hn. destruct (og_positions _ _ _ _ _ _ G i Hi) as [Li Pi], (og_positions _ _ _ _ _ _ G _ (slot_site _ _ Hi Hs)) as [_ Pj].
    split; [unfold part_way; rewrite map_length, seq_length; auto|]. intros b Hb. unfold part_way.
    rewrite (nth_map_in _ _ _ 0) by (rewrite seq_length; auto). rewrite seq_nth by auto. cbn [Nat.add]. rewrite Li in Hb.
    rewrite nth_lattice_point by auto. rewrite (row_sum d V a HV) by auto. rewrite Pi, Pj by auto. assert (nth b (map Z.opp (s_nvec s)) 0%Z = - nth b (s_nvec s) 0)%Z as -> by exact (map_nth Z.opp (s_nvec s) 0%Z b).
    specialize (Hn b Hb). rewrite image_nth in Hn by auto.
    replace (nth b (idx (s_nbr s)) 0%Z) with (nth b (idx i) 0 + (if (b =? k)%nat then sg else 0) + nth b (s_nvec s) 0)%Z by lia.
    rewrite !inject_Z_plus, inject_Z_opp. destruct (b =? k); [ring|change (inject_Z 0) with 0%Q; ring].
  Qed.

  Lemma regular_step i j : i < nsites dt -> In j (map fst (regular_links dt i)) -> j < nsites dt /\ unit_step d (idx i) (idx j).
  Proof.
    intros Hi Hj. unfold regular_links in Hj. rewrite map_map in Hj. apply in_map_iff in Hj. destruct Hj as [s [<- Hs]]. apply filter_In in Hs.
    destruct Hs as [Hs Hp]. cbn [fst]. split; [eapply slot_site; eauto|]. apply (td_regular _ _ _ _ _ T i s Hi Hs). destruct (s_per s); auto; discriminate.
  Qed.

  Lemma step_regular i j : i < nsites dt -> j < nsites dt -> unit_step d (idx i) (idx j) -> In j (map fst (regular_links dt i)).
  Proof.
    intros Hi Hj H. assert (In j (map s_nbr (slots dt i))) as Hin.
    { apply (td_neighbors _ _ _ _ _ T i j Hi). split; auto. destruct (unit_step_next _ _ _ H) as [k [sg [Hk [Hs Hn]]]]. exists k, sg. split; auto. split; auto. split.
      - left. specialize (Hn k Hk). rewrite Nat.eqb_refl in Hn. lia.
      - intros b Hb Hne. specialize (Hn b Hb). destruct (Nat.eqb_spec b k); [congruence|]. lia. }
    apply in_map_iff in Hin. destruct Hin as [s [E Hs]]. unfold regular_links. rewrite map_map. apply in_map_iff. exists s. split; auto. apply filter_In. split; auto.
    rewrite <- E in H. apply (td_regular _ _ _ _ _ T i s Hi Hs) in H. rewrite H. reflexivity.
  Qed.

  (** The slot through which a step out of the box along a periodic axis goes. *)
  Lemma crossing_slot i k sg m : i < nsites dt -> In k axes -> k < d -> (3 <= nth k L 0)%Z -> (sg = 1 \/ sg = -1)%Z ->
    next_cell d k sg (idx i) m -> ~ box d o L m -> exists s, In s (slots dt i) /\ s_per s = true /\ next_cell d k sg (idx i) (image_cell s).
  Proof.
    intros Hi Hk Hkd HL Hsg Hm Hout. destruct (site_in_box i Hi) as [HB _].
    assert (~ (nth k o 0 <= nth k m 0 < nth k o 0 + nth k L 0)%Z) as Hout'.
    { intro H. apply Hout. intros b Hb. destruct (Nat.eq_dec b k) as [->|Hne]; [exact H|]. specialize (Hm b Hb). rewrite (proj2 (Nat.eqb_neq b k) Hne) in Hm. specialize (HB b Hb). lia. }
    pose proof (Hm k Hkd) as Hmk. rewrite Nat.eqb_refl in Hmk. pose proof (HB k Hkd) as HBk.
    set (w := map (fun b => (nth b (idx i) 0 + (if (b =? k)%nat then sg - sg * nth k L 0 else 0))%Z) (seq 0 d)).
    assert (forall b, b < d -> nth b w 0%Z = (nth b (idx i) 0 + (if (b =? k)%nat then sg - sg * nth k L 0 else 0))%Z) as Hw.
    { intros b Hb. unfold w. rewrite (nth_map_in _ _ _ 0) by (rewrite seq_length; auto). rewrite seq_nth by auto. reflexivity. }
    destruct (box_site w) as [j [Hj Ej]].
    { intros b Hb. rewrite Hw by auto. specialize (HB b Hb). destruct (Nat.eqb_spec b k) as [->|]; [|lia]. destruct Hsg as [-> | ->]; lia. }
    assert (forall b, b < d -> nth b (idx j) 0%Z = (nth b (idx i) 0 + (if (b =? k)%nat then sg - sg * nth k L 0 else 0))%Z) as Hjw by (intros; rewrite Ej, Hw by auto; auto).
    pose proof (Hjw k Hkd) as Hjk. rewrite Nat.eqb_refl in Hjk.
    assert (In j (map s_nbr (slots dt i))) as Hin.
    { apply (td_neighbors _ _ _ _ _ T i j Hi). split; auto. exists k, sg. split; auto. split; auto. split.
      - right. split; auto. exists (- sg)%Z. rewrite Hjk. ring.
      - intros b Hb Hne. rewrite Hjw by auto. destruct (Nat.eqb_spec b k); [congruence|lia]. }
    apply in_map_iff in Hin. destruct Hin as [s [E Hs]]. exists s. split; auto.
    assert (s_per s = true) as Hp.
    { destruct (s_per s) eqn:Ep; auto. apply (td_regular _ _ _ _ _ T i s Hi Hs) in Ep. rewrite E in Ep. destruct Ep as [b0 [Hb0 [H1 _]]].
      rewrite (Hjw b0 Hb0) in H1. destruct (Nat.eqb_spec b0 k) as [->|]; destruct Hsg as [-> | ->]; lia. }
    split; auto. destruct (td_periodic _ _ _ _ _ T i s Hi Hs Hp) as (k' & Hk' & _ & Ln & Habs & Hz & _ & _ & c & Hc & [b0 [Hb0 [H1 H2]]]).
    rewrite E in H1, H2. assert (k' = k) as ->.
    { destruct (Nat.eq_dec k' k) as [|Hne]; auto. exfalso. pose proof (Hc k Hkd) as C1. rewrite (Hz k Hkd) in C1 by auto.
      destruct (Nat.eq_dec b0 k) as [->|Hb]; [|specialize (H2 k Hkd ltac:(auto))]; destruct Hsg as [-> | ->]; lia. }
    pose proof (Hc k Hkd) as C1. assert (nth k (s_nvec s) 0%Z = (- sg * nth k L 0)%Z) as En.
    { destruct (Nat.eq_dec b0 k) as [->|Hb]; [|specialize (H2 k Hkd ltac:(auto))]; destruct Hsg as [-> | ->]; lia. }
    intros b Hb. rewrite image_nth, E, Hjw by auto. destruct (Nat.eqb_spec b k) as [->|Hne]; [rewrite En; ring|rewrite (Hz b Hb Hne); ring].
  Qed.
End Torus.

(** The plot of a box of a hypercubic lattice with periodic axes: every line is a step to a neighbouring site or a grey part of
    a step out of the box; every step inside the box is drawn once from its lower site, and every step out of the box along a
    periodic axis is drawn. *)
Theorem C98_torus :
  forall l d a za r0 o L axes dt pscale at_,
    valid_basis (lt_basis l) -> b_dim (lt_basis l) = d -> d <= 3 -> cubic_lattice d (b_mat (lt_basis l)) a ->
    st_atoms (lt_structure l) = [at_] -> atom_getattr at_ "color" <> None -> atom_getattr at_ "radius" <> None -> atom_getattr at_ "name" <> None ->
    lt_data l = Some dt -> on_grid d a r0 o L dt -> torus_data d za L axes dt -> (forall k, In k axes -> k < d /\ (3 <= nth k L 0)%Z) ->
    exists discs lines, plot l true pscale [] = Ok (discs, lines) /\
      (forall s, In s lines -> torus_line d a pscale (box d o L) axes dt s) /\
      (forall i j k sg, i < nsites dt -> j < nsites dt -> k < d -> (sg = 1 \/ sg = -1)%Z -> next_cell d k sg (nth i (d_indices dt) []) (nth j (d_indices dt) []) -> i < j ->
         exists s, In s lines /\ drawn (place_of dt i) (place_of dt j) (VStr "k") s) /\
      (forall i k sg m, i < nsites dt -> In k axes -> (sg = 1 \/ sg = -1)%Z -> next_cell d k sg (nth i (d_indices dt) []) m -> ~ box d o L m ->
         exists s q, In s lines /\ moved_along k (pscale * (inject_Z sg * a))%Q (place_of dt i) q /\ drawn (place_of dt i) q (VStr "0.5") s).
Proof.
  intros l d a za r0 o L axes dt pscale at_ Hb Ed Hd HV Eat A1 A2 A3 Edt G T Hax. pose proof (td_wf _ _ _ _ _ T) as W.
  destruct (C98_plot l dt true pscale [] Hb ltac:(lia) Edt W) as (discs & lines & L1 & L2 & Eplot & _ & HP & H1 & H2).
  - rewrite Ed. apply (og_dim _ _ _ _ _ _ G).
  - intros i Hi. rewrite Eat. cbn. apply (og_cells _ _ _ _ _ _ G) in Hi. destruct Hi as [n [-> _]]. rewrite last_last. lia.
  - intros x Hx. rewrite Eat in Hx. destruct Hx as [<-|[]]. auto.
  - intros e [].
  - rewrite Ed in *. cbv iota in H2. exists discs, lines. split; auto.
    assert (forall c i j, pair_color (length (st_atoms (lt_structure l))) (VStr "k") [] i j c -> c = VStr "k") as Hcol.
    { intros c i j [[_ ->]|(l1 & e & l2 & E & _)]; auto. destruct l1; discriminate. }
    assert (forall (A B : Type) (R : A -> B -> Prop) u v, Forall2 R u v -> (forall y, In y v -> exists x, In x u /\ R x y) /\ (forall x, In x u -> exists y, In y v /\ R x y)) as F2.
    { clear. intros A B R u v. induction 1 as [|x y u v Hxy _ [I1 I2]]; [split; intros ? []|]. split.
      - intros z [<-|Hz]; [exists x; split; [left|]; auto|]. destruct (I1 z Hz) as [x' [? ?]]. exists x'. split; [right|]; auto.
      - intros z [<-|Hz]; [exists y; split; [left|]; auto|]. destruct (I2 z Hz) as [y' [? ?]]. exists y'. split; [right|]; auto. }
    destruct (F2 _ _ _ _ _ H1) as [B1 B2], (F2 _ _ _ _ _ H2) as [X1 X2]. clear F2.
    assert (forall i j, In (i, j) (bonds_up dt) <-> i < j /\ i < nsites dt /\ In j (map fst (regular_links dt i))) as Hbonds.
    { intros i j. unfold bonds_up. rewrite in_flat_map. split.
      - intros [k [Hk H]]. apply in_seq in Hk. apply in_map_iff in H. destruct H as [j' [E H]]. injection E as -> ->. apply filter_In in H.
        destruct H as [K1 K2]. apply Nat.ltb_lt in K2. split; auto. split; auto. lia.
      - intros [K1 [K2 K3]]. exists i. split; [apply in_seq; lia|]. apply in_map. apply filter_In. split; auto. apply Nat.ltb_lt. auto. }
    assert (forall i s, In (i, s) (crossings dt) <-> i < nsites dt /\ In s (slots dt i) /\ s_per s = true) as Hcross.
    { intros i s. unfold crossings. rewrite in_flat_map. split.
      - intros [k [Hk H]]. apply in_seq in Hk. apply in_map_iff in H. destruct H as [s' [E H]]. injection E as -> ->. apply filter_In in H. destruct H. split; [lia|]. auto.
      - intros [K1 [K2 K3]]. exists i. split; [apply in_seq; lia|]. apply in_map. apply filter_In. auto. }
    split; [|split].
    + intros s Hs. apply (Permutation_in _ HP) in Hs. apply in_app_or in Hs. destruct Hs as [Hs|Hs].
      * destruct (B1 s Hs) as [[i j] [Hij [c [Hc [D1 [D2 D3]]]]]]. cbn [fst snd] in *. apply Hbonds in Hij. destruct Hij as [_ [Hi Hj]].
        destruct (regular_step d za L axes dt T i j Hi Hj) as [Hjn Hu]. destruct (unit_step_next _ _ _ Hu) as [k [sg [Hk [Hsg Hn]]]].
        exists i, k, sg, (place_of dt j). split; auto. split; auto. split; auto. split; auto. split; auto. left.
        split; [rewrite D3; exact (Hcol _ _ _ Hc)|]. split; [eapply step_moved; eauto|]. exists j. auto.
      * destruct (X1 s Hs) as [[i sl] [Hij [D1 [D2 D3]]]]. cbn [fst snd] in *. apply Hcross in Hij. destruct Hij as [Hi [Hsl Hp]].
        destruct (image_step d a za r0 o L axes dt G T i sl Hi Hsl Hp) as [[k [sg [Hk [Hsg Hn]]]] Hout].
        eexists i, k, sg, _. split; auto. split; auto. split; auto. split; [exact D1|]. split; [exact D2|]. right. split; auto.
        split; [eapply image_moved; eauto|]. intros m Hm HB. apply Hout. intros b Hb'. rewrite (Hn b Hb'), <- (Hm b Hb'). apply HB. auto.
    + intros i j k sg Hi Hj Hk Hsg Hn Hlt. destruct (B2 (i, j)) as [s [Hs [c [Hc D]]]].
      { apply Hbonds. split; auto. split; auto. eapply step_regular; eauto. exists k. split; auto. pose proof (Hn k Hk) as E. rewrite Nat.eqb_refl in E.
        split; [lia|]. intros b Hb' Hne. specialize (Hn b Hb'). destruct (Nat.eqb_spec b k); [congruence|lia]. }
      exists s. split; [apply (Permutation_in _ (Permutation_sym HP)), in_or_app; auto|]. rewrite (Hcol _ _ _ Hc) in D. exact D.
    + intros i k sg m Hi Hk Hsg Hm Hout. destruct (Hax k Hk) as [Hkd H3].
      destruct (crossing_slot d a za r0 o L axes dt G T i k sg m Hi Hk Hkd H3 Hsg Hm Hout) as [sl [Hsl [Hp Hn]]].
      destruct (X2 (i, sl)) as [s [Hs D]]; [apply Hcross; auto|]. eexists s, _.
      split; [apply (Permutation_in _ (Permutation_sym HP)), in_or_app; auto|]. split; [|exact D]. cbn [fst snd]. eapply image_moved; eauto.
Qed.

(** The same after [set_periodic], for a box that is built without periodic axes. *)
Corollary C98_set_periodic :
  forall query argsort s l d a za r0 o L m axes dt pscale at_,
    correct_tree query -> is_argsort dleb argsort ->
    grid_lattice d a za r0 (box d o L) m l -> lt_data l = Some dt -> lt_shape l <> None ->
    in_step s -> st_positions s = [r0] -> st_connections s = Some [[1]] -> analyze query s = (lt_structure l, Ok tt) ->
    rounds_to_micro (a * a)%Q za -> (6 <= za)%Z -> (forall k, k < d -> (1 <= nth k L 0)%Z) ->
    NoDup axes -> axes <> [] -> (forall k, In k axes -> k < d /\ (3 <= nth k L 0)%Z) ->
    d <= 3 -> st_atoms (lt_structure l) = [at_] -> atom_getattr at_ "color" <> None -> atom_getattr at_ "radius" <> None -> atom_getattr at_ "name" <> None ->
    exists l' dt' discs lines, set_periodic query argsort l (AxList axes) = (l', Ok tt) /\ lt_data l' = Some dt' /\ d_indices dt' = d_indices dt /\
      plot l' true pscale [] = Ok (discs, lines) /\
      (forall s, In s lines -> torus_line d a pscale (box d o L) axes dt' s) /\
      (forall i j k sg, i < nsites dt' -> j < nsites dt' -> k < d -> (sg = 1 \/ sg = -1)%Z -> next_cell d k sg (nth i (d_indices dt') []) (nth j (d_indices dt') []) -> i < j ->
         exists s, In s lines /\ drawn (place_of dt' i) (place_of dt' j) (VStr "k") s) /\
      (forall i k sg m, i < nsites dt' -> In k axes -> (sg = 1 \/ sg = -1)%Z -> next_cell d k sg (nth i (d_indices dt') []) m -> ~ box d o L m ->
         exists s q, In s lines /\ moved_along k (pscale * (inject_Z sg * a))%Q (place_of dt' i) q /\ drawn (place_of dt' i) q (VStr "0.5") s).
Proof.
  intros query argsort s l d a za r0 o L m axes dt pscale at_ Hq Harg GL Edt Hshape Hs ER Ec Ha Hza H6 HL HN Hne Hax Hd Eat A1 A2 A3.
  destruct (C85_torus query argsort s l d a za r0 o L m axes dt Hq Harg GL Edt Hshape Hs ER Ec Ha Hza H6 HL HN Hne Hax)
    as (l' & dt' & Eset & F1 & _ & _ & _ & F5 & F6 & F7 & F8 & _).
  destruct GL as [B HV _ [dt1 [Edt1 G]]]. rewrite Edt in Edt1. injection Edt1 as <-.
  assert (lt_basis l' = lt_basis l) as Eb by (unfold lt_basis; rewrite F1; reflexivity).
  assert (1 <= d) as Hd1 by (destruct axes as [|k ax]; [congruence|]; destruct (Hax k (or_introl eq_refl)); lia).
  assert (on_grid d a r0 o L dt') as OG.
  { assert (nsites dt' = nsites dt) as En by (unfold nsites; rewrite F6; reflexivity). constructor.
    - destruct (gd_free _ _ _ _ _ _ _ G) as [i [_ [Hi _]]]. destruct (gd_positions _ _ _ _ _ _ _ G i Hi) as [Hl _].
      destruct (wf_positions _ (wf_c _ (td_wf _ _ _ _ _ F8))) as [Lp Hp]. rewrite <- Hl, <- F7. symmetry. apply Hp, nth_In. unfold vec in *. lia.
    - intro x. rewrite F6. apply (gd_cells _ _ _ _ _ _ _ G).
    - intros i Hi. rewrite En in Hi. unfold place_of. rewrite F6, F7. apply (gd_positions _ _ _ _ _ _ _ G i Hi). }
  rewrite <- F1 in Eat. rewrite <- Eb in HV. pose proof (bt_dim _ _ B) as Hbd. pose proof (bt_basis _ _ B) as Hvb. rewrite <- Eb in Hbd, Hvb.
  destruct (C98_torus l' d a za r0 o L axes dt' pscale at_ Hvb Hbd Hd HV Eat A1 A2 A3 F5 OG F8 Hax) as (discs & lines & E & R1 & R2 & R3).
  exists l', dt', discs, lines. auto 10.
Qed.

(** Three by four sites, the second axis periodic: 17 bonds and six grey lines of half a step; the lines at the first site. *)
Example C98_torus_example :
  match torus34 (AxList [1]) with
  | Ok l => match plot l true (1#2) [] with
            | Ok (discs, lines) => map (fun D => length (dt_points D)) discs = [12] /\
                length (filter (fun s => match ln_color s with VStr c => String.eqb c "k" | _ => false end) lines) = 17 /\
                length (filter (fun s => match ln_color s with VStr c => String.eqb c "0.5" | _ => false end) lines) = 6 /\
                map (fun s => (map Qred (ln_end s), ln_color s)) (filter (fun s => veqb (ln_start s) [0; 0]%Q) lines) =
                  [([0; 1]%Q, VStr "k"); ([1; 0]%Q, VStr "k"); ([0; -1#2]%Q, VStr "0.5")]
            | Raise _ => False
            end
  | Raise _ => False
  end.
Proof. vm_compute. repeat split; reflexivity. Qed.

Print Assumptions C98_torus.
Print Assumptions C98_set_periodic.
Print Assumptions C98_torus_example.
