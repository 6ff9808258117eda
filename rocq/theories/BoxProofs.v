(** * Boxes of cells *)
From Coq Require Import List ZArith QArith Bool Arith Lia.
From Verif Require Import Np NpFacts LinAlg LinFacts SpecUtils SpecBasis SpatialModel SpecSpatial SpatialProofs SpecStructure StructureModel StructureFacts
  AnalyzeProofs PropAnalyze SpecNeighbors RangeProofs DataModel SpecData DataFacts SpecGrid GridProofs SpecLattice RepeatProofs SpecSeam PropSeam SpecJoin JoinProofs.
Import ListNotations.
Open Scope nat_scope.
Open Scope list_scope.

Section Box.
  Variables (d : nat) (o L : list Z).

  (** The cell [n] moved by one along the axis [k]. *)
  Definition step_to (n : list Z) (k : nat) (s : Z) : list Z := map (fun i => if i =? k then (nth i n 0 + s)%Z else nth i n 0%Z) (seq 0 d).

  Lemma nth_step_to n k s i : i < d -> nth i (step_to n k s) 0%Z = if i =? k then (nth i n 0 + s)%Z else nth i n 0%Z.
  Proof. intro Hi. unfold step_to. rewrite (nth_map_in _ _ _ 0) by (rewrite seq_length; auto). rewrite seq_nth by auto. reflexivity. Qed.

  Lemma step_to_length n k s : length (step_to n k s) = d.
  Proof. unfold step_to. rewrite map_length, seq_length. auto. Qed.

  Lemma step_to_unit n k s : k < d -> Z.abs s = 1%Z -> unit_step d n (step_to n k s).
  Proof.
    intros Hk Hs. exists k. split; auto. rewrite nth_step_to, Nat.eqb_refl by auto. split; [lia|]. intros b Hb Hbk. rewrite nth_step_to by auto.
    rewrite (proj2 (Nat.eqb_neq _ _) Hbk). auto.
  Qed.

  Definition up (n : list Z) k : bool := (nth k n 0 + 1 <? nth k o 0 + nth k L 0)%Z.
  Definition down (n : list Z) k : bool := (nth k o 0 <? nth k n 0)%Z.

  (** The neighbours of [n] in the box. *)
  Definition around (n : list Z) : list (list Z) :=
    flat_map (fun k => (if up n k then [step_to n k 1] else []) ++ (if down n k then [step_to n k (-1)] else [])) (seq 0 d).

  Lemma In_around n m : length m = d -> box d o L n -> In m (around n) <-> box d o L m /\ unit_step d n m.
  Proof.
    intros Hm Hn. unfold around. rewrite in_flat_map. split.
    - intros [k [Hk H]]. apply in_seq in Hk. assert (exists s, Z.abs s = 1%Z /\ m = step_to n k s /\ (nth k o 0 <= nth k n 0 + s < nth k o 0 + nth k L 0)%Z) as [s [Hs [-> Hr]]].
      { specialize (Hn k ltac:(lia)). apply in_app_or in H. destruct H as [H|H].
        - destruct (up n k) eqn:E; [|destruct H]. destruct H as [<-|[]]. apply Z.ltb_lt in E. exists 1%Z. split; auto. split; auto. lia.
        - destruct (down n k) eqn:E; [|destruct H]. destruct H as [<-|[]]. apply Z.ltb_lt in E. exists (-1)%Z. split; auto. split; auto. lia. }
      split; [|apply step_to_unit; auto; lia]. intros i Hi. rewrite nth_step_to by auto. destruct (Nat.eqb_spec i k) as [->|]; auto.
    - intros [Hb [k [Hk [H1 H2]]]]. exists k. split; [apply in_seq; lia|]. pose proof (Hb k Hk) as Hbk. pose proof (Hn k Hk) as Hnk.
      assert (forall s, nth k m 0%Z = (nth k n 0 + s)%Z -> m = step_to n k s) as Es.
      { intros s Hs. apply (list_eq_nth _ _ 0%Z); [rewrite step_to_length; auto|]. intros i Hi. rewrite nth_step_to by lia.
        destruct (Nat.eqb_spec i k) as [->|E]; auto. symmetry. apply H2; auto. lia. }
      apply in_or_app. destruct (Z.eq_dec (nth k m 0%Z) (nth k n 0 + 1)%Z) as [E|E].
      + left. unfold up. rewrite (proj2 (Z.ltb_lt _ _)) by lia. left. symmetry. apply Es. auto.
      + right. unfold down. rewrite (proj2 (Z.ltb_lt _ _)) by lia. left. symmetry. apply Es. lia.
  Qed.

  Lemma around_NoDup n : NoDup (around n).
  Proof.
    unfold around. apply NoDup_flat_map; [apply seq_NoDup| |].
    - intros k Hk. apply in_seq in Hk. assert (step_to n k 1 <> step_to n k (-1)) as H.
      { intro E. apply (f_equal (fun v => nth k v 0%Z)) in E. rewrite !nth_step_to, Nat.eqb_refl in E by lia. lia. }
      destruct (up n k), (down n k); cbn; repeat constructor; cbn; intuition.
    - intros k k' v Hk Hk' Hv Hv'. apply in_seq in Hk. apply in_seq in Hk'.
      assert (forall j, In v ((if up n j then [step_to n j 1] else []) ++ (if down n j then [step_to n j (-1)] else [])) -> exists s, s <> 0%Z /\ v = step_to n j s) as HF.
      { intros j H. apply in_app_or in H. destruct H as [H|H]; [destruct (up n j)|destruct (down n j)]; try destruct H as [<-|[]]; try destruct H; eexists; (split; [|reflexivity]); lia. }
      destruct (HF k Hv) as [s [Hs ->]]. destruct (HF k' Hv') as [s' [Hs' E]].
      destruct (Nat.eq_dec k k') as [|Hne]; auto. exfalso. apply (f_equal (fun v => nth k v 0%Z)) in E. rewrite !nth_step_to, Nat.eqb_refl in E by lia.
      rewrite (proj2 (Nat.eqb_neq _ _) Hne) in E. lia.
  Qed.

  Lemma around_length n : length (around n) = list_sum (map (fun k => (if up n k then 1 else 0) + (if down n k then 1 else 0)) (seq 0 d)).
  Proof.
    unfold around. induction (seq 0 d) as [|k q IH]; cbn [flat_map map list_sum fold_right]; auto. rewrite app_length, IH, app_length. unfold list_sum. destruct (up n k), (down n k); cbn; lia.
  Qed.

  Lemma around_degree n : box d o L n -> degree_at_most d (box d o L) n (length (around n)).
  Proof. intros Hn l Hl1 Hl2. apply NoDup_incl_length; auto. intros m Hm. destruct (Hl2 m Hm) as [H1 [H2 H3]]. apply In_around; auto. Qed.

  Lemma around_at_least n k : box d o L n -> degree_at_most d (box d o L) n k -> length (around n) <= k.
  Proof.
    intros Hn H. apply H; [apply around_NoDup|]. intros m Hm.
    assert (length m = d) as Lm.
    { unfold around in Hm. apply in_flat_map in Hm. destruct Hm as [j [_ Hm]]. apply in_app_or in Hm.
      destruct Hm as [Hm|Hm]; [destruct (up n j)|destruct (down n j)]; try destruct Hm as [<-|[]]; try destruct Hm; apply step_to_length. }
    split; auto. apply In_around; auto.
  Qed.
End Box.

Lemma list_sum_le {A} (f g : A -> nat) l : (forall x, In x l -> f x <= g x) -> list_sum (map f l) <= list_sum (map g l).
Proof. unfold list_sum. induction l as [|x l IH]; intro H; cbn; auto. pose proof (H x (or_introl eq_refl)). specialize (IH (fun y Hy => H y (or_intror Hy))). lia. Qed.

Lemma list_sum_lt {A} (f g : A -> nat) l x0 : (forall x, In x l -> f x <= g x) -> In x0 l -> f x0 < g x0 -> list_sum (map f l) < list_sum (map g l).
Proof.
  unfold list_sum. induction l as [|x l IH]; intros H Hx Hlt; cbn; [destruct Hx|]. pose proof (H x (or_introl eq_refl)).
  destruct Hx as [->|Hx].
  - pose proof (list_sum_le f g l (fun y Hy => H y (or_intror Hy))). unfold list_sum in *. lia.
  - specialize (IH (fun y Hy => H y (or_intror Hy)) Hx Hlt). lia.
Qed.

Lemma degree_mono d C n k k' : degree_at_most d C n k -> k <= k' -> degree_at_most d C n k'.
Proof. intros H Hk l H1 H2. etransitivity; [apply H; auto|auto]. Qed.

Lemma degree_ext d C C' n k : (forall m, length m = d -> C m <-> C' m) -> degree_at_most d C n k -> degree_at_most d C' n k.
Proof. intros E H l H1 H2. apply H; auto. intros m Hm. destruct (H2 m Hm) as [A1 [A2 A3]]. split; auto. split; auto. apply E; auto. Qed.

Lemma box_degree_bound d o L n : box d o L n -> degree_at_most d (box d o L) n (box_degree d L).
Proof.
  intro Hn. eapply degree_mono; [apply around_degree; auto|]. rewrite around_length. apply list_sum_le. intros k Hk. apply in_seq in Hk.
  specialize (Hn k ltac:(lia)). unfold up, down. destruct (Z.ltb_spec (nth k n 0 + 1)%Z (nth k o 0 + nth k L 0)%Z), (Z.ltb_spec (nth k o 0)%Z (nth k n 0)%Z); lia.
Qed.

(** The first cell has fewer neighbours, if some axis has three cells. *)
Lemma box_corner_bound d o L ax : (forall k, k < d -> (1 <= nth k L 0)%Z) -> ax < d -> (3 <= nth ax L 0)%Z ->
  box d o L o /\ degree_at_most d (box d o L) o (box_degree d L - 1) /\ 0 < box_degree d L.
Proof.
  intros HL Hax H3. assert (box d o L o) as Hb by (intros k Hk; specialize (HL k Hk); lia).
  assert (length (around d o L o) < box_degree d L) as Hlt.
  { rewrite around_length. assert (forall k, down o o k = false) as Hd by (intro; unfold down; apply Z.ltb_irrefl).
    apply (list_sum_lt _ _ _ ax); [|apply in_seq; lia|].
    - intros k Hk. apply in_seq in Hk. rewrite Hd. unfold up. destruct (Z.ltb_spec (nth k o 0 + 1)%Z (nth k o 0 + nth k L 0)%Z); lia.
    - rewrite Hd. unfold up. destruct (Z.ltb_spec (nth ax o 0 + 1)%Z (nth ax o 0 + nth ax L 0)%Z); lia. }
  split; auto. split; [|lia]. eapply degree_mono; [apply around_degree; auto|lia].
Qed.

(** A cell with the largest number of neighbours. *)
Lemma box_center d o L : (forall k, k < d -> (1 <= nth k L 0)%Z) -> exists n, length n = d /\ box d o L n /\ box_degree d L <= length (around d o L n).
Proof.
  intro HL. exists (map (fun k => (nth k o 0 + if 3 <=? nth k L 0 then 1 else 0)%Z) (seq 0 d)). set (n := map _ _).
  assert (forall k, k < d -> nth k n 0%Z = (nth k o 0 + if 3 <=? nth k L 0 then 1 else 0)%Z) as Hn.
  { intros k Hk. unfold n. rewrite (nth_map_in _ _ _ 0) by (rewrite seq_length; auto). rewrite seq_nth by auto. reflexivity. }
  split; [unfold n; rewrite map_length, seq_length; auto|]. split.
  - intros k Hk. specialize (HL k Hk). rewrite Hn by auto. destruct (Z.leb_spec 3%Z (nth k L 0)%Z); lia.
  - rewrite around_length. apply list_sum_le. intros k Hk. apply in_seq in Hk. specialize (HL k ltac:(lia)). unfold up, down. rewrite !Hn by lia.
    destruct (Z.leb_spec 3%Z (nth k L 0)%Z).
    + rewrite !(proj2 (Z.ltb_lt _ _)) by lia. lia.
    + rewrite (proj2 (Z.ltb_ge (nth k o 0%Z) _)) by lia. destruct (Z.ltb_spec (nth k o 0 + 0 + 1)%Z (nth k o 0 + nth k L 0)%Z); lia.
Qed.

Lemma resized_degree d ax z L L' : ax < d -> resized d ax z L L' -> (3 <= nth ax L 0)%Z -> (3 <= z)%Z -> box_degree d L' = box_degree d L.
Proof.
  intros Hax Hr H3 Hz. unfold box_degree. f_equal. apply map_ext_in. intros k Hk. apply in_seq in Hk. rewrite Hr by lia. destruct (Nat.eqb_spec k ax) as [->|]; auto. lia.
Qed.

(** Two boxes side by side. *)
Lemma joined_boxes d ax o o' A B L LA LB t : ax < d -> resized d ax A L LA -> resized d ax B L LB -> resized d ax (A + B) L L -> (0 <= A)%Z -> (0 <= B)%Z ->
  (forall k, k < d -> nth k t 0%Z = if k =? ax then A else 0%Z) -> (forall k, k < d -> nth k o 0%Z = nth k o' 0%Z) ->
  forall n, length n = d -> joined_cells d t (box d o LA) (box d o' LB) n <-> box d o L n.
Proof.
  intros Hax HA HB HL HA0 HB0 Ht Ho n Ln. split.
  - intros [H|[m [Lm [H Hs]]]] k Hk; pose proof (H k Hk) as Hk'; rewrite (HL k Hk).
    + rewrite HA in Hk' by auto. destruct (k =? ax); lia.
    + rewrite HB in Hk' by auto. rewrite Hs, Ht by auto. rewrite <- Ho in Hk' by auto. destruct (k =? ax); lia.
  - intro H. destruct (Z_lt_ge_dec (nth ax n 0%Z) (nth ax o 0 + A)%Z) as [G|G].
    + left. intros k Hk. specialize (H k Hk). rewrite HA by auto. rewrite HL in H by auto. destruct (Nat.eqb_spec k ax) as [E|E]; [rewrite E in *|]; lia.
    + right. exists (map (fun k => (nth k n 0 - nth k t 0)%Z) (seq 0 d)). split; [rewrite map_length, seq_length; auto|].
      assert (forall k, k < d -> nth k (map (fun k => (nth k n 0 - nth k t 0)%Z) (seq 0 d)) 0%Z = (nth k n 0 - nth k t 0)%Z) as Hm.
      { intros k Hk. rewrite (nth_map_in _ _ _ 0) by (rewrite seq_length; auto). rewrite seq_nth by auto. reflexivity. }
      split; [|intros k Hk; rewrite Hm by auto; lia]. intros k Hk. rewrite Hm, Ht, HB by auto. specialize (H k Hk). rewrite HL in H by auto. rewrite <- Ho by auto.
      destruct (Nat.eqb_spec k ax) as [E|E]; [rewrite E in *|]; lia.
Qed.

Lemma joined_boxes_left d ax o o' A B L LA LB t : ax < d -> resized d ax A L LA -> resized d ax B L LB -> resized d ax (A + B) L L -> (0 <= A)%Z -> (0 <= B)%Z ->
  (forall k, k < d -> nth k t 0%Z = if k =? ax then (- B)%Z else 0%Z) -> (forall k, k < d -> nth k o' 0%Z = if k =? ax then (nth k o 0 - B)%Z else nth k o 0%Z) ->
  forall n, length n = d -> joined_cells d t (box d o LA) (box d o LB) n <-> box d o' L n.
Proof.
  intros Hax HA HB HL HA0 HB0 Ht Ho n Ln. split.
  - intros [H|[m [Lm [H Hs]]]] k Hk; pose proof (H k Hk) as Hk'; rewrite (HL k Hk), (Ho k Hk).
    + rewrite HA in Hk' by auto. destruct (k =? ax); lia.
    + rewrite HB in Hk' by auto. rewrite Hs, Ht by auto. destruct (k =? ax); lia.
  - intro H. destruct (Z_lt_ge_dec (nth ax n 0%Z) (nth ax o 0%Z)) as [G|G].
    + right. exists (map (fun k => (nth k n 0 - nth k t 0)%Z) (seq 0 d)). split; [rewrite map_length, seq_length; auto|].
      assert (forall k, k < d -> nth k (map (fun k => (nth k n 0 - nth k t 0)%Z) (seq 0 d)) 0%Z = (nth k n 0 - nth k t 0)%Z) as Hm.
      { intros k Hk. rewrite (nth_map_in _ _ _ 0) by (rewrite seq_length; auto). rewrite seq_nth by auto. reflexivity. }
      split; [|intros k Hk; rewrite Hm by auto; lia]. intros k Hk. rewrite Hm, Ht, HB by auto. specialize (H k Hk). rewrite HL, Ho in H by auto.
      destruct (Nat.eqb_spec k ax) as [E|E]; [rewrite E in *|]; lia.
    + left. intros k Hk. specialize (H k Hk). rewrite HA by auto. rewrite HL, Ho in H by auto. destruct (Nat.eqb_spec k ax) as [E|E]; [rewrite E in *|]; lia.
Qed.

Lemma box_extent d o L ax I : (forall k, k < d -> (1 <= nth k L 0)%Z) -> ax < d ->
  (forall s, In s I <-> exists n, s = n ++ [0%Z] /\ length n = d /\ box d o L n) -> extent I ax (nth ax L 0%Z).
Proof.
  intros HL Hax HI. set (c := map (fun k => nth k o 0%Z) (seq 0 d)).
  assert (forall k, k < d -> nth k c 0%Z = nth k o 0%Z) as Hc.
  { intros k Hk. unfold c. rewrite (nth_map_in _ _ _ 0) by (rewrite seq_length; auto). rewrite seq_nth by auto. reflexivity. }
  assert (length c = d) as Lc by (unfold c; rewrite map_length, seq_length; auto).
  set (c' := step_to d c ax (nth ax L 0 - 1)%Z). assert (length c' = d) as Lc' by apply step_to_length.
  exists (nth ax o 0%Z), (nth ax o 0 + nth ax L 0 - 1)%Z. split; [lia|]. split; [|split].
  - exists (c ++ [0%Z]). split; [|rewrite app_nth1 by lia; auto]. apply HI. exists c. split; auto. split; auto. intros k Hk. rewrite Hc by auto. specialize (HL k Hk). lia.
  - exists (c' ++ [0%Z]). split.
    + apply HI. exists c'. split; auto. split; auto. intros k Hk. unfold c'. rewrite nth_step_to by auto. rewrite Hc by auto. specialize (HL k Hk).
      destruct (Nat.eqb_spec k ax) as [->|]; lia.
    + rewrite app_nth1 by lia. unfold c'. rewrite nth_step_to, Nat.eqb_refl, Hc by auto. lia.
  - intros s Hs. apply HI in Hs. destruct Hs as [n [-> [Ln Hn]]]. rewrite app_nth1 by lia. specialize (Hn ax Hax). lia.
Qed.

Lemma grid_data_ext d a za r0 C C' m dt : (forall n, length n = d -> C n <-> C' n) -> grid_data d a za r0 C m dt -> grid_data d a za r0 C' m dt.
Proof.
  intros E [H1 H2 H3 H4 H5 H6 H7 H8 H9 H10 H11]. constructor; auto. intro s. rewrite H8. split; intros [n [A1 [A2 A3]]]; exists n; (split; [auto|]); (split; [auto|]); apply E; auto.
Qed.

(** The rows have a column for every neighbour. *)
Lemma box_columns d a za r0 o L m dt : (forall k, k < d -> (1 <= nth k L 0)%Z) -> grid_data d a za r0 (box d o L) m dt -> box_degree d L <= m.
Proof.
  intros HL G. destruct (box_center d o L HL) as [n [Ln [Hn Hd]]]. etransitivity; [exact Hd|]. apply around_at_least; auto.
  destruct (grid_site _ _ _ _ _ _ _ G n Ln Hn) as [i [Hi Ei]]. destruct (gd_links _ _ _ _ _ _ _ G i Hi) as [_ I1].
  intros l Hl1 Hl2. rewrite <- (gd_cols _ _ _ _ _ _ _ G). etransitivity; [|apply (links_le dt i)].
  assert (forall v, In v l -> exists j, j < nsites dt /\ nth j (d_indices dt) [] = v ++ [0%Z]) as Hs.
  { intros v Hv. destruct (Hl2 v Hv) as [A1 [A2 _]]. apply (grid_site _ _ _ _ _ _ _ G); auto. }
  assert (forall v, In v l -> In (v ++ [0%Z]) (map (fun lk => nth (fst lk) (d_indices dt) []) (links dt i))) as Hin.
  { intros v Hv. destruct (Hs v Hv) as [j [Hj Ej]]. destruct (Hl2 v Hv) as [A1 [A2 A3]]. apply in_map_iff. exists (j, Fin za). split; auto. apply I1. split; auto. split; auto. rewrite Ei, Ej.
    eapply unit_step_ext; [| |exact A3]; intros k Hk; rewrite app_nth1 by lia; auto. }
  rewrite <- (map_length (fun v => v ++ [0%Z]) l), <- (map_length (fun lk => nth (fst lk) (d_indices dt) []) (links dt i)). apply NoDup_incl_length.
  - apply NoDup_map_inj; auto. intros x y _ _ E. apply app_inj_tail in E. apply E.
  - intros v Hv. apply in_map_iff in Hv. destruct Hv as [x [<- Hx]]. auto.
Qed.
