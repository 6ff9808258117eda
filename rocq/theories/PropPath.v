(** * Properties of lattpy/disptools.py (C63, C69) and of the colours in lattpy/plotting.py (C65) *)
From Coq Require Import String List ZArith QArith Qround Bool Arith Lia Lqa DecimalNat DecimalString.
From Verif Require Import Np NpFacts LinAlg LinFacts SpecUtils SpecData UtilsModel UtilsProofs SpecBasis StructureFacts PathModel.
Import ListNotations.
Open Scope nat_scope.
Open Scope list_scope.

(** ** C63: dispersion paths *)

(** The paths that can be made: points are added, or the first one is added again. *)
Inductive reachable : path -> Prop :=
| rp_new dim : reachable (new_path dim)
| rp_add p pt name : reachable p -> reachable (add p pt name)
| rp_cycle p p' : reachable p -> cycle p = Some p' -> reachable p'
| rp_build p n p' l : reachable p -> build p n = Some (p', l) -> reachable p'.

Lemma add_eq p pt name : exists pt' name', pa_points (add p pt name) = pa_points p ++ [pt'] /\ pa_labels (add p pt name) = pa_labels p ++ [name'] /\
  pt' = (if pa_dim p =? 0 then pt else firstn (pa_dim p) pt) /\ name' = (if String.eqb name "" then str_nat (length (pa_points p)) else name) /\
  pa_dim (add p pt name) = (if pa_dim p =? 0 then length pt else pa_dim p).
Proof.
  unfold add. destruct (pa_dim p =? 0) eqn:E; cbn; eexists _, _; repeat split; reflexivity.
Qed.

Theorem C63_labels_and_points :
  forall p, reachable p ->
    length (pa_labels p) = length (pa_points p) /\
    (forall pt, In pt (pa_points p) -> length pt <= pa_dim p).
Proof.
  induction 1 as [dim|p pt name H [IH1 IH2]|p p' H [IH1 IH2] E|p n p' l H [IH1 IH2] E].
  - cbn. split; [reflexivity|tauto].
  - destruct (add_eq p pt name) as [pt' [name' [E1 [E2 [E3 [_ E5]]]]]]. rewrite E1, E2, E5, !app_length. split; [cbn; lia|].
    intros q Hq. apply in_app_iff in Hq. destruct (Nat.eqb_spec (pa_dim p) 0) as [E|E].
    + destruct Hq as [Hq|[<-|[]]]; [|subst pt'; lia]. specialize (IH2 q Hq). lia.
    + destruct Hq as [Hq|[<-|[]]]; [auto|subst pt']. rewrite firstn_length. lia.
  - unfold cycle in E. destruct (pa_points p) as [|pt r] eqn:E1; [discriminate|]. destruct (pa_labels p) as [|l r'] eqn:E2; [discriminate|].
    injection E as <-. cbn [pa_labels pa_points pa_dim]. unfold vec in *. cbn [length] in IH1.
    split; [cbn; rewrite !app_length; cbn; lia|].
    intros q Hq. apply (in_app_iff (pt :: r) [pt]) in Hq. destruct Hq as [Hq|[<-|[]]]; apply IH2; auto. left; auto.
  - unfold build in E. destruct (chain (pa_points p) false); [|discriminate]. destruct (build_sections (pa_dim p) n l0); [|discriminate].
    cbn in E. injection E as <- <-. cbn. auto.
Qed.

(** What [add] appends, and [cycle]. *)
Theorem C63_add :
  forall p pt name,
    pa_points (add p pt name) = pa_points p ++ [if pa_dim p =? 0 then pt else firstn (pa_dim p) pt] /\
    pa_dim (add p pt name) = (if pa_dim p =? 0 then length pt else pa_dim p) /\
    (name <> EmptyString -> pa_labels (add p pt name) = pa_labels p ++ [name]).
Proof.
  intros p pt name. destruct (add_eq p pt name) as [pt' [name' [E1 [E2 [E3 [E4 E5]]]]]]. split; [congruence|]. split; auto.
  intro Hn. rewrite E2, E4. destruct (String.eqb_spec name ""); [congruence|reflexivity].
Qed.

(** A point without name gets the number of the points before it. *)
Definition names_number (s : string) (n : nat) : Prop := option_map Nat.of_uint (DecimalString.NilZero.uint_of_string s) = Some n.

Lemma str_nat_number n : names_number (str_nat n) n.
Proof.
  unfold names_number, str_nat. rewrite (DecimalString.NilZero.usu (Nat.to_uint n)).
  2: { intro E. assert (Nat.of_uint (Nat.to_uint n) = 0) as E0 by (rewrite E; reflexivity). rewrite DecimalNat.Unsigned.of_to in E0. subst n. discriminate. }
  cbn [option_map]. f_equal. apply DecimalNat.Unsigned.of_to.
Qed.

Theorem C63_unnamed :
  forall p pt, exists s, pa_labels (add p pt EmptyString) = pa_labels p ++ [s] /\ names_number s (length (pa_points p)).
Proof.
  intros p pt. exists (str_nat (length (pa_points p))). split; [|apply str_nat_number].
  unfold add. destruct (pa_dim p =? 0); reflexivity.
Qed.

(** [add_points] adds the points in order, as many as there are names if names are given. *)
Theorem C63_add_points :
  forall points p names, pa_dim p <> 0 ->
    let n := match names with None => length points | Some l => Nat.min (length points) (length l) end in
    pa_dim (add_points p points names) = pa_dim p /\
    pa_points (add_points p points names) = pa_points p ++ map (firstn (pa_dim p)) (firstn n points) /\
    exists labels, pa_labels (add_points p points names) = pa_labels p ++ labels /\ length labels = n /\
      forall k s, nth_error labels k = Some s ->
        match names with
        | Some l => nth k l EmptyString <> EmptyString -> s = nth k l EmptyString
        | None => names_number s (length (pa_points p) + k)
        end.
Proof.
  assert (forall points names p, pa_dim p <> 0 ->
    let q := fold_left (fun p pn => add p (fst pn) (snd pn)) (combine points names) p in
    let n := Nat.min (length points) (length names) in
    pa_dim q = pa_dim p /\ pa_points q = pa_points p ++ map (firstn (pa_dim p)) (firstn n points) /\
    exists labels, pa_labels q = pa_labels p ++ labels /\ length labels = n /\
      forall k s, nth_error labels k = Some s ->
        (nth k names EmptyString <> EmptyString -> s = nth k names EmptyString) /\
        (nth k names EmptyString = EmptyString -> names_number s (length (pa_points p) + k))) as H.
  { induction points as [|pt points IH]; intros [|nm names] p Hd; cbn [combine fold_left length Nat.min firstn map fst snd];
      try (split; [reflexivity|]; split; [rewrite app_nil_r; reflexivity|]; exists []; split; [rewrite app_nil_r; reflexivity|];
           split; [reflexivity|intros [|k] s E; discriminate]).
    destruct (C63_add p pt nm) as [E1 [E2 E3]].
    assert (pa_dim (add p pt nm) = pa_dim p) as Ed by (rewrite E2; destruct (Nat.eqb_spec (pa_dim p) 0); congruence).
    destruct (IH names (add p pt nm)) as [F1 [F2 [labels [F3 [F4 F5]]]]]; [congruence|].
    split; [congruence|]. rewrite Ed in F2. split.
    { rewrite F2, E1. destruct (Nat.eqb_spec (pa_dim p) 0); [congruence|]. rewrite <- app_assoc. reflexivity. }
    assert (length (pa_points (add p pt nm)) = S (length (pa_points p))) as El by (rewrite E1, app_length; cbn; lia).
    assert (exists s0, pa_labels (add p pt nm) = pa_labels p ++ [s0] /\ (nm <> EmptyString -> s0 = nm) /\
              (nm = EmptyString -> names_number s0 (length (pa_points p)))) as [s0 [G1 [G2 G3]]].
    { destruct (String.eqb_spec nm EmptyString) as [->|Hn].
      - destruct (C63_unnamed p pt) as [s [A B]]. exists s. split; auto. split; [congruence|auto].
      - exists nm. split; [auto|]. split; [auto|congruence]. }
    exists (s0 :: labels). rewrite F3, G1, <- app_assoc. split; [reflexivity|]. split; [cbn; lia|].
    intros [|k] s E; cbn [nth_error nth] in *.
    - injection E as <-. rewrite Nat.add_0_r. auto.
    - destruct (F5 k s E) as [K1 K2]. rewrite El in K2. replace (length (pa_points p) + S k) with (S (length (pa_points p)) + k) by lia. auto. }
  intros points p names Hd n. unfold add_points. destruct names as [l|].
  - destruct (H points l p Hd) as [H1 [H2 [labels [H3 [H4 H5]]]]]. split; [auto|]. split; [auto|]. exists labels. split; [auto|]. split; [auto|].
    intros k s E. apply (H5 k s E).
  - destruct (H points (repeat EmptyString (length points)) p Hd) as [H1 [H2 [labels [H3 [H4 H5]]]]]. rewrite repeat_length, Nat.min_id in *.
    split; [auto|]. split; [auto|]. exists labels. split; [auto|]. split; [auto|].
    intros k s E. apply (H5 k s E). apply nth_repeat.
Qed.

Example C63_add_points_example :
  pa_dim (new_path 2) <> 0 /\
  pa_labels (add_points (new_path 2) [[0; 0]; [1; 0]; [1; 1; 5]]%Q None) = ["0"; "1"; "2"]%string /\
  pa_points (add_points (new_path 2) [[0; 0]; [1; 0]; [1; 1; 5]]%Q None) = [[0; 0]; [1; 0]; [1; 1]]%Q /\
  pa_labels (add_points (new_path 2) [[0; 0]; [1; 0]; [1; 1]]%Q (Some ["G"; ""]%string)) = ["G"; "1"]%string.
Proof. split; [discriminate|]. repeat split; vm_compute; reflexivity. Qed.

Theorem C63_cycle :
  forall p, reachable p ->
    (cycle p = None <-> pa_points p = []) /\
    forall p', cycle p = Some p' -> exists pt l,
      hd_error (pa_points p) = Some pt /\ hd_error (pa_labels p) = Some l /\
      pa_points p' = pa_points p ++ [pt] /\ pa_labels p' = pa_labels p ++ [l] /\ pa_dim p' = pa_dim p.
Proof.
  intros p H. destruct (C63_labels_and_points p H) as [L _]. unfold cycle.
  destruct (pa_points p) as [|pt r]; destruct (pa_labels p) as [|l r']; try discriminate L.
  - split; [tauto|discriminate].
  - split; [split; discriminate|]. intros p' E. injection E as <-. exists pt, l. auto.
Qed.

(** Point [k] of [n] on the way from [p] to [q]. *)
Definition on_way (n k : nat) (p q r : list Q) : Prop :=
  length r = length p /\
  forall c, (nth c r 0 * inject_Z (Z.of_nat (n - 1)) == nth c p 0 * inject_Z (Z.of_nat (n - 1)) + inject_Z (Z.of_nat k) * (nth c q 0 - nth c p 0))%Q.

Lemma linspace_length a b n : length (linspace a b n) = n.
Proof. unfold linspace. rewrite map_length, seq_length. reflexivity. Qed.

Lemma nth_linspace a b n k c : length a = length b -> k < n ->
  length (nth k (linspace a b n) []) = length a /\
  (nth c (nth k (linspace a b n) []) 0 == if n =? 1 then nth c a 0 else nth c a 0 + inject_Z (Z.of_nat k) * ((nth c b 0 - nth c a 0) / inject_Z (Z.of_nat (n - 1))))%Q.
Proof.
  intros L Hk. unfold linspace. rewrite (nth_map_in _ _ _ 0) by (rewrite seq_length; auto). rewrite seq_nth by auto. cbn [Nat.add].
  split; [rewrite map2_length; lia|]. destruct (Nat.lt_ge_cases c (length a)) as [Hc|Hc].
  - rewrite (nth_map2 _ _ _ _ 0%Q 0%Q) by lia. destruct (n =? 1); reflexivity.
  - rewrite !nth_overflow by (rewrite ?map2_length; unfold vec in *; lia). destruct (n =? 1); [reflexivity|]. unfold Qdiv. ring.
Qed.

Lemma sections_spec dim n pairs : (forall a b, In (a, b) pairs -> length a = dim /\ length b = dim) ->
  exists l, build_sections dim n pairs = Some l /\ length l = length pairs * n /\
    forall i a b k, nth_error pairs i = Some (a, b) -> k < n -> nth (i * n + k) l [] = nth k (linspace a b n) [].
Proof.
  induction pairs as [|[a b] pairs IH]; intro H.
  - exists []. split; [reflexivity|]. split; [reflexivity|]. intros [|i]; discriminate.
  - destruct IH as [l [E [L Hl]]]; [intros; apply H; right; auto|]. destruct (H a b (or_introl eq_refl)) as [La Lb].
    exists (linspace a b n ++ l). split; [|split].
    + cbn. unfold broadcast. rewrite La, Lb, Nat.eqb_refl. cbn. rewrite La, Nat.eqb_refl. fold (build_sections dim n). rewrite E. reflexivity.
    + rewrite app_length, linspace_length, L. cbn. lia.
    + intros [|i] a' b' k Hi Hk.
      * cbn in Hi. injection Hi as <- <-. cbn. rewrite app_nth1 by (rewrite linspace_length; auto). reflexivity.
      * cbn in Hi. rewrite app_nth2 by (rewrite linspace_length; cbn; lia). rewrite linspace_length. rewrite <- (Hl i a' b' k Hi Hk).
        f_equal. cbn. lia.
Qed.

Theorem C63_build :
  forall p n, (forall pt, In pt (pa_points p) -> length pt = pa_dim p) ->
    let P := length (pa_points p) in
    exists p' l, build p n = Some (p', l) /\
      pa_points p' = pa_points p /\ pa_labels p' = pa_labels p /\
      length l = (P - 1) * n /\
      (* every section runs from one point to the next one *)
      (forall i k a b, nth_error (pa_points p) i = Some a -> nth_error (pa_points p) (S i) = Some b -> 2 <= n -> k < n ->
        on_way n k a b (nth (i * n + k) l [])) /\
      (* the ticks mark the points, but for the last one *)
      get_ticks p' = (map (fun i => i * n) (seq 0 P), pa_labels p) /\
      (forall i a, nth_error (pa_points p) i = Some a -> S i < P -> 1 <= n -> i * n < length l /\ same (nth (i * n) l []) a) /\
      (1 <= P -> (P - 1) * n = length l).
Proof.
  intros p n Hdim P. unfold build. rewrite chain_false.
  assert (forall i a b, nth_error (chain_base (pa_points p)) i = Some (a, b) <-> nth_error (pa_points p) i = Some a /\ nth_error (pa_points p) (S i) = Some b) as Hc.
  { intros i a b. apply (nth_error_chain_base (pa_points p) i (a, b)). }
  destruct (sections_spec (pa_dim p) n (chain_base (pa_points p))) as [l [E [L Hl]]].
  { intros a b Hin. apply In_nth_error in Hin. destruct Hin as [i Hi]. apply Hc in Hi. destruct Hi as [H1 H2].
    split; apply Hdim; eapply nth_error_In; eauto. }
  rewrite E. cbn. eexists _, l. split; [reflexivity|]. cbn. split; [reflexivity|]. split; [reflexivity|].
  assert (length l = (P - 1) * n) as LP. { unfold P. rewrite L. rewrite chain_base_length. reflexivity. }
  split; [exact LP|]. split; [|split; [reflexivity|split]].
  - intros i k a b Ha HB Hn Hk. change (nth_error (pa_points p) (S i) = Some b) in HB. rewrite (Hl i a b k) by (auto; apply Hc; auto).
    assert (length a = length b) as Lab by (rewrite (Hdim a (nth_error_In _ _ Ha)); symmetry; exact (Hdim b (nth_error_In _ _ HB))).
    split; [apply (nth_linspace a b n k 0); auto|]. intro c. destruct (nth_linspace a b n k c Lab Hk) as [_ ->].
    destruct (Nat.eqb_spec n 1); [lia|]. field. intro H0. assert (inject_Z (Z.of_nat (n - 1)) == inject_Z 0)%Q as H1 by exact H0.
    rewrite inject_Z_injective in H1. lia.
  - intros i a Ha HS Hn. split; [rewrite LP; nia|].
    destruct (nth_error (pa_points p) (S i)) as [b|] eqn:HB; [|apply nth_error_None in HB; unfold P in *; lia].
    replace (i * n) with (i * n + 0) by lia. rewrite (Hl i a b 0) by (auto; apply Hc; auto).
    assert (length a = length b) as Lab by (rewrite (Hdim a (nth_error_In _ _ Ha)); symmetry; exact (Hdim b (nth_error_In _ _ HB))).
    apply same_veq. apply veq_nth. split; [apply (nth_linspace a b n 0 0); auto|]. intro c.
    destruct (nth_linspace a b n 0 c Lab ltac:(lia)) as [_ ->]. destruct (n =? 1); [reflexivity|]. change (inject_Z (Z.of_nat 0)) with 0%Q. unfold Qdiv. ring.
  - intros _. symmetry. exact LP.
Qed.

(** The last point of the path is the last sample of the last section: the tick of the last point is not an index of
    the path. *)
Corollary C63_last_tick_refuted :
  forall p n p' l, (forall pt, In pt (pa_points p) -> length pt = pa_dim p) -> 1 <= length (pa_points p) ->
    build p n = Some (p', l) -> nth_error l (last (fst (get_ticks p')) 0) = None.
Proof.
  intros p n p' l Hdim HP Hb. destruct (C63_build p n Hdim) as [p1 [l1 [E [_ [_ [L [_ [T [_ H]]]]]]]]].
  rewrite Hb in E. injection E as <- <-. rewrite T. cbn [fst].
  destruct (length (pa_points p)) as [|P] eqn:EP; [lia|]. rewrite seq_S, map_app. cbn [map]. rewrite last_last. apply nth_error_None. cbn in L |- *. lia.
Qed.

(** Points that are shorter than the dimension of the path cannot be joined. *)
Theorem C63_short_points_refuted :
  build (add (add (new_path 3) [0; 0]%Q "A") [1; 1]%Q "B") 2 = None /\
  reachable (add (add (new_path 3) [0; 0]%Q "A") [1; 1]%Q "B").
Proof. split; [reflexivity|]. repeat constructor. Qed.

(** Points of one number count as points with this number in every coordinate; no other length but the dimension can be
    joined. *)
Definition wide (dim : nat) (a : list Q) : list Q :=
  match a with [x] => repeat x dim | _ => a end.

Definition joinable (dim : nat) (a b : list Q) : Prop :=
  (length a = dim /\ (length b = dim \/ length b = 1)) \/ (length a = 1 /\ length b = dim).

Lemma wide_same dim a : length a = dim -> wide dim a = a.
Proof. intros <-. destruct a as [|x [|y a]]; reflexivity. Qed.

Lemma wide_one dim a : length a = 1 -> wide dim a = repeat (nth 0 a 0%Q) dim.
Proof. destruct a as [|x [|y a]]; try discriminate. reflexivity. Qed.

Lemma wide_length dim a : length a = dim \/ length a = 1 -> length (wide dim a) = dim.
Proof. intros [H|H]; [rewrite wide_same; auto|rewrite wide_one by auto; apply repeat_length]. Qed.

Lemma broadcast_joinable dim a b : joinable dim a b -> broadcast a b = Some (wide dim a, wide dim b).
Proof.
  unfold broadcast. intros [[H1 [H2|H2]]|[H1 H2]].
  - rewrite H1, H2, Nat.eqb_refl, !wide_same; auto.
  - rewrite H1, H2, (wide_same dim a), (wide_one dim b) by auto. destruct (Nat.eqb_spec dim 1) as [->|E]; [|reflexivity].
    destruct b as [|x [|y b]]; try discriminate. reflexivity.
  - rewrite H1, H2, (wide_same dim b), (wide_one dim a) by auto. destruct (Nat.eqb_spec 1 dim) as [<-|E]; [|reflexivity].
    destruct a as [|x [|y a]]; try discriminate. reflexivity.
Qed.

Lemma broadcast_other dim a b : ~ joinable dim a b -> match broadcast a b with Some (c, _) => length c <> dim | None => True end.
Proof.
  unfold broadcast, joinable. intro H. destruct (Nat.eqb_spec (length a) (length b)) as [E|E].
  - intro Ha. apply H. left. split; [auto|left; congruence].
  - destruct (Nat.eqb_spec (length a) 1) as [E1|E1].
    + rewrite repeat_length. tauto.
    + destruct (Nat.eqb_spec (length b) 1) as [E2|E2]; tauto.
Qed.

Lemma sections_mixed dim n pairs : (forall a b, In (a, b) pairs -> joinable dim a b) ->
  build_sections dim n pairs = build_sections dim n (map (fun ab => (wide dim (fst ab), wide dim (snd ab))) pairs).
Proof.
  induction pairs as [|[a b] pairs IH]; intro H; [reflexivity|]. cbn [map fst snd]. cbn.
  assert (joinable dim a b) as J by (apply H; left; auto). rewrite (broadcast_joinable dim a b J).
  assert (length (wide dim a) = dim /\ length (wide dim b) = dim) as [La Lb].
  { destruct J as [[H1 [H2|H2]]|[H1 H2]]; split; apply wide_length; auto. }
  unfold broadcast. rewrite La, Lb, !Nat.eqb_refl. cbn. rewrite La, Nat.eqb_refl. fold (build_sections dim n).
  rewrite IH by (intros; apply H; right; auto). reflexivity.
Qed.

Theorem C63_build_mixed :
  forall p n, (forall i a b, nth_error (pa_points p) i = Some a -> nth_error (pa_points p) (S i) = Some b -> joinable (pa_dim p) a b) ->
    exists p' l, build p n = Some (p', l) /\ length l = (length (pa_points p) - 1) * n /\
      forall i k a b, nth_error (pa_points p) i = Some a -> nth_error (pa_points p) (S i) = Some b -> 2 <= n -> k < n ->
        on_way n k (wide (pa_dim p) a) (wide (pa_dim p) b) (nth (i * n + k) l []).
Proof.
  intros p n HJ. unfold build. rewrite chain_false.
  assert (forall i a b, nth_error (chain_base (pa_points p)) i = Some (a, b) <-> nth_error (pa_points p) i = Some a /\ nth_error (pa_points p) (S i) = Some b) as Hc.
  { intros i a b. apply (nth_error_chain_base (pa_points p) i (a, b)). }
  rewrite sections_mixed.
  2:{ intros a b Hin. apply In_nth_error in Hin. destruct Hin as [i Hi]. apply Hc in Hi. destruct Hi as [H1 H2]. eapply HJ; eauto. }
  set (W := fun ab : list Q * list Q => (wide (pa_dim p) (fst ab), wide (pa_dim p) (snd ab))).
  assert (forall i a b, nth_error (pa_points p) i = Some a -> nth_error (pa_points p) (S i) = Some b -> length (wide (pa_dim p) a) = pa_dim p /\ length (wide (pa_dim p) b) = pa_dim p) as HL.
  { intros i a b H1 H2. destruct (HJ i a b H1 H2) as [[H3 [H4|H4]]|[H3 H4]]; split; apply wide_length; auto. }
  destruct (sections_spec (pa_dim p) n (map W (chain_base (pa_points p)))) as [l [E [L Hl]]].
  { intros a b Hin. apply in_map_iff in Hin. destruct Hin as [[a' b'] [Hw Hin]]. injection Hw as <- <-.
    apply In_nth_error in Hin. destruct Hin as [i Hi]. apply Hc in Hi. destruct Hi as [H1 H2]. eapply HL; eauto. }
  unfold vec in *. rewrite E. cbn. eexists _, l. split; [reflexivity|]. split; [rewrite L, map_length, chain_base_length; reflexivity|].
  intros i k a b Ha Hb Hn Hk. destruct (HL i a b Ha Hb) as [La Lb].
  assert (nth_error (map W (chain_base (pa_points p))) i = Some (W (a, b))) as HW by (apply map_nth_error; apply Hc; auto).
  rewrite (Hl i (wide (pa_dim p) a) (wide (pa_dim p) b) k) by auto.
  assert (length (wide (pa_dim p) a) = length (wide (pa_dim p) b)) as Lab by congruence.
  split; [apply (nth_linspace (wide (pa_dim p) a) (wide (pa_dim p) b) n k 0); auto|]. intro c. destruct (nth_linspace _ _ n k c Lab Hk) as [_ ->].
  destruct (Nat.eqb_spec n 1); [lia|]. field. intro H0. assert (inject_Z (Z.of_nat (n - 1)) == inject_Z 0)%Q as H1 by exact H0.
  rewrite inject_Z_injective in H1. lia.
Qed.

Theorem C63_build_fails :
  forall p n i a b, nth_error (pa_points p) i = Some a -> nth_error (pa_points p) (S i) = Some b -> ~ joinable (pa_dim p) a b ->
    build p n = None.
Proof.
  intros p n i a b Ha Hb HJ. unfold build. rewrite chain_false.
  assert (In (a, b) (chain_base (pa_points p))) as Hin.
  { eapply nth_error_In with (n := i). apply (nth_error_chain_base (pa_points p) i (a, b)). auto. }
  assert (build_sections (pa_dim p) n (chain_base (pa_points p)) = None) as ->; [|reflexivity].
  revert Hin. generalize (chain_base (pa_points p)). induction l as [|[c e] l IH]; [intros []|]. intros [Heq|Hin].
  - injection Heq as -> ->. cbn. pose proof (broadcast_other (pa_dim p) a b HJ) as HB. destruct (broadcast a b) as [[x y]|]; [|reflexivity].
    destruct (Nat.eqb_spec (length x) (pa_dim p)); [contradiction|reflexivity].
  - cbn. destruct (broadcast c e) as [[x y]|]; [|reflexivity]. fold (build_sections (pa_dim p) n). rewrite IH by auto. destruct (length x =? pa_dim p); reflexivity.
Qed.

Example C63_mixed_example :
  let p := add (add (new_path 3) [0; 0; 0]%Q "A") [4]%Q "B" in
  reachable p /\ (exists p' l, build p 3 = Some (p', l) /\ Forall2 same l [[0; 0; 0]; [2; 2; 2]; [4; 4; 4]]%Q) /\
  build (add p [5]%Q "C") 3 = None.
Proof.
  split; [repeat constructor|]. split; [|reflexivity]. eexists _, _. split; [vm_compute; reflexivity|].
  repeat first [apply Forall2_nil | apply Forall2_cons; [apply same_veq; repeat constructor|]].
Qed.

(** Paths on which build was not called. *)
Inductive unbuilt : path -> Prop :=
| ub_new dim : unbuilt (new_path dim)
| ub_add p pt name : unbuilt p -> unbuilt (add p pt name)
| ub_cycle p p' : unbuilt p -> cycle p = Some p' -> unbuilt p'.

(** Before build all ticks are 0. *)
Theorem C63_unbuilt :
  forall p, unbuilt p -> get_ticks p = (repeat 0 (length (pa_points p)), pa_labels p).
Proof.
  intros p H. unfold get_ticks. replace (pa_sect p) with 0.
  - f_equal. generalize 0 at 2 as k. induction (length (pa_points p)) as [|n IH]; intro k; [reflexivity|].
    cbn [seq map repeat]. rewrite IH, Nat.mul_0_r. reflexivity.
  - induction H as [dim|p pt name _ IH|p p' _ IH E]; [reflexivity| |].
    + unfold add. destruct (pa_dim p =? 0); exact IH.
    + unfold cycle in E. destruct (pa_points p); [discriminate|]. destruct (pa_labels p); [discriminate|]. injection E as <-. exact IH.
Qed.

Example C63_unbuilt_example :
  let p := add (add (new_path 2) [0; 0]%Q "A") [4; 1]%Q "B" in unbuilt p /\ get_ticks p = ([0; 0], ["A"; "B"]%string).
Proof. split; [repeat constructor|reflexivity]. Qed.

(** The ready-made paths. *)
Theorem C63_preset_paths :
  forall v,
    (exists p, chain_path v = Some p /\ pa_dim p = 1 /\ pa_points p = [[v]; [0]; [v]]%Q /\
       pa_labels p = ["$X$"; "$\Gamma$"; "$X$"]%string) /\
    (exists p, square_path v = Some p /\ pa_dim p = 2 /\ pa_points p = [[0; 0]; [v; 0]; [v; v]; [0; 0]]%Q /\
       pa_labels p = ["$\Gamma$"; "$X$"; "$M$"; "$\Gamma$"]%string) /\
    pa_dim (cubic_path v) = 3 /\ pa_points (cubic_path v) = [[0; 0; 0]; [v; 0; 0]; [v; v; 0]; [0; 0; 0]; [v; v; v]]%Q /\
    pa_labels (cubic_path v) = ["$\Gamma$"; "$X$"; "$M$"; "$\Gamma$"; "$R$"]%string.
Proof. intro v. repeat split; eexists; repeat split; reflexivity. Qed.

Example C63_example :
  exists p l p', square_path 3%Q = Some p /\ reachable p /\ (forall pt, In pt (pa_points p) -> length pt = pa_dim p) /\
    build p 3 = Some (p', l) /\ length l = 9 /\ Forall2 same l [[0; 0]; [3#2; 0]; [3; 0]; [3; 0]; [3; 3#2]; [3; 3]; [3; 3]; [3#2; 3#2]; [0; 0]]%Q /\
    get_ticks p' = ([0; 3; 6; 9], ["$\Gamma$"; "$X$"; "$M$"; "$\Gamma$"]%string).
Proof.
  eexists _, _, _. split; [vm_compute; reflexivity|]. split.
  { eapply rp_cycle with (p := add_m 3%Q (add_x 3%Q (gamma (new_path 2)))); [|vm_compute; reflexivity]. repeat apply rp_add. apply rp_new. }
  split; [apply Forall_forall; repeat constructor|]. split; [vm_compute; reflexivity|]. split; [reflexivity|].
  split; [|reflexivity]. repeat first [apply Forall2_nil | apply Forall2_cons; [apply same_veq; repeat constructor|]].
Qed.

(** ** C69: the axis of a dispersion plot *)

(** Position of the i-th tick: sections have [n] samples, [n - 1] steps of the given width. *)
Fixpoint tick_position (n : nat) (scales : list Q) (i : nat) : Q :=
  match i, scales with
  | S i', s :: r => (inject_Z (Z.of_nat (n - 1)) * s + tick_position n r i')%Q
  | _, _ => 0%Q
  end.

Lemma sect_size_exact m n : 1 <= m -> sect_size (m * n) m = n.
Proof.
  intro Hm. unfold sect_size. assert (inject_Z (Z.of_nat (m * n)) / inject_Z (Z.of_nat m) == inject_Z (Z.of_nat n))%Q as E.
  { rewrite Nat2Z.inj_mul, inject_Z_mult. field. intro H. assert (inject_Z (Z.of_nat m) == inject_Z 0)%Q as H1 by exact H.
    rewrite inject_Z_injective in H1. lia. }
  rewrite E. rewrite Qceiling_Z. apply Nat2Z.id.
Qed.

Lemma scale_loop_spec n scales k0 k ticks : 1 <= n ->
  exists k' ticks', scale_loop n scales k0 k ticks = Some (k ++ k', ticks ++ ticks') /\
    length k' = length scales * n /\ length ticks' = length scales /\
    (forall i j, i < length scales -> j < n ->
      (nth (i * n + j) k' 0 == k0 + tick_position n scales i + inject_Z (Z.of_nat j) * nth i scales 0)%Q) /\
    (forall i, i < length scales -> (nth i ticks' 0 == k0 + tick_position n scales (S i))%Q).
Proof.
  intro Hn. revert k0 k ticks. induction scales as [|s scales IH]; intros k0 k ticks.
  - exists [], []. rewrite !app_nil_r. cbn. repeat split; auto; intros; lia.
  - cbn [scale_loop]. set (sec := map (fun i => (k0 + inject_Z (Z.of_nat i) * s)%Q) (seq 0 n)).
    assert (length sec = n) as Ls by (unfold sec; rewrite map_length, seq_length; auto).
    assert (forall j, j < n -> nth j sec 0%Q = (k0 + inject_Z (Z.of_nat j) * s)%Q) as Hsec.
    { intros j Hj. unfold sec. rewrite (nth_map_in _ _ _ 0) by (rewrite seq_length; auto). rewrite seq_nth; auto. }
    destruct (k ++ sec) as [|e r] eqn:Ek. { apply (f_equal (@length _)) in Ek. rewrite app_length in Ek. cbn in Ek. lia. }
    rewrite <- Ek. set (k1 := last (k ++ sec) 0%Q).
    assert (k1 = (k0 + inject_Z (Z.of_nat (n - 1)) * s)%Q) as Ek1.
    { unfold k1. rewrite <- Hsec by lia. destruct (exists_last (l := sec)) as [q [z E]]; [intro E; rewrite E in Ls; cbn in Ls; lia|].
      rewrite E, app_assoc, last_last. rewrite E, app_length in Ls. cbn in Ls. rewrite app_nth2 by lia. replace (n - 1 - length q) with 0 by lia. reflexivity. }
    destruct (IH k1 (k ++ sec) (ticks ++ [k1])) as [k' [t' [E [Lk [Lt [Hk Ht]]]]]].
    exists (sec ++ k'), (k1 :: t'). split; [rewrite E, <- !app_assoc; reflexivity|]. split; [rewrite app_length; cbn; lia|]. split; [cbn; lia|].
    split.
    + intros [|i] j Hi Hj.
      * cbn [Nat.mul Nat.add]. rewrite app_nth1 by lia. rewrite Hsec by auto. cbn. ring.
      * cbn in Hi. rewrite app_nth2 by (cbn; lia). rewrite Ls. replace (S i * n + j - n) with (i * n + j) by (cbn; lia).
        rewrite Hk by lia. rewrite Ek1. cbn [tick_position nth]. ring.
    + intros [|i] Hi.
      * cbn [nth tick_position]. rewrite Ek1. destruct scales; cbn; ring.
      * cbn in Hi. cbn [nth]. rewrite Ht by lia. rewrite Ek1. cbn [tick_position]. ring.
Qed.

Theorem C69_axis :
  forall P n scales, 1 <= n -> length scales = P -> 1 <= P ->
    exists k ticks, scale_xaxis (S P) (P * n) (Some scales) = Some (k, ticks) /\
      length k = P * n /\ length ticks = S P /\
      (forall i, i <= P -> (nth i ticks 0 == tick_position n scales i)%Q) /\
      (* sample j of section i *)
      (forall i j, i < P -> j < n -> (nth (i * n + j) k 0 == nth i ticks 0 + inject_Z (Z.of_nat j) * nth i scales 0)%Q) /\
      (* the tick is at the end of one section and at the start of the next one *)
      (forall i, i < P -> (nth (i * n) k 0 == nth i ticks 0)%Q /\ (nth (i * n + (n - 1)) k 0 == nth (S i) ticks 0)%Q).
Proof.
  intros P n scales Hn HP H1. unfold scale_xaxis. destruct (Nat.leb_spec (S P) 1); [lia|].
  replace (S P - 1) with P by lia. rewrite sect_size_exact by auto.
  destruct (scale_loop_spec n scales 0%Q [] [0%Q] Hn) as [k [t [E [Lk [Lt [Hk Ht]]]]]]. rewrite E. cbn [app].
  exists k, (0%Q :: t). split; [reflexivity|]. rewrite HP in *. split; auto. split; [cbn; lia|].
  assert (forall i, i <= P -> (nth i (0 :: t) 0 == tick_position n scales i)%Q) as HT.
  { intros [|i] Hi; cbn [nth]; [destruct scales; reflexivity|]. rewrite Ht by lia. ring. }
  assert (forall i, i < P -> (tick_position n scales (S i) == tick_position n scales i + inject_Z (Z.of_nat (n - 1)) * nth i scales 0)%Q) as HS.
  { rewrite <- HP. clear. induction scales as [|s scales IH]; cbn [length]; [lia|]. intros [|i] Hi.
    - cbn. destruct scales; cbn; ring.
    - cbn [tick_position nth]. cbn [tick_position] in IH. rewrite <- Qplus_assoc, <- IH by lia. destruct scales; reflexivity. }
  split; [exact HT|]. split.
  - intros i j Hi Hj. rewrite Hk, HT by lia. ring.
  - intros i Hi. rewrite !HT by lia. split.
    + replace (i * n) with (i * n + 0) by lia. rewrite Hk by lia. change (inject_Z (Z.of_nat 0)) with 0%Q. ring.
    + rewrite Hk by lia. rewrite HS by lia. ring.
Qed.

Example C69_example :
  exists k ticks, scale_xaxis 3 6 (Some [1; 2]%Q) = Some (k, ticks) /\ Forall2 Qeq k [0; 1; 2; 2; 4; 6]%Q /\ Forall2 Qeq ticks [0; 2; 6]%Q.
Proof. eexists _, _. split; [vm_compute; reflexivity|]. split; repeat constructor. Qed.

(** A number of samples that is no multiple of the number of sections gives more positions than samples. *)
Theorem C69_uneven_refuted :
  exists k ticks, scale_xaxis 3 5 None = Some (k, ticks) /\ length k = 6.
Proof. eexists _, _. split; [vm_compute; reflexivity|]. reflexivity. Qed.

(** ** C65: colours of connections *)

(** The list index [a] of Python denotes [i] in a list of [n] elements. *)
Definition denotes (n i : nat) (a : Z) : Prop := i < n /\ (a = Z.of_nat i \/ a = Z.of_nat i - Z.of_nat n)%Z.

(** The colour is given for the pair of atoms, in either order. *)
Definition given_for {C} (n i j : nat) (e : Z * Z * C) : Prop :=
  (denotes n i (fst (fst e)) /\ denotes n j (snd (fst e))) \/ (denotes n j (fst (fst e)) /\ denotes n i (snd (fst e))).

Lemma py_index_spec n a : match py_index n a with Some i => denotes n i a | None => forall i, ~ denotes n i a end.
Proof.
  unfold py_index. destruct (Z.leb_spec 0 a), (Z.ltb_spec a (Z.of_nat n)); cbn [andb].
  - split; lia.
  - destruct (Z.leb_spec (- Z.of_nat n) a), (Z.ltb_spec a 0); cbn [andb]; try lia; intros i [HA HB]; lia.
  - destruct (Z.leb_spec (- Z.of_nat n) a), (Z.ltb_spec a 0); cbn [andb]; try lia; [split; lia|intros i [HA HB]; lia].
  - destruct (Z.leb_spec (- Z.of_nat n) a), (Z.ltb_spec a 0); cbn [andb]; try lia; intros i [HA HB]; lia.
Qed.

Lemma denotes_unique n i j a : denotes n i a -> denotes n j a -> i = j.
Proof. intros [H1 H2] [H3 H4]. lia. Qed.

Lemma denotes_dec n i a : denotes n i a \/ ~ denotes n i a.
Proof. unfold denotes. destruct (lt_dec i n), (Z.eq_dec a (Z.of_nat i)), (Z.eq_dec a (Z.of_nat i - Z.of_nat n)); tauto. Qed.

Lemma put2_spec {C} n a b (c x : C) t : rect n n t -> a < n -> b < n ->
  rect n n (put2 a b c t) /\
  forall i j, i < n -> j < n -> nth j (nth i (put2 a b c t) []) x = if (i =? a) && (j =? b) then c else nth j (nth i t []) x.
Proof.
  intros [L R] Ha Hb. assert (length (nth a t []) = n) as La by (apply R, nth_In; lia).
  split.
  - split; [unfold put2; rewrite set_nth_length; auto|]. intros row Hrow. unfold put2 in Hrow. apply In_nth_error in Hrow. destruct Hrow as [k Hk].
    rewrite nth_error_set_nth in Hk. destruct (Nat.eqb k a).
    + destruct (k <? length t); [|discriminate]. injection Hk as <-. rewrite set_nth_length. auto.
    + apply R. eapply nth_error_In; eauto.
  - intros i j Hi Hj. unfold put2. rewrite nth_set_nth' by lia. destruct (Nat.eqb_spec i a) as [->|E]; cbn [andb].
    + rewrite nth_set_nth' by lia. reflexivity.
    + reflexivity.
Qed.

Theorem C65_colors :
  forall (C : Type) n (default : C) colors,
    (connection_color_array n default colors = None <->
      exists e, In e colors /\ forall i j, ~ given_for n i j e) /\
    forall t, connection_color_array n default colors = Some t ->
      length t = n /\ (forall row, In row t -> length row = n) /\
      (forall i j, i < n -> j < n -> nth j (nth i t []) default = nth i (nth j t []) default) /\
      forall i j, i < n -> j < n ->
        ((forall e, In e colors -> ~ given_for n i j e) -> nth j (nth i t []) default = default) /\
        forall l1 e l2, colors = l1 ++ e :: l2 -> given_for n i j e -> (forall e', In e' l2 -> ~ given_for n i j e') ->
          nth j (nth i t []) default = snd e.
Proof.
  intros C n default colors. unfold connection_color_array.
  set (step := fun (o : option (list (list C))) (e : Z * Z * C) => match o with
    | None => None
    | Some t => let '(a1, a2, c) := e in match py_index n a1, py_index n a2 with Some i, Some j => Some (put2 j i c (put2 i j c t)) | _, _ => None end end).
  assert (forall L, fold_left step L None = None) as Hnone by (induction L; auto).
  (* one step *)
  assert (forall t e, rect n n t -> match step (Some t) e with
    | None => forall i j, ~ given_for n i j e
    | Some t' => rect n n t' /\ (exists i j, given_for n i j e) /\
        forall i j, i < n -> j < n -> (given_for n i j e -> nth j (nth i t' []) default = snd e) /\ (~ given_for n i j e -> nth j (nth i t' []) default = nth j (nth i t []) default)
    end) as Hstep.
  { intros t [[a1 a2] c] R. unfold step. pose proof (py_index_spec n a1) as H1. pose proof (py_index_spec n a2) as H2.
    destruct (py_index n a1) as [i1|]; [|intros i j [[A B]|[A B]]; cbn in *; firstorder].
    destruct (py_index n a2) as [i2|]; [|intros i j [[A B]|[A B]]; cbn in *; firstorder].
    pose proof (proj1 H1) as L1. pose proof (proj1 H2) as L2.
    destruct (put2_spec n i1 i2 c default t R L1 L2) as [R1 S1]. destruct (put2_spec n i2 i1 c default _ R1 L2 L1) as [R2 S2].
    split; auto. split; [exists i1, i2; left; auto|]. intros i j Hi Hj. rewrite S2, S1 by auto.
    assert (given_for n i j (a1, a2, c) <-> (i = i1 /\ j = i2) \/ (i = i2 /\ j = i1)) as G.
    { unfold given_for. cbn. split.
      - intros [[A B]|[A B]]; [left|right]; split; eapply denotes_unique; eauto.
      - intros [[-> ->]|[-> ->]]; auto. }
    rewrite G. destruct (Nat.eqb_spec i i2), (Nat.eqb_spec j i1), (Nat.eqb_spec i i1), (Nat.eqb_spec j i2); cbn; split; try reflexivity; intros HH; exfalso; intuition. }
  assert (rect n n (repeat (repeat default n) n)) as R0.
  { split; [apply repeat_length|]. intros row H. apply repeat_spec in H. subst. apply repeat_length. }
  assert (forall L t0, rect n n t0 ->
    (fold_left step L (Some t0) = None <-> exists e, In e L /\ forall i j, ~ given_for n i j e) /\
    forall t, fold_left step L (Some t0) = Some t -> rect n n t /\ forall i j, i < n -> j < n ->
      ((forall e, In e L -> ~ given_for n i j e) -> nth j (nth i t []) default = nth j (nth i t0 []) default) /\
      forall l1 e l2, L = l1 ++ e :: l2 -> given_for n i j e -> (forall e', In e' l2 -> ~ given_for n i j e') -> nth j (nth i t []) default = snd e) as Hfold.
  { induction L as [|e L IH]; intros t0 Rt.
    - cbn. split; [split; [discriminate|intros [e [[] _]]]|]. intros t E. injection E as <-. split; auto. intros i j Hi Hj. split; auto. intros [|? ?]; discriminate.
    - cbn [fold_left]. specialize (Hstep t0 e Rt). destruct (step (Some t0) e) as [t1|].
      + destruct Hstep as [R1 [[i0 [j0 G0]] S1]]. destruct (IH t1 R1) as [I1 I2]. split.
        * rewrite I1. split; intros [e' [Hin He']]; [exists e'; split; auto; right; auto|]. destruct Hin as [<-|Hin]; [exfalso; eapply He'; eauto|exists e'; auto].
        * intros t E. destruct (I2 t E) as [Rt' S2]. split; auto. intros i j Hi Hj. destruct (S2 i j Hi Hj) as [A B]. destruct (S1 i j Hi Hj) as [A1 B1]. split.
          -- intro Hno. rewrite A by (intros; apply Hno; right; auto). apply B1. apply Hno. left; auto.
          -- intros [|e1 l1] e' l2 EL G Hl2.
             ++ cbn in EL. injection EL as <- <-. rewrite A by auto. auto.
             ++ cbn in EL. injection EL as <- EL. eapply B; eauto.
      + rewrite Hnone. split; [split; [intros _; exists e; split; [left|]; auto|auto]|discriminate]. }
  destruct (Hfold colors _ R0) as [F1 F2]. split; auto. intros t E. destruct (F2 t E) as [[L R] S]. split; auto. split; auto.
  assert (forall i j, i < n -> j < n -> nth j (nth i (repeat (repeat default n) n) []) default = default) as Hdef.
  { intros i j Hi Hj. rewrite (nth_indep _ [] (repeat default n)) by (rewrite repeat_length; auto). rewrite nth_repeat. apply nth_repeat. }
  assert (forall i j (L : list (Z * Z * C)), (forall e, In e L -> ~ given_for n i j e) \/ exists l1 e l2, L = l1 ++ e :: l2 /\ given_for n i j e /\ forall e', In e' l2 -> ~ given_for n i j e') as Hlast.
  { intros i j M. induction M as [|e M IH]; [left; intros e []|]. destruct IH as [IH|[l1 [e' [l2 [-> [G H]]]]]].
    - assert (given_for n i j e \/ ~ given_for n i j e) as [G|G].
      { unfold given_for. destruct (denotes_dec n i (fst (fst e))), (denotes_dec n j (snd (fst e))), (denotes_dec n j (fst (fst e))), (denotes_dec n i (snd (fst e))); tauto. }
      + right. exists [], e, M. auto.
      + left. intros e' [<-|Hin]; auto.
    - right. exists (e :: l1), e', l2. auto. }
  assert (forall i j (e : Z * Z * C), given_for n i j e -> given_for n j i e) as Gs by (unfold given_for; tauto).
  split.
  - intros i j Hi Hj. destruct (S i j Hi Hj) as [A B]. destruct (S j i Hj Hi) as [A' B'].
    destruct (Hlast i j colors) as [H|[l1 [e [l2 [EL [G H]]]]]].
    + rewrite A by auto. rewrite A' by (intros e He G; apply (H e He); auto). rewrite !Hdef; auto.
    + rewrite (B l1 e l2) by auto. rewrite (B' l1 e l2); auto. intros e' He' G'. apply (H e' He'); auto.
  - intros i j Hi Hj. destruct (S i j Hi Hj) as [A B]. split; auto. intro H. rewrite A by auto. apply Hdef; auto.
Qed.

Example C65_example :
  connection_color_array 2 "k"%string [(0, 1, "r"); (1, 1, "b"); (1, 0, "g")]%Z%string = Some [["k"; "g"]; ["g"; "b"]]%string /\
  connection_color_array 2 "k"%string [(0, -1, "r")]%Z%string = Some [["k"; "r"]; ["r"; "k"]]%string /\
  connection_color_array 2 "k"%string [(0, 2, "r")]%Z%string = None.
Proof. repeat split. Qed.

Print Assumptions C63_labels_and_points.
Print Assumptions C63_add.
Print Assumptions C63_cycle.
Print Assumptions C63_build.
Print Assumptions C63_last_tick_refuted.
Print Assumptions C63_short_points_refuted.
Print Assumptions C63_build_mixed.
Print Assumptions C63_build_fails.
Print Assumptions C63_preset_paths.
Print Assumptions C63_unbuilt.
Print Assumptions C69_axis.
Print Assumptions C69_uneven_refuted.
Print Assumptions C65_colors.
Print Assumptions C63_unnamed.
Print Assumptions C63_add_points.
