(** * Properties C100 and C101 (lattpy/disptools.py: dispersion plots) *)
From Coq Require Import String List ZArith QArith Qabs Qround Qminmax Bool Arith Lia Lqa.
From Verif Require Import Np NpFacts LinAlg LinFacts SpecUtils SpecSpatial AtomModel SpatialModel SpatialProofs IdentityModel BasisProofs StructureFacts PathModel PropPath DispPlotModel.
Import ListNotations.
Open Scope nat_scope.
Open Scope list_scope.

(** ** C100: plot_dispersion *)

(** The colour of band [b]: from the colour cycle, the one given, or the element [b] of the list (of an atom, its colour). *)
Inductive colored : color_arg -> nat -> pyval -> Prop :=
| co_none b : colored ColNone b (VStr (String.append "C" (show_nat b)))
| co_one v b : colored (ColOne v) b v
| co_item l b v : nth_error l b = Some (IColor v) -> colored (ColList l) b v
| co_atom l b a v : nth_error l b = Some (IAtom a) -> dict_get (a_params a) "color" = Some v -> colored (ColList l) b v.

(** Every atom has a colour, which may be None, unless it was deleted. *)
Definition keeps_color (color : color_arg) : Prop :=
  match color with ColList l => forall a, In (IAtom a) l -> dict_get (a_params a) "color" <> None | _ => True end.

(** The widths of the steps in the sections. *)
Definition widths (P : nat) (scales : option (list Q)) : list Q := match scales with None => repeat 1%Q P | Some s => s end.

Lemma band_color_spec color nb b : b < nb -> keeps_color color ->
  match band_color color nb b with Some v => colored color b v | None => forall v, ~ colored color b v end.
Proof.
  intros Hb Hk. destruct color as [|v|a|l]; cbn [band_color].
  - destruct (Nat.ltb_spec b nb); [constructor|lia].
  - destruct (Nat.ltb_spec b nb); [constructor|lia].
  - intros v H. inversion H.
  - destruct (nth_error l b) as [[v|a]|] eqn:E.
    + apply co_item. exact E.
    + cbn in Hk. pose proof (Hk a (nth_error_In _ _ E)) as Ha. unfold atom_getattr, dict_mem. cbn [starts_underscore].
      destruct (dict_get (a_params a) "color") as [v|] eqn:Ec; [|congruence]. cbn. apply (co_atom l b a v E Ec).
    + intros v H. inversion H; congruence.
Qed.

Lemma colored_unique color b v w : colored color b v -> colored color b w -> v = w.
Proof. intros H G. inversion H; subst; inversion G; congruence. Qed.

Lemma band_length disp b : length (band disp b) = length disp.
Proof. apply map_length. Qed.

Lemma nth_band disp b i : i < length disp -> nth i (band disp b) 0%Q = nth b (nth i disp []) 0%Q.
Proof. intro Hi. unfold band. rewrite (nth_map_in _ _ _ []) by auto. reflexivity. Qed.

Lemma band_min_spec l : l <> [] -> (exists x, In x l /\ (band_min l == x)%Q) /\ forall x, In x l -> (band_min l <= x)%Q.
Proof.
  destruct l as [|x l]; [congruence|]. intros _. cbn [band_min]. destruct (qmin_list_is_min x l) as [[y [Hy E]] H]. split; auto. exists y. split; auto. rewrite E. reflexivity.
Qed.

Lemma band_max_spec l : l <> [] -> (exists x, In x l /\ (band_max l == x)%Q) /\ forall x, In x l -> (x <= band_max l)%Q.
Proof.
  destruct l as [|x l]; [congruence|]. intros _. cbn [band_max]. destruct (qmax_list_is_max x l) as [[y [Hy E]] H]. split; auto. exists y. split; auto. rewrite E. reflexivity.
Qed.

(** What the loop over bands draws. *)
Lemma draw_bands_spec k disp nb color fill : keeps_color color -> length k = length disp -> forall is, (forall i, In i is -> i < nb) ->
  match draw_bands k disp nb color fill is with
  | Drawn (cs, ss) =>
    Forall2 (fun b c => colored color b (cv_color c) /\ cv_points c = combine k (band disp b)) is cs /\
    if fill then Forall2 (fun b s => colored color b (sp_color s) /\ sp_end s = band_max k /\ sp_low s = band_min (band disp b) /\ sp_high s = band_max (band disp b)) is ss
    else ss = []
  | Failed e => e = BadColor /\ exists b, In b is /\ forall v, ~ colored color b v
  end.
Proof.
  intros Hk Hl. induction is as [|i is IH]; intro His; cbn [draw_bands].
  - split; [constructor|]. destruct fill; [constructor|reflexivity].
  - pose proof (band_color_spec color nb i (His i (or_introl eq_refl)) Hk) as Hc. destruct (band_color color nb i) as [col|].
    + unfold plot_curve. rewrite band_length, Hl, Nat.eqb_refl. specialize (IH (fun j Hj => His j (or_intror Hj))).
      destruct (draw_bands k disp nb color fill is) as [[cs ss]|e].
      * destruct IH as [H1 H2]. split; [constructor; auto|]. destruct fill; [|exact H2]. cbn [app]. constructor; auto.
      * destruct IH as [-> [b [Hb H]]]. split; auto. exists b. split; [right|]; auto.
    + split; auto. exists i. split; [left|]; auto.
Qed.

Lemma Forall2_nth_error {A B} (R : A -> B -> Prop) l l' : Forall2 R l l' -> forall i y, nth_error l' i = Some y -> exists x, nth_error l i = Some x /\ R x y.
Proof. induction 1 as [|x y l l' H HF IH]; intros [|i] z E; try discriminate; cbn in *; [injection E as <-; eauto|eauto]. Qed.

Lemma combine_parts {A B} (l : list A) (m : list B) : length l = length m -> map fst (combine l m) = l /\ map snd (combine l m) = m.
Proof.
  revert m. induction l as [|x l IH]; intros [|y m] H; try discriminate; [split; reflexivity|]. injection H as H. destruct (IH m H) as [E1 E2].
  cbn [combine map fst snd]. rewrite E1, E2. split; reflexivity.
Qed.

Lemma nth_error_seq0 n i x : nth_error (seq 0 n) i = Some x -> x = i /\ i < n.
Proof.
  intro H. assert (i < n) as Hi by (apply nth_error_length_lt in H; rewrite seq_length in H; exact H). split; auto.
  apply (nth_error_nth _ _ 0) in H. rewrite seq_nth in H by auto. cbn in H. auto.
Qed.

Lemma axis_exists P n (labels : list string) (disp : list (list Q)) scales : 1 <= n -> 1 <= P -> length (widths P scales) = P -> length labels = S P -> length disp = P * n ->
  exists k ticks, scale_xaxis (length labels) (length disp) scales = Some (k, ticks) /\ k <> [] /\ length k = length disp /\ length ticks = S P /\
    (forall i, i <= P -> (nth i ticks 0 == tick_position n (widths P scales) i)%Q) /\
    (forall i j, i < P -> j < n -> (nth (i * n + j) k 0 == tick_position n (widths P scales) i + inject_Z (Z.of_nat j) * nth i (widths P scales) 0)%Q).
Proof.
  intros Hn HP Hw Hl Hd. destruct (C69_axis P n (widths P scales) Hn Hw HP) as [k [ticks [E [Lk [Lt [Ht [Hk _]]]]]]].
  assert (scale_xaxis (length labels) (length disp) scales = scale_xaxis (S P) (P * n) (Some (widths P scales))) as E'.
  { rewrite Hl, Hd. unfold scale_xaxis. destruct (S P <=? 1); auto. destruct scales; auto. cbn [widths]. replace (S P - 1) with P by lia. reflexivity. }
  exists k, ticks. rewrite E'. split; auto. split; [intros ->; cbn in Lk; nia|]. split; [lia|]. split; auto. split; auto.
  intros i j Hi Hj. rewrite Hk, Ht by (auto; lia). reflexivity.
Qed.

(** A dispersion with [P] sections of [n] samples: one curve per band, through all samples; the samples of a section are
    equally far from each other, those of the high symmetry points are at the ticks. *)
Theorem C100_dispersion :
  forall P n nb disp labels scales color fill own,
    1 <= n -> 1 <= P -> length (widths P scales) = P -> length labels = S P -> length disp = P * n ->
    keeps_color color -> (forall b, b < nb -> exists v, colored color b v) ->
    let w := widths P scales in
    exists p, plot_dispersion nb disp labels scales color fill own = Drawn p /\
      length (dp_curves p) = nb /\
      (forall b c, nth_error (dp_curves p) b = Some c -> colored color b (cv_color c) /\ length (cv_points c) = P * n /\
         forall i j, i < P -> j < n -> exists x y, nth_error (cv_points c) (i * n + j) = Some (x, y) /\
           (x == tick_position n w i + inject_Z (Z.of_nat j) * nth i w 0)%Q /\ y = nth b (nth (i * n + j) disp []) 0%Q) /\
      (* the strips cover the energies of the bands *)
      length (dp_strips p) = (if fill then nb else 0) /\
      (forall b s, nth_error (dp_strips p) b = Some s -> colored color b (sp_color s) /\
         exists c, nth_error (dp_curves p) b = Some c /\
           (forall x y, In (x, y) (cv_points c) -> (x <= sp_end s /\ sp_low s <= y <= sp_high s)%Q) /\
           (exists x y, In (x, y) (cv_points c) /\ (sp_end s == x)%Q) /\
           (exists x y, In (x, y) (cv_points c) /\ (sp_low s == y)%Q) /\
           (exists x y, In (x, y) (cv_points c) /\ (sp_high s == y)%Q)) /\
      if own then
        exists a, dp_axis p = Some a /\ ka_labels a = labels /\ length (ka_ticks a) = S P /\
          (forall i, i <= P -> (nth i (ka_ticks a) 0 == tick_position n w i)%Q) /\ (ka_limit a == tick_position n w P)%Q
      else dp_axis p = None.
Proof.
  intros P n nb disp labels scales color fill own Hn HP Hw Hl Hd Hkc Hcol w.
  destruct (axis_exists P n labels disp scales Hn HP Hw Hl Hd) as [k [ticks [E [Hne [Lk [Lt [Ht Hk]]]]]]]. fold w in Ht, Hk.
  unfold plot_dispersion. rewrite E. destruct k as [|k0 kr] eqn:Ek; [congruence|]. rewrite <- Ek in *. clear k0 kr Ek.
  assert (forall i, In i (seq 0 nb) -> i < nb) as His by (intros i Hi; apply in_seq in Hi; lia).
  pose proof (draw_bands_spec k disp nb color fill Hkc Lk (seq 0 nb) His) as HB.
  destruct (draw_bands k disp nb color fill (seq 0 nb)) as [[cs ss]|e].
  2:{ destruct HB as [_ [b [Hb H]]]. destruct (Hcol b (His b Hb)) as [v Hv]. destruct (H v Hv). }
  destruct HB as [HC HS].
  assert (length cs = nb) as Lc by (apply Forall2_len in HC; rewrite seq_length in HC; auto).
  assert (forall b c, nth_error cs b = Some c -> colored color b (cv_color c) /\ cv_points c = combine k (band disp b)) as HC'.
  { intros b c Hc. destruct (Forall2_nth_error _ _ _ HC b c Hc) as [b' [Hb' H]]. apply nth_error_seq0 in Hb'. destruct Hb' as [-> _]. exact H. }
  assert (disp <> []) as Hdn by (intros ->; cbn in Hd; nia).
  eexists. split; [reflexivity|]. cbn [dp_curves dp_strips dp_axis]. split; [exact Lc|]. split; [|split; [|split]].
  - intros b c Hc. destruct (HC' b c Hc) as [H1 H2]. split; auto. rewrite H2. split; [rewrite combine_length, band_length; lia|].
    intros i j Hi Hj. assert (i * n + j < P * n) as Hij by nia.
    exists (nth (i * n + j) k 0%Q), (nth (i * n + j) (band disp b) 0%Q). split; [|split; [apply Hk; auto|apply nth_band; lia]].
    rewrite <- combine_nth by (rewrite band_length; auto). apply nth_error_nth'. rewrite combine_length, band_length. lia.
  - destruct fill; [apply Forall2_len in HS; rewrite seq_length in HS; auto|rewrite HS; reflexivity].
  - intros b s Hs. destruct fill; [|rewrite HS in Hs; destruct b; discriminate].
    destruct (Forall2_nth_error _ _ _ HS b s Hs) as [b' [Hb' [H1 [H2 [H3 H4]]]]]. apply nth_error_seq0 in Hb'. destruct Hb' as [-> Hb]. split; auto.
    destruct (nth_error_lt cs b) as [c Hc]; [lia|]. exists c. split; auto. destruct (HC' b c Hc) as [_ ->]. rewrite H2, H3, H4.
    assert (band disp b <> []) as Hbn by (intro E'; apply (f_equal (@length _)) in E'; rewrite band_length in E'; destruct disp; [congruence|discriminate]).
    destruct (band_max_spec k Hne) as [[x [Hx Ex]] M1]. destruct (band_min_spec _ Hbn) as [[y [Hy Ey]] M2]. destruct (band_max_spec _ Hbn) as [[z [Hz Ez]] M3].
    split; [|split; [|split]].
    + intros u v Huv. pose proof (in_combine_l _ _ _ _ Huv). pose proof (in_combine_r _ _ _ _ Huv). auto.
    + destruct (In_nth _ _ 0%Q Hx) as [i [Hi <-]]. exists (nth i k 0%Q), (nth i (band disp b) 0%Q). split; [|exact Ex].
      rewrite <- combine_nth by (rewrite band_length; auto). apply nth_In. rewrite combine_length, band_length. lia.
    + destruct (In_nth _ _ 0%Q Hy) as [i [Hi <-]]. exists (nth i k 0%Q), (nth i (band disp b) 0%Q). split; [|exact Ey].
      rewrite <- combine_nth by (rewrite band_length; auto). rewrite band_length in Hi. apply nth_In. rewrite combine_length, band_length. lia.
    + destruct (In_nth _ _ 0%Q Hz) as [i [Hi <-]]. exists (nth i k 0%Q), (nth i (band disp b) 0%Q). split; [|exact Ez].
      rewrite <- combine_nth by (rewrite band_length; auto). rewrite band_length in Hi. apply nth_In. rewrite combine_length, band_length. lia.
  - destruct own; [|reflexivity]. eexists. split; [reflexivity|]. cbn [bandpath_subplots ka_labels ka_ticks ka_limit]. split; auto. split; auto. split; auto.
    rewrite <- (Ht P) by lia. destruct (exists_last (l := ticks)) as [q [z Eq]]; [intros ->; discriminate|].
    rewrite Eq in *. rewrite last_last. rewrite app_length in Lt. cbn in Lt. rewrite app_nth2 by lia. replace (P - length q) with 0 by lia. reflexivity.
Qed.

(** Two bands over three points, sections of two samples, the second one three times as wide. *)
Example C100_dispersion_example :
  plot_dispersion 2 [[0; 1]; [2; 3]; [2; 5]; [-1; 4]]%Q ["A"; "B"; "A"]%string (Some [1; 3]%Q) (ColList [IColor (VStr "r"); IColor (VStr "b")]) true true
  = Drawn (mkPlot
      [mkCurve [(0, 0); (1, 2); (1, 2); (4, -1)]%Q (VStr "r"); mkCurve [(0, 1); (1, 3); (1, 5); (4, 4)]%Q (VStr "b")]
      [mkStrip 4 (-1) 2 (VStr "r"); mkStrip 4 1 5 (VStr "b")]
      (Some (mkAxis [0; 1; 4]%Q ["A"; "B"; "A"]%string 4))) /\
  (1 <= 2 /\ length (widths 2 (Some [1; 3]%Q)) = 2 /\ length ["A"; "B"; "A"]%string = 3 /\
   length [[0; 1]; [2; 3]; [2; 5]; [-1; 4]]%Q = 2 * 2) /\
  keeps_color (ColList [IColor (VStr "r"); IColor (VStr "b")]) /\
  (forall b, b < 2 -> exists v, colored (ColList [IColor (VStr "r"); IColor (VStr "b")]) b v).
Proof.
  split; [vm_compute; reflexivity|]. split; [repeat split; auto|]. split; [intros a [H|[H|[]]]; discriminate|].
  intros [|[|b]] Hb; [exists (VStr "r")|exists (VStr "b")|lia]; apply co_item; reflexivity.
Qed.

(** A section with a negative scale runs back: the strip reaches to the largest position. *)
Example C100_strip_example :
  plot_dispersion 1 [[0]; [2]; [2]; [5]]%Q ["A"; "B"; "A"]%string (Some [3; -1]%Q) (ColOne (VStr "r")) true true
  = Drawn (mkPlot [mkCurve [(0, 0); (3, 2); (3, 2); (2, 5)]%Q (VStr "r")] [mkStrip 3 0 5 (VStr "r")] (Some (mkAxis [0; 3; 2]%Q ["A"; "B"; "A"]%string 2))).
Proof. vm_compute. reflexivity. Qed.

(** Without colours and scales: colours of the cycle, unit steps. *)
Example C100_default_example :
  plot_dispersion 2 [[0; 1]; [2; 3]]%Q ["A"; "B"]%string None ColNone false false
  = Drawn (mkPlot [mkCurve [(0, 0); (1, 2)]%Q (VStr "C0"); mkCurve [(0, 1); (1, 3)]%Q (VStr "C1")] [] None) /\
  colored ColNone 1 (VStr "C1").
Proof. split; [vm_compute; reflexivity|]. apply (co_none 1). Qed.

(** A band without a colour: the plot fails. *)
Theorem C100_no_color :
  forall P n nb disp labels scales color fill own b,
    1 <= n -> 1 <= P -> length (widths P scales) = P -> length labels = S P -> length disp = P * n ->
    keeps_color color -> b < nb -> (forall v, ~ colored color b v) ->
    plot_dispersion nb disp labels scales color fill own = Failed BadColor.
Proof.
  intros P n nb disp labels scales color fill own b Hn HP Hw Hl Hd Hkc Hb Hno.
  destruct (axis_exists P n labels disp scales Hn HP Hw Hl Hd) as [k [ticks [E [Hne [Lk _]]]]].
  unfold plot_dispersion. rewrite E. destruct k as [|k0 kr] eqn:Ek; [congruence|]. rewrite <- Ek in *. clear k0 kr Ek.
  assert (forall i, In i (seq 0 nb) -> i < nb) as His by (intros i Hi; apply in_seq in Hi; lia).
  pose proof (draw_bands_spec k disp nb color fill Hkc Lk (seq 0 nb) His) as HB.
  destruct (draw_bands k disp nb color fill (seq 0 nb)) as [[cs ss]|e]; [|destruct HB as [-> _]; reflexivity].
  destruct HB as [HC _]. exfalso. pose proof (Forall2_len HC) as HL. rewrite seq_length in HL.
  destruct (nth_error_lt cs b) as [c Hc]; [lia|]. destruct (Forall2_nth_error _ _ _ HC b c Hc) as [b' [Hb' [H _]]].
  apply nth_error_seq0 in Hb'. destruct Hb' as [-> _]. exact (Hno _ H).
Qed.

(** One atom is not accepted as the colour of the bands, and a list must not be shorter than the number of bands. *)
Corollary C100_atom_refuted :
  forall P n nb disp labels scales a fill own,
    1 <= n -> 1 <= P -> 1 <= nb -> length (widths P scales) = P -> length labels = S P -> length disp = P * n ->
    plot_dispersion nb disp labels scales (ColAtom a) fill own = Failed BadColor.
Proof.
  intros P n nb disp labels scales a fill own Hn HP Hnb Hw Hl Hd. apply (C100_no_color P n _ _ _ _ _ _ _ 0); auto; [exact I|]. intros v H. inversion H.
Qed.

Corollary C100_short_list :
  forall P n nb disp labels scales l fill own,
    1 <= n -> 1 <= P -> length (widths P scales) = P -> length labels = S P -> length disp = P * n ->
    keeps_color (ColList l) -> length l < nb ->
    plot_dispersion nb disp labels scales (ColList l) fill own = Failed BadColor.
Proof.
  intros P n nb disp labels scales l fill own Hn HP Hw Hl Hd Hk Hs. apply (C100_no_color P n _ _ _ _ _ _ _ (length l)); auto.
  intros v H. inversion H as [| |l' b' v' E|l' b' a' v' E]; subst; apply nth_error_length_lt in E; lia.
Qed.

Example C100_atom_example :
  let a := mkAtom 0 "A" (VNum 1) [("color", VStr "g"); ("radius", VNum (1#5))]%string in
  plot_dispersion 1 [[0]; [2]]%Q ["A"; "B"]%string None (ColAtom a) false false = Failed BadColor /\
  plot_dispersion 1 [[0]; [2]]%Q ["A"; "B"]%string None (ColList [IAtom a]) false false
  = Drawn (mkPlot [mkCurve [(0, 0); (1, 2)]%Q (VStr "g")] [] None) /\
  plot_dispersion 2 [[0; 1]; [2; 1]]%Q ["A"; "B"]%string None (ColList [IAtom a]) false false = Failed BadColor /\
  keeps_color (ColList [IAtom a]).
Proof. cbv zeta. repeat split; try (vm_compute; reflexivity). intros a [H|[]]. injection H as <-. discriminate. Qed.

(** A number of samples that the sections do not divide evenly: matplotlib gets lists of different lengths. *)
Theorem C100_uneven :
  forall P nb disp labels scales color fill own,
    1 <= P -> 1 <= nb -> length (widths P scales) = P -> length labels = S P -> 1 <= length disp ->
    keeps_color color -> (exists v, colored color 0 v) ->
    (forall n, length disp <> P * n) ->
    plot_dispersion nb disp labels scales color fill own = Failed BadLength.
Proof.
  intros P nb disp labels scales color fill own HP Hnb Hw Hl Hd Hkc [v Hv] Hno.
  unfold plot_dispersion. assert (exists k ticks, scale_xaxis (length labels) (length disp) scales = Some (k, ticks) /\ exists n, length k = P * n /\ 1 <= n) as [k [ticks [E [n [Lk Hn]]]]].
  { unfold scale_xaxis. destruct (Nat.leb_spec (length labels) 1); [lia|]. replace (length labels - 1) with P by lia.
    set (n := sect_size (length disp) P). assert (1 <= n) as Hn.
    { unfold n, sect_size. set (q := (inject_Z (Z.of_nat (length disp)) / inject_Z (Z.of_nat P))%Q).
      assert ((0 < q)%Q) as Hq. { unfold q. apply Qlt_shift_div_l; [rewrite <- (Zlt_Qlt 0); lia|]. rewrite Qmult_0_l. rewrite <- (Zlt_Qlt 0). lia. }
      pose proof (Qle_ceiling q) as Hc. assert ((0 < inject_Z (Qceiling q))%Q) as H0 by lra. rewrite <- (Zlt_Qlt 0) in H0. lia. }
    change (match scales with Some s => s | None => repeat 1%Q P end) with (widths P scales).
    destruct (scale_loop_spec n (widths P scales) 0%Q [] [0%Q] Hn) as [k [t [E [Lk _]]]]. rewrite Hw in Lk.
    exists k, (0%Q :: t). split; [rewrite E; reflexivity|]. exists n. auto. }
  rewrite E. destruct k as [|k0 kr] eqn:Ek; [cbn in Lk; nia|]. rewrite <- Ek in *. clear k0 kr Ek.
  destruct nb as [|nb]; [lia|]. cbn [seq draw_bands]. pose proof (band_color_spec color (S nb) 0 (Nat.lt_0_succ nb) Hkc) as Hc.
  destruct (band_color color (S nb) 0) as [col|]; [|destruct (Hc v Hv)].
  unfold plot_curve. rewrite band_length. destruct (Nat.eqb_spec (length k) (length disp)) as [E'|_]; [|reflexivity].
  destruct (Hno n). lia.
Qed.

Example C100_uneven_example :
  plot_dispersion 1 [[0]; [1]; [2]]%Q ["A"; "B"; "C"]%string None ColNone false false = Failed BadLength /\ (forall n, 3 <> 2 * n).
Proof. split; [vm_compute; reflexivity|]. intros n. lia. Qed.

(** A number of scales that is not the number of sections. *)
Theorem C100_wrong_scales :
  forall P n nb disp labels scales color fill own,
    1 <= n -> 1 <= P -> 1 <= nb -> length labels = S P -> length disp = P * n ->
    scales <> [] -> length scales <> P -> keeps_color color -> (exists v, colored color 0 v) ->
    plot_dispersion nb disp labels (Some scales) color fill own = Failed BadLength.
Proof.
  intros P n nb disp labels scales color fill own Hn HP Hnb Hl Hd Hs Hw Hkc [v Hv].
  unfold plot_dispersion, scale_xaxis. destruct (Nat.leb_spec (length labels) 1); [lia|]. replace (length labels - 1) with P by lia.
  rewrite Hd, sect_size_exact by auto. destruct (scale_loop_spec n scales 0%Q [] [0%Q] Hn) as [k [t [E [Lk _]]]]. rewrite E. cbn [app].
  assert (1 <= length scales) as H1 by (destruct scales; [congruence|cbn; lia]).
  destruct k as [|k0 kr] eqn:Ek; [cbn in Lk; nia|]. rewrite <- Ek in *. clear k0 kr Ek.
  destruct nb as [|nb]; [lia|]. cbn [seq draw_bands]. pose proof (band_color_spec color (S nb) 0 (Nat.lt_0_succ nb) Hkc) as Hc.
  destruct (band_color color (S nb) 0) as [col|]; [|destruct (Hc v Hv)].
  unfold plot_curve. rewrite band_length, Hd, Lk. destruct (Nat.eqb_spec (length scales * n) (P * n)) as [E'|_]; [|reflexivity].
  apply Nat.mul_cancel_r in E'; [contradiction|lia].
Qed.

Example C100_wrong_scales_example :
  plot_dispersion 1 [[0]; [1]; [2]; [3]]%Q ["A"; "B"; "C"]%string (Some [1%Q]) ColNone false false = Failed BadLength /\
  plot_dispersion 1 [[0]; [1]; [2]; [3]]%Q ["A"; "B"; "C"]%string (Some [1; 1; 1]%Q) ColNone false false = Failed BadLength.
Proof. vm_compute. auto. Qed.

(** Fewer than two labels, no samples, or an empty list of scales. *)
Theorem C100_no_axis :
  forall nb disp labels scales color fill own,
    length labels <= 1 \/ disp = [] \/ scales = Some [] ->
    plot_dispersion nb disp labels scales color fill own = Failed BadAxis.
Proof.
  intros nb disp labels scales color fill own H. unfold plot_dispersion, scale_xaxis. destruct (Nat.leb_spec (length labels) 1) as [|Hl]; [reflexivity|].
  destruct H as [H|[->| ->]]; [lia| |reflexivity].
  replace (sect_size (length (@nil (list Q))) (length labels - 1)) with 0 by reflexivity.
  destruct scales as [[|x s]|]; [reflexivity|reflexivity|]. destruct (length labels - 1) eqn:E; [lia|reflexivity].
Qed.

Example C100_no_axis_example :
  plot_dispersion 1 [[0]; [1]]%Q ["A"]%string None ColNone false false = Failed BadAxis /\
  plot_dispersion 1 [] ["A"; "B"]%string None ColNone false false = Failed BadAxis /\
  plot_dispersion 1 [[0]; [1]]%Q ["A"; "B"]%string (Some []) ColNone false false = Failed BadAxis.
Proof. vm_compute. auto. Qed.

(** *** The densities of states *)

(** Density [i] is drawn upright in the colour of band [i]; there is no colour for more densities than bands unless a
    longer list is given. *)
Theorem C100_dos :
  forall nb disp dos_data labels scales color fill own p,
    plot_dispersion nb disp labels scales color fill own = Drawn p ->
    (forall bins dos, In (bins, dos) dos_data -> length bins = length dos) -> keeps_color color ->
    (length dos_data <= nb -> (forall i, i < length dos_data -> exists v, colored color i v) ->
     exists cs, plot_disp_dos nb disp dos_data labels scales color fill own = Drawn (p, cs) /\ length cs = length dos_data /\
       forall i bins dos, nth_error dos_data i = Some (bins, dos) ->
         exists c, nth_error cs i = Some c /\ colored color i (cv_color c) /\ map fst (cv_points c) = dos /\ map snd (cv_points c) = bins) /\
    (nb < length dos_data -> (forall l, color <> ColList l) ->
     plot_disp_dos nb disp dos_data labels scales color fill own = Failed BadColor).
Proof.
  intros nb disp dos_data labels scales color fill own p Hp Hlen Hkc. unfold plot_disp_dos. rewrite Hp. split.
  - intros Hnb Hcol.
    assert (forall ds i, (forall bins dos, In (bins, dos) ds -> length bins = length dos) -> i + length ds <= nb ->
              (forall j, j < length ds -> exists v, colored color (i + j) v) ->
              exists cs, draw_dos nb color i ds = Drawn cs /\ length cs = length ds /\
                forall j bins dos, nth_error ds j = Some (bins, dos) ->
                  exists c, nth_error cs j = Some c /\ colored color (i + j) (cv_color c) /\ map fst (cv_points c) = dos /\ map snd (cv_points c) = bins) as H.
    { induction ds as [|[bins dos] ds IH]; intros i HL Hi Hc.
      - exists []. split; [reflexivity|]. split; auto. intros [|j] bins dos; discriminate.
      - cbn [draw_dos length] in *. pose proof (band_color_spec color nb i ltac:(lia) Hkc) as Hb.
        destruct (Hc 0 ltac:(lia)) as [v Hv]. rewrite Nat.add_0_r in Hv. destruct (band_color color nb i) as [col|]; [|destruct (Hb v Hv)].
        unfold plot_curve. pose proof (HL bins dos (or_introl eq_refl)) as Ll. rewrite <- Ll, Nat.eqb_refl.
        destruct (IH (S i)) as [cs [E [Lc H]]]; [intros; apply HL; right; auto|lia|intros j Hj; destruct (Hc (S j) ltac:(lia)) as [w Hw]; exists w; replace (S i + j) with (i + S j) by lia; exact Hw|].
        rewrite E. eexists. split; [reflexivity|]. split; [cbn; lia|].
        intros [|j] b' d' Hj; cbn in Hj.
        + injection Hj as <- <-. eexists. split; [reflexivity|]. cbn [cv_color cv_points]. rewrite Nat.add_0_r. split; auto.
          apply combine_parts. auto.
        + destruct (H j b' d' Hj) as [c [H1 H2]]. exists c. split; [exact H1|]. replace (i + S j) with (S i + j) by lia. exact H2. }
    destruct (H dos_data 0) as [cs [E [Lc Hc]]]; auto. exists cs. rewrite E. split; auto.
  - intros Hnb Hnl.
    assert (forall ds i, (forall bins dos, In (bins, dos) ds -> length bins = length dos) -> i <= nb -> nb < i + length ds -> draw_dos nb color i ds = Failed BadColor) as H.
    { induction ds as [|[bins dos] ds IH]; intros i HL Hi Hn; cbn [length] in Hn; [lia|]. cbn [draw_dos].
      destruct (band_color color nb i) as [col|] eqn:E; [|reflexivity].
      assert (i < nb) as Hlt.
      { destruct color as [|v|a|l]; cbn [band_color] in E; try discriminate; try (destruct (Nat.ltb_spec i nb); [assumption|discriminate]). destruct (Hnl l eq_refl). }
      unfold plot_curve. rewrite <- (HL bins dos (or_introl eq_refl)), Nat.eqb_refl. rewrite IH; [reflexivity|intros; apply HL; right; auto|lia|lia]. }
    rewrite H; auto. lia.
Qed.

Example C100_dos_example :
  plot_disp_dos 1 [[0]; [2]]%Q [([0; 1; 2], [5; 6; 7])]%Q ["A"; "B"]%string None ColNone false false
  = Drawn (mkPlot [mkCurve [(0, 0); (1, 2)]%Q (VStr "C0")] [] None, [mkCurve [(5, 0); (6, 1); (7, 2)]%Q (VStr "C0")]) /\
  plot_disp_dos 1 [[0]; [2]]%Q [([0], [5]); ([0], [5])]%Q ["A"; "B"]%string None ColNone false false = Failed BadColor /\
  plot_disp_dos 1 [[0]; [2]]%Q [([0], [5]); ([0], [5])]%Q ["A"; "B"]%string None (ColList [IColor (VStr "r"); IColor (VStr "b")]) false false
  = Drawn (mkPlot [mkCurve [(0, 0); (1, 2)]%Q (VStr "r")] [] None, [mkCurve [(5, 0)]%Q (VStr "r"); mkCurve [(5, 0)]%Q (VStr "b")]).
Proof. vm_compute. auto. Qed.

(** A density with another number of values than energies. *)
Theorem C100_dos_lengths :
  forall nb disp dos_data labels scales color fill own p bins dos,
    plot_dispersion nb disp labels scales color fill own = Drawn p -> keeps_color color ->
    length dos_data <= nb -> (forall i, i < length dos_data -> exists v, colored color i v) ->
    In (bins, dos) dos_data -> length bins <> length dos ->
    plot_disp_dos nb disp dos_data labels scales color fill own = Failed BadLength.
Proof.
  intros nb disp dos_data labels scales color fill own p bins dos Hp Hkc Hnb Hcol Hin Hne. unfold plot_disp_dos. rewrite Hp.
  assert (forall ds i, i + length ds <= nb -> (forall j, j < length ds -> exists v, colored color (i + j) v) -> In (bins, dos) ds -> draw_dos nb color i ds = Failed BadLength) as H.
  { induction ds as [|[b d] ds IH]; intros i Hi Hc Hd; [destruct Hd|]. cbn [draw_dos length] in *.
    pose proof (band_color_spec color nb i ltac:(lia) Hkc) as Hb. destruct (Hc 0 ltac:(lia)) as [v Hv]. rewrite Nat.add_0_r in Hv.
    destruct (band_color color nb i) as [col|]; [|destruct (Hb v Hv)]. unfold plot_curve. destruct (Nat.eqb_spec (length d) (length b)) as [E|_]; [|reflexivity].
    destruct Hd as [Hd|Hd]; [injection Hd as -> ->; congruence|].
    rewrite IH; auto; [lia|]. intros j Hj. destruct (Hc (S j) ltac:(lia)) as [w Hw]. exists w. replace (S i + j) with (i + S j) by lia. exact Hw. }
  rewrite (H dos_data 0); auto.
Qed.

Example C100_dos_lengths_example :
  plot_disp_dos 2 [[0; 1]; [2; 3]]%Q [([0], [5]); ([0; 1], [5])]%Q ["A"; "B"]%string None ColNone false false = Failed BadLength.
Proof. vm_compute. reflexivity. Qed.

(** *** The axes of a path *)

(** The axes made by [subplots] have the tick of point [i] at [i * n], while the first sample of section [i] is drawn at
    [i * (n - 1)]: in a plot with unit steps into these axes, the ticks are off by [i]. *)
Theorem C100_subplots_off :
  forall (p : path) P n nb disp color,
    pa_sect p = n -> length (pa_points p) = S P -> length (pa_labels p) = S P -> 1 <= n -> 1 <= P -> length disp = P * n ->
    keeps_color color -> (forall b, b < nb -> exists v, colored color b v) ->
    exists q, plot_dispersion nb disp (pa_labels p) None color false false = Drawn q /\ dp_axis q = None /\
      length (ka_ticks (path_subplots p)) = S P /\ ka_labels (path_subplots p) = pa_labels p /\
      (ka_limit (path_subplots p) == inject_Z (Z.of_nat (P * n)))%Q /\
      forall b c i, nth_error (dp_curves q) b = Some c -> i < P ->
        exists x y, nth_error (cv_points c) (i * n) = Some (x, y) /\
          (nth i (ka_ticks (path_subplots p)) 0 == x + inject_Z (Z.of_nat i))%Q.
Proof.
  intros p P n nb disp color Hs Hp Hl Hn HP Hd Hk Hc.
  assert (length (widths P None) = P) as Hw by (cbn; apply repeat_length).
  destruct (C100_dispersion P n nb disp (pa_labels p) None color false false Hn HP Hw Hl Hd Hk Hc) as [q [E [_ [HC [_ [_ HA]]]]]].
  exists q. split; auto. split; auto. unfold path_subplots, bandpath_subplots, get_ticks. cbn [ka_ticks ka_labels ka_limit fst snd]. rewrite Hp, Hs.
  split; [rewrite !map_length, seq_length; auto|]. split; auto. split.
  { rewrite seq_S, !map_app. cbn [map]. rewrite last_last. reflexivity. }
  intros b c i Hbc Hi. destruct (HC b c Hbc) as [_ [_ H]]. destruct (H i 0 Hi ltac:(lia)) as [x [y [H1 [H2 _]]]]. rewrite Nat.add_0_r in H1.
  exists x, y. split; auto. rewrite H2. rewrite map_map. rewrite (nth_map_in _ _ _ 0) by (rewrite seq_length; lia). rewrite seq_nth by lia. cbn [Nat.add widths].
  clear - Hn Hi. assert ((tick_position n (repeat 1%Q P) i == inject_Z (Z.of_nat (i * (n - 1))))%Q) as HT.
  { revert P Hi. induction i as [|i IH]; intros [|P] Hi; try lia; [reflexivity|]. cbn [repeat tick_position].
    rewrite (IH P) by lia. rewrite Qmult_1_r. rewrite <- inject_Z_plus. apply inject_Z_injective. nia. }
  rewrite HT. rewrite Qmult_0_l, Qplus_0_r, <- inject_Z_plus. apply inject_Z_injective. nia.
Qed.

(** Three points, three samples per section: ticks at 0, 3, 6, samples of the points at 0, 2 and 4. *)
Example C100_subplots_example :
  let p := mkPath 1 ["A"; "B"; "A"]%string [[0]; [1]; [0]]%Q 3 in
  path_subplots p = mkAxis [0; 3; 6]%Q ["A"; "B"; "A"]%string 6 /\
  plot_dispersion 1 [[10]; [11]; [12]; [12]; [11]; [10]]%Q (pa_labels p) None ColNone false false
  = Drawn (mkPlot [mkCurve [(0, 10); (1, 11); (2, 12); (2, 12); (3, 11); (4, 10)]%Q (VStr "C0")] [] None).
Proof. vm_compute. auto. Qed.

(** ** C101: plot_bands *)

(** Bands over a line: one curve per band, through the energies at the wave numbers. *)
Theorem C101_line :
  forall k rest bands label,
    bands <> [] -> k <> [] ->
    ((forall e, In e bands -> length e = length k) ->
     exists cs, plot_bands (k :: rest) (Bands1 bands) label = Drawn (Curves cs) /\
       length cs = length bands /\
       forall b e, nth_error bands b = Some e -> exists c, nth_error cs b = Some c /\ map fst c = k /\ map snd c = e) /\
    ((exists e, In e bands /\ length e <> length k) -> plot_bands (k :: rest) (Bands1 bands) label = Failed BadLength).
Proof.
  intros k rest bands label _ Hk. cbn [plot_bands]. split.
  - intro HL. replace (forallb _ bands) with true by (symmetry; apply forallb_forall; intros e He; apply Nat.eqb_eq; auto). cbn [negb].
    destruct k as [|k0 kr] eqn:Ek; [congruence|]. rewrite <- Ek in *. clear k0 kr Ek. eexists. split; [reflexivity|]. split; [apply map_length|].
    intros b e Hb. exists (combine k e). split; [apply map_nth_error; auto|]. apply combine_parts. symmetry. apply HL. apply (nth_error_In _ _ Hb).
  - intros [e [He Hl]]. destruct (forallb _ bands) eqn:E; [|reflexivity]. rewrite forallb_forall in E. apply E in He. apply Nat.eqb_eq in He. contradiction.
Qed.

Example C101_line_example :
  plot_bands [[0; 1; 2]]%Q (Bands1 [[5; 6; 7]; [1; 2; 4]]%Q) "E" = Drawn (Curves [[(0, 5); (1, 6); (2, 7)]; [(0, 1); (1, 2); (2, 4)]]%Q) /\
  plot_bands [[0; 1]]%Q (Bands1 [[5; 6; 7]]%Q) "E" = Failed BadLength.
Proof. vm_compute. auto. Qed.

(** The tables of the bands have [rows] rows of [cols] energies. *)
Definition tables (rows cols : nat) (b : list (list (list Q))) : Prop :=
  Forall (fun t => length t = rows /\ Forall (fun r => length r = cols) t) b.

(** The height at (row i, column j): the energy of a single band, or the sum of the absolute energies of all bands. *)
Definition height_at (b : list (list (list Q))) (i j : nat) : Q :=
  match b with
  | [t] => nth j (nth i t []) 0%Q
  | _ => fold_right Qplus 0%Q (map (fun t => Qabs (nth j (nth i t []) 0%Q)) b)
  end.

(** Bands over a plane: row [i] of the table belongs to the wave number [ky i], column [j] to [kx j]; and the label of the
    colour bar has bars around it, also for one band, whose sign is kept. *)
Theorem C101_plane :
  forall kx ky rows cols b label,
    b <> [] -> tables rows cols b -> 2 <= rows -> 2 <= cols ->
    (length ky = rows -> length kx = cols ->
     exists h l, plot_bands [kx; ky] (Bands2 rows cols b) label = Drawn (Contours h l) /\
       length h = rows /\ Forall (fun r => length r = cols) h /\
       (forall i j, i < rows -> j < cols -> exists z, nth_error (nth i h []) j = Some (nth j kx 0%Q, nth i ky 0%Q, z) /\ (z == height_at b i j)%Q) /\
       l = (if String.eqb label "" then None else Some (String.append "|" (String.append label "|")))) /\
    (length ky <> rows \/ length kx <> cols -> plot_bands [kx; ky] (Bands2 rows cols b) label = Failed BadLength).
Proof.
  intros kx ky rows cols b label Hb HT Hr Hc. cbn [plot_bands]. split.
  - intros Hy Hx. rewrite Hy, Hx, !Nat.eqb_refl. destruct (Nat.leb_spec 2 rows); [|lia]. destruct (Nat.leb_spec 2 cols); [|lia]. cbn [andb].
    set (z := heights_of rows cols b).
    assert (length z = rows /\ Forall (fun r => length r = cols) z /\ forall i j, i < rows -> j < cols -> (nth j (nth i z []) 0 == height_at b i j)%Q) as [Lz [Fz Hz]].
    { unfold z, heights_of, height_at. destruct b as [|t [|t' b]]; [congruence| |].
      - inversion HT as [|? ? [H1 H2] _]; subst. split; auto. split; auto. intros. reflexivity.
      - set (bs := t :: t' :: b). unfold abs_sum. split; [rewrite map_length, seq_length; auto|]. split.
        + apply Forall_forall. intros r Hr'. apply in_map_iff in Hr'. destruct Hr' as [i [<- _]]. rewrite map_length, seq_length. reflexivity.
        + intros i j Hi Hj. rewrite (nth_map_in _ _ _ 0) by (rewrite seq_length; auto). rewrite seq_nth by auto. rewrite (nth_map_in _ _ _ 0) by (rewrite seq_length; auto). rewrite seq_nth by auto.
          cbn [Nat.add]. clearbody bs. induction bs as [|u bs IH]; [reflexivity|]. cbn [fold_right map]. rewrite IH. reflexivity. }
    clearbody z. eexists. eexists. split; [reflexivity|]. split; [rewrite map_length, combine_length; lia|].
    assert (forall i, i < rows -> length (nth i z []) = cols) as Lr.
    { intros i Hi. rewrite Forall_forall in Fz. apply Fz. apply nth_In. lia. }
    split; [|split].
    + apply Forall_forall. intros r Hr'. apply in_map_iff in Hr'. destruct Hr' as [[y zr] [<- Hin]]. apply in_combine_r in Hin. rewrite Forall_forall in Fz. rewrite map_length, combine_length. cbn [snd]. rewrite (Fz _ Hin). lia.
    + intros i j Hi Hj. exists (nth j (nth i z []) 0%Q). split; [|apply Hz; auto].
      rewrite (nth_map_in _ _ _ (0%Q, [])) by (rewrite combine_length; lia). rewrite combine_nth by lia. cbn [fst snd].
      rewrite (map_nth_error _ j (combine kx (nth i z [])) (d := (nth j kx 0%Q, nth j (nth i z []) 0%Q))); [reflexivity|].
      rewrite <- combine_nth by (rewrite Lr; auto). apply nth_error_nth'. rewrite combine_length, Lr by auto. lia.
    + unfold bar_label. destruct (String.eqb label ""); [reflexivity|]. rewrite Lz. destruct (Nat.eqb_spec rows 1); [lia|reflexivity].
  - intros [H|H].
    + destruct (Nat.eqb_spec (length ky) rows); [contradiction|reflexivity].
    + destruct (Nat.eqb_spec (length kx) cols); [contradiction|]. rewrite andb_false_r. reflexivity.
Qed.

(** The label of the colour bar of one band announces absolute values, and a negative height is drawn. *)
Theorem C101_label_refuted :
  plot_bands [[0; 1]; [2; 3]]%Q (Bands2 2 2 [[[-1; 5]; [6; 7]]]%Q) "E(k)"
  = Drawn (Contours [[(0, 2, -1); (1, 2, 5)]; [(0, 3, 6); (1, 3, 7)]]%Q (Some "|E(k)|"%string)).
Proof. vm_compute. reflexivity. Qed.

(** Two bands over three times two wave numbers. *)
Example C101_plane_example :
  plot_bands [[0; 1]; [2; 3; 4]]%Q (Bands2 3 2 [[[-1; 5]; [6; 7]; [0; -2]]; [[1; 1]; [-2; 2]; [3; 3]]]%Q) "E"
  = Drawn (Contours [[(0, 2, 2); (1, 2, 6)]; [(0, 3, 8); (1, 3, 9)]; [(0, 4, 3); (1, 4, 5)]]%Q (Some "|E|"%string)) /\
  plot_bands [[2; 3; 4]; [0; 1]]%Q (Bands2 3 2 [[[-1; 5]; [6; 7]; [0; -2]]]%Q) "E" = Failed BadLength /\
  tables 3 2 [[[-1; 5]; [6; 7]; [0; -2]]; [[1; 1]; [-2; 2]; [3; 3]]]%Q.
Proof. split; [vm_compute; reflexivity|]. split; [vm_compute; reflexivity|]. unfold tables. repeat constructor. Qed.

(** Other dimensions are not supported, and a plane needs two lists of wave numbers. *)
Theorem C101_other :
  forall kgrid label,
    plot_bands kgrid BandsMore label = Failed NotImplementedErr /\
    (forall rows cols b, length kgrid <> 2 -> plot_bands kgrid (Bands2 rows cols b) label = Failed BadAxis).
Proof.
  intros kgrid label. split; [reflexivity|]. intros rows cols b H. destruct kgrid as [|x [|y [|z r]]]; try reflexivity. destruct H. reflexivity.
Qed.

Example C101_other_example : plot_bands [[0; 1]; [0; 1]; [0; 1]]%Q BandsMore "E" = Failed NotImplementedErr /\
  plot_bands [[0; 1]]%Q (Bands2 2 2 [[[1; 2]; [3; 4]]]%Q) "E" = Failed BadAxis /\ length [[0; 1]]%Q <> 2.
Proof. repeat split. discriminate. Qed.

Print Assumptions C100_dispersion.
Print Assumptions C100_no_color.
Print Assumptions C100_uneven.
Print Assumptions C100_dos.
Print Assumptions C100_subplots_off.
Print Assumptions C101_line.
Print Assumptions C101_plane.
Print Assumptions C101_label_refuted.
Print Assumptions C101_other.
