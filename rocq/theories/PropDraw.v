(** * Properties C109, C110 (lattpy/plotting.py: text, draw_indices; lattpy/spatial.py: VoronoiTree.draw) *)
From Coq Require Import Ascii String List ZArith QArith Qabs Bool Arith Lia Lqa.
From Coq Require Import DecimalString DecimalNat.
From Verif Require Import Np NpFacts LinAlg LinFacts UtilsModel SpecUtils SpecBasis AtomModel BasisModel BasisProofs SpatialModel SpecSpatial
  StructureModel DataModel SpecData DataFacts DataProofs PropData LatticeModel LatticeExamples IdentityModel PropIdentity PropLimits
  VoronoiModel SpecVoronoi VoronoiProofs PropPreset PropVoronoi PropHull KDProofs PlotModel SpecPlot PropPlot DrawModel.
Import ListNotations.
Open Scope nat_scope.
Open Scope list_scope.

(** ** Specification *)

(** The number that a string of decimal digits stands for, [acc] being the number of the digits before. *)
Fixpoint digits_value (acc : nat) (s : string) : nat :=
  match s with
  | EmptyString => acc
  | String c s => digits_value (10 * acc + (nat_of_ascii c - 48)) s
  end.

(** All characters are digits. *)
Fixpoint all_digits (s : string) : bool :=
  match s with EmptyString => true | String c s => (48 <=? nat_of_ascii c) && (nat_of_ascii c <=? 57) && all_digits s end.

(** What is added to coordinate [k] of a position. *)
Definition shift (o : label_offset) (k : nat) : Q :=
  match o with NoOffset => 0%Q | OffsetBy x => x | OffsetVector v => nth k v 0%Q end.

(** The vector given as offset has as many entries as a position. *)
Definition offset_fits (dim : nat) (o : label_offset) : Prop := match o with OffsetVector v => length v = dim | _ => True end.

(** ** C109: the labels *)

Lemma digits_uint u : forall acc, digits_value acc (NilEmpty.string_of_uint u) = Nat.of_uint_acc u acc /\ all_digits (NilEmpty.string_of_uint u) = true.
Proof.
  induction u as [|u IH|u IH|u IH|u IH|u IH|u IH|u IH|u IH|u IH|u IH]; intro acc; [split; reflexivity|..];
    cbn [NilEmpty.string_of_uint digits_value Nat.of_uint_acc all_digits]; rewrite (proj2 (IH 0)), (proj1 (IH _)), Nat.tail_mul_spec;
    (split; [|reflexivity]); f_equal; match goal with |- context [nat_of_ascii ?c] => let v := eval vm_compute in (nat_of_ascii c) in change (nat_of_ascii c) with v end; lia.
Qed.

Lemma show_nat_digits n : digits_value 0 (show_nat n) = n /\ all_digits (show_nat n) = true /\ show_nat n <> ""%string.
Proof.
  unfold show_nat, NilZero.string_of_uint. pose proof (Unsigned.of_to n) as F. unfold Nat.of_uint in F.
  destruct (Nat.to_uint n) as [|u|u|u|u|u|u|u|u|u|u] eqn:E; [split; [exact F|split; [reflexivity|discriminate]]|..];
    rewrite <- E, (proj1 (digits_uint _ _)), (proj2 (digits_uint _ 0)), E; (split; [exact F|split; [reflexivity|discriminate]]).
Qed.

Lemma combine_show (ps : list vec) m : combine (map show_nat (seq m (length ps))) ps = map (fun k => (show_nat (m + k), nth k ps [])) (seq 0 (length ps)).
Proof.
  revert m. induction ps as [|p ps IH]; intro m; [reflexivity|]. cbn [length seq map combine nth]. rewrite Nat.add_0_r. f_equal.
  rewrite IH, <- seq_shift, map_map. apply map_ext. intro k. cbn [nth]. f_equal. f_equal. lia.
Qed.

Lemma forall2_nth_error {A B} (R : A -> B -> Prop) l ys : Forall2 R l ys -> length ys = length l /\
  forall i y, nth_error ys i = Some y -> exists x, nth_error l i = Some x /\ R x y.
Proof.
  induction 1 as [|x y l ys Hxy H [IL IH]]; [split; [reflexivity|intros [|i] y E; discriminate]|].
  split; [cbn; congruence|]. intros [|i] z E; cbn in *; [injection E as <-; eauto|auto].
Qed.

Lemma seq_nth_error n i x : nth_error (seq 0 n) i = Some x -> x = i /\ i < n.
Proof.
  intro E. assert (i < n) as Hi by (rewrite <- (seq_length n 0); apply nth_error_Some; congruence).
  apply (nth_error_nth _ _ 0) in E. rewrite seq_nth in E by auto. auto.
Qed.

Lemma offset_length dim o : 2 <= dim -> offset_fits dim o -> length (offset_vector dim o) = dim /\ forall k, k < dim -> nth k (offset_vector dim o) 0%Q = shift o k.
Proof.
  intros H F. destruct o as [|x|v]; cbn [offset_vector shift offset_fits] in *; try rewrite repeat_length; (split; [try lia; auto|]); intros k Hk; auto;
    apply nth_repeat_lt; lia.
Qed.

Lemma all_positions d : wf d -> all_some (map (fun i => nth_error (d_positions d) i) (seq 0 (num_sites d))) = Some (d_positions d).
Proof.
  intro W. destruct (wf_positions _ (wf_c _ W)) as [Lp _]. unfold num_sites. unfold nsites in Lp. unfold vec in *. rewrite <- Lp.
  clear. generalize (d_positions d) as l. intro l.
  assert (forall s (k : nat), (forall i, nth_error l (k + i) = nth_error s i) -> all_some (map (fun i => nth_error l i) (seq k (length s))) = Some s) as G.
  { induction s as [|x s IH]; intros k Hk; [reflexivity|]. cbn [length seq map all_some]. pose proof (Hk 0) as H0. rewrite Nat.add_0_r in H0. rewrite H0. cbn [nth_error].
    rewrite IH; [reflexivity|]. intro i. specialize (Hk (S i)). cbn in Hk. rewrite <- Hk. f_equal. lia. }
  apply (G l 0). reflexivity.
Qed.

(** In the plane and in space every site gets one label: its number, at its position shifted by the offset. *)
Theorem C109_labels :
  forall ragged_ok d o,
    wf d -> 2 <= d_dim d -> offset_fits (d_dim d) o ->
    exists L, plot_labels ragged_ok d o = Some L /\ length L = nsites d /\
      forall i lb, nth_error L i = Some lb ->
        all_digits (lb_text lb) = true /\ lb_text lb <> ""%string /\ digits_value 0 (lb_text lb) = i /\
        length (lb_place lb) = d_dim d /\ forall k, k < d_dim d -> (nth k (lb_place lb) 0 == nth k (place_of d i) 0 + shift o k)%Q.
Proof.
  intros rg d o W H2 Ho. destruct (wf_positions _ (wf_c _ W)) as [Lp Hp].
  unfold plot_labels. rewrite (all_positions d W). unfold draw_indices, text. cbv zeta.
  destruct (d_positions d) as [|p0 ps] eqn:EP.
  { exists []. split; [reflexivity|]. split; [cbn in Lp; cbn [length]; exact Lp|]. intros [|i] lb Hl; discriminate Hl. }
  rewrite <- EP in *. cbn [hd]. replace (match d_positions d with [] => [[]] | _ :: _ => d_positions d end) with (d_positions d) by (rewrite EP; reflexivity).
  assert (length (hd [] (d_positions d)) = d_dim d) as -> by (rewrite EP; apply Hp; rewrite EP; left; reflexivity).
  destruct (offset_length (d_dim d) o H2 Ho) as [Lo No].
  rewrite combine_show, map_map.
  destruct (all_some_forall2 (fun x : nat => option_map (mkLabel (fst (show_nat (0 + x), nth x (d_positions d) []))) (label_place rg (snd (show_nat (0 + x), nth x (d_positions d) [])) (offset_vector (d_dim d) o)))
    (fun i lb => lb = mkLabel (show_nat i) (vadd (nth i (d_positions d) []) (offset_vector (d_dim d) o)) /\ length (nth i (d_positions d) []) = d_dim d)
    (seq 0 (length (d_positions d)))) as [L [EL HL]].
  { intros i Hi. apply in_seq in Hi. cbn [fst snd]. assert (length (nth i (d_positions d) []) = d_dim d) as Ln by (apply Hp, nth_In; unfold vec in *; lia).
    eexists. split; [|split; [reflexivity|exact Ln]]. unfold label_place.
    replace (match nth i (d_positions d) [] with [x] => if rg then Some [x; 0%Q] else None | _ => Some (nth i (d_positions d) []) end)
      with (Some (nth i (d_positions d) [])) by (destruct (nth i (d_positions d) []) as [|x [|y v]]; auto; cbn in Ln; lia).
    destruct (Nat.ltb_spec (length (nth i (d_positions d) [])) 2); [lia|].
    destruct (offset_vector (d_dim d) o) as [|x [|y v]] eqn:Ev; [cbn in Lo; lia|cbn in Lo; lia|]. rewrite <- Ev in *.
    rewrite Ln, Lo, Nat.eqb_refl. reflexivity. }
  exists L. split; [exact EL|]. destruct (forall2_nth_error _ _ _ HL) as [LL NL]. split; [rewrite LL, seq_length; exact Lp|].
  intros i lb Hl. destruct (NL i lb Hl) as [x [Hx [-> Ln]]]. apply seq_nth_error in Hx. destruct Hx as [-> Hi]. cbn [lb_text lb_place].
  destruct (show_nat_digits i) as (D1 & D2 & D3). split; [exact D2|]. split; [exact D3|]. split; [exact D1|].
  split; [rewrite vadd_length; lia|]. intros k Hk. rewrite nth_vadd by lia. rewrite No by exact Hk. reflexivity.
Qed.

(** Different labels have different texts, and sites at different positions get labels at different places. *)
Theorem C109_distinct :
  forall ragged_ok d o L i j lb1 lb2,
    wf d -> 2 <= d_dim d -> offset_fits (d_dim d) o -> plot_labels ragged_ok d o = Some L ->
    nth_error L i = Some lb1 -> nth_error L j = Some lb2 ->
    (lb_text lb1 = lb_text lb2 -> i = j) /\
    ((forall k, k < d_dim d -> (nth k (lb_place lb1) 0 == nth k (lb_place lb2) 0)%Q) ->
     (forall k, k < d_dim d -> (nth k (place_of d i) 0 == nth k (place_of d j) 0)%Q)).
Proof.
  intros rg d o L i j lb1 lb2 W H2 Ho EL E1 E2. destruct (C109_labels rg d o W H2 Ho) as (L' & EL' & _ & H).
  rewrite EL in EL'. injection EL' as <-. destruct (H i lb1 E1) as (_ & _ & A1 & _ & B1). destruct (H j lb2 E2) as (_ & _ & A2 & _ & B2).
  split; [intro E; rewrite <- A1, <- A2, E; reflexivity|]. intros E k Hk. specialize (E k Hk). rewrite (B1 k Hk), (B2 k Hk) in E. lra.
Qed.

(** On the line the first label raises with numpy 1.24 and later; before, the labels are below or above the sites. *)
Theorem C109_chain :
  forall d o,
    wf d -> d_dim d = 1 ->
    (0 < nsites d -> plot_labels false d o = None) /\
    (nsites d = 0 -> plot_labels false d o = Some []) /\
    (offset_fits 2 o -> exists L, plot_labels true d o = Some L /\ length L = nsites d /\
      forall i lb, nth_error L i = Some lb ->
        digits_value 0 (lb_text lb) = i /\ length (lb_place lb) = 2 /\
        (nth 0 (lb_place lb) 0 == nth 0 (place_of d i) 0 + shift o 0)%Q /\ (nth 1 (lb_place lb) 0 == shift o 1)%Q).
Proof.
  intros d o W H1. destruct (wf_positions _ (wf_c _ W)) as [Lp Hp]. unfold plot_labels. rewrite (all_positions d W). unfold draw_indices, text. cbv zeta.
  rewrite H1 in Hp. destruct (d_positions d) as [|p0 ps] eqn:EP.
  { split; [intro; cbn in Lp; unfold nsites in *; lia|]. split; [reflexivity|]. intros _. exists []. split; [reflexivity|]. split; [exact Lp|]. intros [|i] lb Hl; discriminate Hl. }
  rewrite <- EP in *. replace (match d_positions d with [] => [[]] | _ :: _ => d_positions d end) with (d_positions d) by (rewrite EP; reflexivity).
  assert (length (hd [] (d_positions d)) = 1) as -> by (rewrite EP; apply Hp; rewrite EP; left; reflexivity).
  replace (offset_vector 1 o) with (offset_vector 2 o) by (destruct o; reflexivity).
  rewrite combine_show, !map_map. cbn [fst snd].
  split; [|split].
  - intros _. replace (length (d_positions d)) with (S (length ps)) by (rewrite EP; reflexivity). cbn [seq map]. assert (length (nth 0 (d_positions d) []) = 1) as L0 by (apply Hp, nth_In; rewrite EP; cbn; lia).
    destruct (nth 0 (d_positions d) []) as [|x [|y v]]; try discriminate L0. reflexivity.
  - intro H0. rewrite EP in Lp. cbn in Lp. unfold nsites in *. lia.
  - intro Ho. destruct (offset_length 2 o (le_n 2) Ho) as [Lo No].
    destruct (all_some_forall2 (fun x : nat => option_map (mkLabel (show_nat (0 + x))) (label_place true (nth x (d_positions d) []) (offset_vector 2 o)))
      (fun i lb => lb = mkLabel (show_nat i) (vadd [nth 0 (nth i (d_positions d) []) 0%Q; 0%Q] (offset_vector 2 o)))
      (seq 0 (length (d_positions d)))) as [L [EL HL]].
    { intros i Hi. apply in_seq in Hi. assert (length (nth i (d_positions d) []) = 1) as Ln by (apply Hp, nth_In; unfold vec in *; lia).
      eexists. split; [|reflexivity]. destruct (nth i (d_positions d) []) as [|x [|y v]]; try discriminate Ln. unfold label_place. cbn [length Nat.ltb Nat.leb nth].
      destruct (offset_vector 2 o) as [|a [|b [|c v]]]; try discriminate Lo. reflexivity. }
    exists L. split; [exact EL|]. destruct (forall2_nth_error _ _ _ HL) as [LL NL]. split; [rewrite LL, seq_length; exact Lp|].
    intros i lb Hl. destruct (NL i lb Hl) as [x [Hx ->]]. apply seq_nth_error in Hx. destruct Hx as [-> Hi]. cbn [lb_text lb_place].
    split; [apply show_nat_digits|]. split; [rewrite vadd_length; auto|]. rewrite !nth_vadd by auto. rewrite !No by lia. cbn [nth]. unfold place_of. split; ring.
Qed.

(** [text] draws as many strings as there are pairs; without positions a string cannot be placed. *)
Theorem C109_zip :
  forall ragged_ok strings positions o,
    (positions <> [] -> forall L, text ragged_ok strings positions o = Some L ->
       length L = Nat.min (length strings) (length positions) /\ map lb_text L = firstn (length positions) strings) /\
    (text ragged_ok strings [] o = None <-> strings <> []).
Proof.
  intros rg strings positions o. split; [|destruct strings; split; [discriminate|congruence|discriminate|reflexivity]]. intros Hne L. unfold text. cbv zeta. destruct positions as [|p0 ps]; [congruence|]. generalize (p0 :: ps) as P. clear. intro P.
  generalize (offset_vector (length (hd [] P)) o) as off. intro off. revert strings L.
  induction P as [|p P IH]; intros [|s strings] L H; cbn in H; try (injection H as <-; split; reflexivity).
  destruct (label_place rg p off) as [q|]; cbn in H; [|discriminate]. destruct (all_some _) as [L'|] eqn:E; [|discriminate]. injection H as <-.
  destruct (IH strings L' E) as [A B]. cbn [length map lb_text firstn]. rewrite B, A. split; reflexivity.
Qed.

(** Three sites in the plane, at the corners of a triangle; the third site is joined to the first two. *)
Definition corner3_indices : list (list Z) := [[0; 0; 0]; [1; 0; 0]; [0; 1; 0]]%Z.
Definition corner3_positions : list vec := [[0; 0]; [1; 0]; [0; 2]]%Q.
Definition corner3_neighbors : list (list nat) := [[2; 3]; [2; 3]; [0; 1]].
Definition corner3_distances : list (list dist) := [[Fin 1000000; Inf]; [Fin 2000000; Inf]; [Fin 1000000; Fin 2000000]].

Definition corner3 : data := Eval vm_compute in
  match data_set corner3_indices corner3_positions corner3_neighbors corner3_distances with Some d => d | None => chain3 end.

Lemma corner3_wf : wf corner3.
Proof.
  refine (proj1 (data_set_wf corner3_indices corner3_positions corner3_neighbors corner3_distances 3 2 2 corner3 _ _ _ _ _ _ _ _ ltac:(reflexivity))).
  - lia.
  - split; [reflexivity|]. simpl. intuition (subst; reflexivity).
  - split; [reflexivity|]. simpl. intuition (subst; reflexivity).
  - split; [reflexivity|]. simpl. intuition (subst; reflexivity).
  - split; [reflexivity|]. simpl. intuition (subst; reflexivity).
  - simpl. auto.
  - vm_compute. repeat constructor.
  - intros i c Hi Hc. destruct i as [|[|[|]]]; try lia; destruct c as [|[|]]; try lia; unfold cell; simpl; intro H; try lia; congruence.
Qed.

Example C109_example :
  wf chain3 /\ d_dim chain3 = 1 /\ wf corner3 /\ d_dim corner3 = 2 /\ nsites corner3 = 3 /\
  plot_labels true chain3 (OffsetBy (1#10)) = Some [mkLabel "0" [0 + (1#10); 0 + (1#10)]; mkLabel "1" [1 + (1#10); 0 + (1#10)]; mkLabel "2" [2 + (1#10); 0 + (1#10)]]%Q /\
  plot_labels false chain3 (OffsetBy (1#10)) = None /\
  option_map (map (fun lb => (lb_text lb, map Qred (lb_place lb)))) (plot_labels false corner3 (OffsetBy (1#10))) =
    Some [("0"%string, [1#10; 1#10]); ("1"%string, [11#10; 1#10]); ("2"%string, [1#10; 21#10])]%Q /\
  option_map (map (fun lb => (lb_text lb, map Qred (lb_place lb)))) (plot_labels false corner3 (OffsetVector [0; -1]%Q)) =
    Some [("0"%string, [0; -1]); ("1"%string, [1; -1]); ("2"%string, [0; 1])]%Q /\
  text false ["A"; "B"]%string [[0; 0]]%Q (OffsetVector [0; 0; 0]%Q) = None /\
  text true ["A"]%string [] NoOffset = None /\
  option_map (map lb_text) (text false ["A"; "B"; "C"]%string [[0; 0]; [1; 0]]%Q NoOffset) = Some ["A"; "B"]%string /\
  digits_value 0 "1234" = 1234 /\ show_nat 1234 = "1234"%string.
Proof. split; [exact chain3_wf|]. split; [reflexivity|]. split; [exact corner3_wf|]. repeat split; vm_compute; reflexivity. Qed.

(** ** C110: pictures of Voronoi diagrams *)

(** The ridges without a vertex at infinity. *)
Definition finite_ridges (rv : list (list Z)) : list (list Z) := filter (forallb (fun z => (0 <=? z)%Z)) rv.

(** The places of the vertices of a ridge. *)
Definition corners (vertices : list (list Q)) (r : list Z) : list (list Q) := map (fun z => nth (Z.to_nat z) vertices []) r.

(** The difference of the squared distances to two points is an affine function. *)
Lemma sqdist_mixture d V x p q : (forall v, In v V -> length v = d) -> length x = d ->
  forall w, (sum_upto (length V) w == 1)%Q -> (forall i, i < d -> (nth i x 0 == sum_upto (length V) (fun k => w k * nth i (nth k V []) 0))%Q) ->
  (sqdist x p - sqdist x q == sum_upto (length V) (fun k => w k * (sqdist (nth k V []) p - sqdist (nth k V []) q)))%Q.
Proof.
  intros HV Hx w Hw Ex.
  assert (forall u, length u = d -> (sqdist u p - sqdist u q == sum_upto d (fun i => nth i u 0 * (- (2) * (nth i p 0 - nth i q 0)) + (nth i p 0 * nth i p 0 - nth i q 0 * nth i q 0)))%Q) as G.
  { intros u Hu. unfold sqdist. rewrite Hu. setoid_replace (sum_upto d (fun i => (nth i u 0 - nth i p 0) * (nth i u 0 - nth i p 0)))%Q with
      (sum_upto d (fun i => (nth i u 0 - nth i q 0) * (nth i u 0 - nth i q 0)) + sum_upto d (fun i => nth i u 0 * (- (2) * (nth i p 0 - nth i q 0)) + (nth i p 0 * nth i p 0 - nth i q 0 * nth i q 0)))%Q.
    - ring.
    - rewrite <- sum_plus. apply sum_ext. intros. ring. }
  rewrite (G x Hx).
  transitivity (sum_upto d (fun i => sum_upto (length V) (fun k => w k * (nth i (nth k V []) 0 * (- (2) * (nth i p 0 - nth i q 0)) + (nth i p 0 * nth i p 0 - nth i q 0 * nth i q 0)))))%Q.
  - apply sum_ext. intros i Hi. rewrite (Ex i Hi).
    set (c := (- (2) * (nth i p 0 - nth i q 0))%Q). set (e := (nth i p 0 * nth i p 0 - nth i q 0 * nth i q 0)%Q).
    setoid_replace e with (e * sum_upto (length V) w)%Q at 1 by (rewrite Hw; ring).
    rewrite (Qmult_comm _ c), <- !sum_scale, <- sum_plus. apply sum_ext. intros. ring.
  - rewrite sum_swap. apply sum_ext. intros k Hk. rewrite (G (nth k V [])) by (apply HV, nth_In, Hk). rewrite <- sum_scale. apply sum_ext. intros. ring.
Qed.

(** If a point of [P] is nearest to all points of a row, it is nearest to all their mixtures. *)
Lemma nearest_mixture d P V x p : (forall v, In v V -> length v = d) -> length x = d -> mixture d V x ->
  V <> [] -> (forall v, In v V -> is_nearest P v p) -> is_nearest P x p.
Proof.
  intros HV Hx (w & Hw0 & Hw1 & Ex) Hne Hn. split.
  - destruct V as [|v V]; [congruence|]. apply (Hn v). left. reflexivity.
  - intros q Hq. pose proof (sqdist_mixture d V x q p HV Hx w Hw1 Ex) as E.
    assert (0 <= sqdist x q - sqdist x p)%Q; [|lra]. rewrite E. apply KDProofs.sum_nonneg.
    intros k Hk. assert (In (nth k V []) V) as Hin by (apply nth_In, Hk). destruct (Hn _ Hin) as [_ H]. specialize (H q Hq). specialize (Hw0 k Hk).
    apply Qmult_le_0_compat; lra.
Qed.

Lemma new_cell_diagram voronoi near P ws dg : new_cell voronoi near P = Some ws -> 2 <= ws_dim ws -> voronoi P = Some dg ->
  length (dg_ridge_points dg) = length (dg_ridge_vertices dg) ->
  ws_points ws = P /\ P <> [] /\ ws_vertices ws = dg_vertices dg /\ ws_edges ws = map (map Z.to_nat) (finite_ridges (dg_ridge_vertices dg)).
Proof.
  unfold new_cell. destruct P as [|p0 P]; [discriminate|]. destruct (Nat.eqb_spec (length p0) 1) as [E|E].
  - intro H. injection H as <-. cbn. lia.
  - destruct (voronoi (p0 :: P)) as [dg'|]; [|discriminate]. intro H. injection H as <-. cbn [ws_dim ws_points ws_vertices ws_edges]. intros _ H L.
    injection H as ->. repeat split; try discriminate. f_equal. unfold finite_ridges. f_equal. revert L. generalize (dg_ridge_points dg) as a, (dg_ridge_vertices dg) as b.
    intro a. induction a as [|x a IH]; intros [|y b] L; try discriminate L; [reflexivity|]. cbn. f_equal. apply IH. cbn in L. lia.
Qed.

Lemma ridge_corners ws r : ridge_points_of ws (map Z.to_nat r) = corners (ws_vertices ws) r.
Proof. unfold ridge_points_of, corners. rewrite map_map. reflexivity. Qed.

(** The corners of a ridge, and the first one again. *)
Definition outline_of (vertices : list (list Q)) (r : list Z) : list (list Q) :=
  corners vertices r ++ match corners vertices r with [] => [] | c :: _ => [c] end.

Lemma ridge_outline ws r : ridge_points_of ws (closed (map Z.to_nat r)) = outline_of (ws_vertices ws) r.
Proof.
  unfold outline_of, corners. destruct r as [|z r]; [reflexivity|]. cbn [map closed app]. unfold ridge_points_of. cbn [map]. rewrite map_app, map_map. reflexivity.
Qed.

Lemma array_then rg rows out : then_draw (array_of rg rows) draw_rows = Sketched out <->
  out = rows /\ rows <> [] /\ (rg = true \/ forall r s, In r rows -> In s rows -> length r = length s).
Proof.
  unfold then_draw, array_of, draw_rows. destruct rows as [|r rows].
  - split; [discriminate|]. intros (_ & H & _). congruence.
  - destruct rg; cbn [orb].
    + split; [intro H; injection H as <-; repeat split; auto; discriminate|]. intros (-> & _). reflexivity.
    + destruct (forallb _ _) eqn:E.
      * rewrite forallb_forall in E. split; [intro H; injection H as <-; repeat split; [discriminate|]|intros (-> & _); reflexivity].
        right. intros a b Ha Hb. apply E, Nat.eqb_eq in Ha. apply E, Nat.eqb_eq in Hb. congruence.
      * split; [discriminate|]. intros (_ & _ & [H|H]); [discriminate|]. exfalso. assert (forallb (fun s => length s =? length r) (r :: rows) = true); [|congruence].
        apply forallb_forall. intros s Hs. apply Nat.eqb_eq, H; [exact Hs|left; reflexivity].
Qed.

Lemma sketched_inv {A B} (x : sketch A) (f : A -> sketch B) b : then_draw x f = Sketched b <-> exists a, x = Sketched a /\ f a = Sketched b.
Proof. destruct x as [a|e]; cbn; [|split; [discriminate|intros (a & H & _); discriminate H]]. split; [eauto|]. intros (a' & H & E). injection H as <-. exact E. Qed.

(** What the picture consists of: every finite ridge is drawn once, in space as a closed line and as a surface. *)
Theorem C110_picture :
  forall voronoi near P ws dg ragged_ok draw_data points draw fill pic,
    new_cell voronoi near P = Some ws -> 2 <= ws_dim ws -> voronoi P = Some dg ->
    length (dg_ridge_points dg) = length (dg_ridge_vertices dg) -> (forall p, In p P -> length p = ws_dim ws) ->
    voronoi_draw ragged_ok ws draw_data points draw fill = Sketched pic ->
    let ridges := finite_ridges (dg_ridge_vertices dg) in
    let V := dg_vertices dg in
    pc_data pic = (if draw_data then P else []) /\
    Forall2 (fun p row => exists a b, row = [a; b] /\ a = zero (ws_dim ws) /\ same b p) (if draw_data then P else []) (pc_rays pic) /\
    ((forall v, In v V -> length v = ws_dim ws) -> pc_vertices pic = (if points then V else [])) /\
    pc_lines pic = (if draw then if ws_dim ws =? 2 then map (corners V) ridges else if ws_dim ws =? 3 then map (outline_of V) ridges else [] else []) /\
    pc_faces pic = (if fill then if ws_dim ws =? 3 then map (corners V) ridges else [] else []).
Proof.
  intros voronoi near P ws dg rg dd pt dr fl pic EN H2 Ev L HP HD ridges V. destruct (new_cell_diagram voronoi near P ws dg EN H2 Ev L) as (EP & Hne & EV & EE).
  assert (forall l : list vec, (forall v, In v l -> length v = ws_dim ws) -> map planar l = l) as Hpl.
  { intros l Hl. rewrite <- (map_id l) at 2. apply map_ext_in. intros v Hv. specialize (Hl v Hv). destruct v as [|x [|y v]]; auto. cbn in Hl. lia. }
  unfold voronoi_draw in HD. cbv zeta in HD. rewrite !sketched_inv in HD. destruct HD as (data & D1 & HD). rewrite sketched_inv in HD. destruct HD as (rays & D2 & HD).
  rewrite sketched_inv in HD. destruct HD as (verts & D3 & HD). rewrite sketched_inv in HD. destruct HD as (lines & D4 & HD). rewrite sketched_inv in HD. destruct HD as (faces & D5 & HD).
  injection HD as <-. cbn [pc_data pc_rays pc_vertices pc_lines pc_faces]. rewrite EP in D1, D2. rewrite EV in D3.
  assert (map (ridge_points_of ws) (ws_edges ws) = map (corners V) ridges) as Ec.
  { rewrite EE, map_map. apply map_ext. intro r. rewrite ridge_corners, EV. reflexivity. }
  assert (map (fun e => ridge_points_of ws (closed e)) (ws_edges ws) = map (outline_of V) ridges) as Eo.
  { rewrite EE, map_map. apply map_ext. intro r. rewrite ridge_outline, EV. reflexivity. }
  rewrite Ec in D4, D5. rewrite Eo in D4.
  split; [|split; [|split; [|split]]].
  - destruct dd; [|congruence]. unfold draw_points in D1. destruct (3 <? ws_dim ws); [discriminate|]. injection D1 as <-. apply Hpl, HP.
  - destruct dd; cbn [andb] in D2; [|injection D2 as <-; constructor]. destruct (Nat.ltb_spec 1 (ws_dim ws)); [|lia]. unfold draw_rays in D2.
    destruct P as [|p0 P0] eqn:EPP; [congruence|]. rewrite <- EPP in *. injection D2 as <-. clear -HP.
    induction P as [|p P IH]; [constructor|]. cbn [map]. constructor; [|apply IH; intros; apply HP; right; auto].
    eexists. eexists. split; [reflexivity|]. split; [reflexivity|]. specialize (HP p (or_introl eq_refl)).
    unfold same. rewrite vadd_length by (rewrite repeat_length; auto). rewrite repeat_length. split; [auto|]. intros i.
    rewrite nth_vadd by (rewrite repeat_length; auto). rewrite nth_repeat. ring.
  - intro HV. destruct pt; [|congruence]. unfold draw_points in D3. destruct (3 <? ws_dim ws); [discriminate|]. injection D3 as <-. apply Hpl, HV.
  - destruct dr; rewrite ?andb_false_r, ?andb_true_r in D4; [|congruence]. destruct (Nat.eqb_spec (ws_dim ws) 2); [apply array_then in D4; apply D4|].
    destruct (Nat.eqb_spec (ws_dim ws) 3); [apply array_then in D4; apply D4|congruence].
  - destruct fl; rewrite ?andb_false_r, ?andb_true_r in D5; [|congruence]. destruct (Nat.eqb_spec (ws_dim ws) 3); [apply array_then in D5; apply D5|congruence].
Qed.

Lemma in_outline V r v : In v (outline_of V r) <-> In v (corners V r).
Proof.
  unfold outline_of. destruct (corners V r) as [|c l]; [reflexivity|]. split; [|intro; apply in_or_app; auto]. intro H. apply in_app_or in H.
  destruct H as [H|[<-|[]]]; [exact H|left; reflexivity].
Qed.

(** Every drawn line and every drawn surface lies between two points of the data: no point of the data is nearer to any of its points. *)
Theorem C110_nearest :
  forall voronoi near P ws dg ragged_ok draw_data points draw fill pic,
    new_cell voronoi near P = Some ws -> 2 <= ws_dim ws -> voronoi P = Some dg ->
    is_diagram (ws_dim ws) P (dg_vertices dg) (dg_ridge_points dg) (dg_ridge_vertices dg) -> (forall p, In p P -> length p = ws_dim ws) ->
    voronoi_draw ragged_ok ws draw_data points draw fill = Sketched pic ->
    forall row, In row (pc_lines pic ++ pc_faces pic) ->
      exists i j, i < length P /\ j < length P /\ i <> j /\
        forall x, length x = ws_dim ws -> mixture (ws_dim ws) row x -> is_nearest P x (nth i P []) /\ is_nearest P x (nth j P []).
Proof.
  intros voronoi near P ws dg rg dd pt dr fl pic EN H2 Ev HDg HP HD row Hrow. destruct HDg as (G1 & _ & G3 & G4).
  destruct (C110_picture voronoi near P ws dg rg dd pt dr fl pic EN H2 Ev G3 HP HD) as (_ & _ & _ & EL & EF).
  assert (exists r, In r (finite_ridges (dg_ridge_vertices dg)) /\ (row = corners (dg_vertices dg) r \/ row = outline_of (dg_vertices dg) r)) as [r [Hr Er]].
  { apply in_app_or in Hrow. rewrite EL, EF in Hrow.
    destruct dr, fl, (ws_dim ws =? 2), (ws_dim ws =? 3); destruct Hrow as [H|H]; try contradiction;
      apply in_map_iff in H; destruct H as [r [<- Hr]]; eauto. }
  apply filter_In in Hr. destruct Hr as [Hr Hfin]. rewrite forallb_forall in Hfin. apply In_nth_error in Hr. destruct Hr as [k Ek].
  destruct (nth_error (dg_ridge_points dg) k) as [[i j]|] eqn:Ep; [|exfalso; apply nth_error_None in Ep; assert (k < length (dg_ridge_vertices dg)) by (apply nth_error_Some; congruence); lia].
  destruct (G4 k i j r Ep Ek) as (Hi & Hj & Hij & Hrne & Hz). exists i, j. repeat (split; [assumption|]).
  assert (forall v, In v row -> In v (corners (dg_vertices dg) r)) as Hc by (intros v Hv; destruct Er as [->| ->]; [exact Hv|apply in_outline, Hv]).
  assert (forall v, In v row -> length v = ws_dim ws /\ is_nearest P v (nth i P []) /\ is_nearest P v (nth j P [])) as Hv.
  { intros v Hv. apply Hc in Hv. unfold corners in Hv. apply in_map_iff in Hv. destruct Hv as [z [<- Hin]]. specialize (Hfin z Hin). apply Z.leb_le in Hfin.
    destruct (Hz z Hin) as [Hlt Hn]. split; [|apply Hn, Hfin]. apply G1. apply nth_In. lia. }
  assert (row <> []) as Hne.
  { destruct r as [|z r]; [congruence|]. destruct Er as [->| ->]; discriminate. }
  intros x Hx Hm. split; apply (nearest_mixture (ws_dim ws) P row x); auto; intros v Hin; apply Hv, Hin.
Qed.

(** When the picture can be drawn: there must be a finite ridge, and (numpy 1.24 and later) all must have equally many vertices. *)
Theorem C110_when :
  forall voronoi near P ws dg ragged_ok draw_data points draw fill,
    new_cell voronoi near P = Some ws -> 2 <= ws_dim ws -> voronoi P = Some dg ->
    length (dg_ridge_points dg) = length (dg_ridge_vertices dg) -> (forall r, In r (dg_ridge_vertices dg) -> r <> []) ->
    ((exists pic, voronoi_draw ragged_ok ws draw_data points draw fill = Sketched pic) <->
     (3 < ws_dim ws -> draw_data = false /\ points = false) /\
     ((ws_dim ws = 2 /\ draw = true) \/ (ws_dim ws = 3 /\ (draw = true \/ fill = true)) ->
      exists r, In r (finite_ridges (dg_ridge_vertices dg)) /\
        (ragged_ok = true \/ forall s, In s (finite_ridges (dg_ridge_vertices dg)) -> length s = length r))).
Proof.
  intros voronoi near P ws dg rg dd pt dr fl EN H2 Ev L HR. destruct (new_cell_diagram voronoi near P ws dg EN H2 Ev L) as (EP & Hne & EV & EE).
  set (ridges := finite_ridges (dg_ridge_vertices dg)) in *. set (V := dg_vertices dg) in *.
  assert (forall (f : list Z -> list (list Q)) (c : nat), (forall r, In r ridges -> length (f r) = c + length r) ->
    ((exists out, then_draw (array_of rg (map f ridges)) draw_rows = Sketched out) <->
     exists r, In r ridges /\ (rg = true \/ forall s, In s ridges -> length s = length r))) as G.
  { intros f c Hf. split.
    - intros [out H]. apply array_then in H. destruct H as (_ & Hn & H). destruct ridges as [|r l] eqn:El; [exfalso; apply Hn; reflexivity|]. rewrite <- El in *. exists r.
      assert (In r ridges) as Hr by (rewrite El; left; reflexivity). split; [exact Hr|].
      destruct H as [H|H]; [auto|right]. intros s Hs. specialize (H (f s) (f r) (in_map f _ _ Hs) (in_map f _ _ Hr)). rewrite !Hf in H by assumption. lia.
    - intros [r [Hr H]]. exists (map f ridges). apply array_then. split; [reflexivity|]. split; [intro E; apply map_eq_nil in E; rewrite E in Hr; contradiction|].
      destruct H as [H|H]; [auto|right]. intros a b Ha Hb. apply in_map_iff in Ha. apply in_map_iff in Hb. destruct Ha as [a' [<- Ha]], Hb as [b' [<- Hb]].
      rewrite !Hf by assumption. rewrite (H a' Ha), (H b' Hb). reflexivity. }
  assert (map (ridge_points_of ws) (ws_edges ws) = map (corners V) ridges) as Ec.
  { rewrite EE, map_map. apply map_ext. intro r. rewrite ridge_corners, EV. reflexivity. }
  assert (map (fun e => ridge_points_of ws (closed e)) (ws_edges ws) = map (outline_of V) ridges) as Eo.
  { rewrite EE, map_map. apply map_ext. intro r. rewrite ridge_outline, EV. reflexivity. }
  pose proof (G (corners V) 0 ltac:(intros; unfold corners; rewrite map_length; reflexivity)) as Gc.
  pose proof (G (outline_of V) 1) as Go. specialize (Go ltac:(intros r Hr; apply filter_In in Hr; destruct Hr as [Hr _]; specialize (HR r Hr); destruct r as [|z r]; [congruence|];
    unfold outline_of, corners; cbn [map]; rewrite app_length; cbn [length]; rewrite map_length; lia)).
  unfold voronoi_draw. cbv zeta. rewrite EP, EV, Ec, Eo.
  assert (forall (b : bool) (l : list vec), (exists out, (if b then draw_points (ws_dim ws) l else Sketched []) = Sketched out) <-> (3 < ws_dim ws -> b = false)) as Gp.
  { intros b l. destruct b; [|split; eauto]. unfold draw_points. destruct (Nat.ltb_spec 3 (ws_dim ws)) as [H3|H3].
    - split; [intros [out H0]; discriminate H0|]. intro H0. discriminate (H0 H3).
    - split; [intros _; lia|eauto]. }
  assert (exists out, (if dd && (1 <? ws_dim ws) then draw_rays (ws_dim ws) P else Sketched []) = Sketched out) as Gr.
  { destruct (dd && _); [|eauto]. unfold draw_rays. destruct P; [congruence|eauto]. }
  split.
  - intros [pic H]. rewrite !sketched_inv in H. destruct H as (o1 & D1 & H). rewrite sketched_inv in H. destruct H as (o2 & D2 & H).
    rewrite sketched_inv in H. destruct H as (o3 & D3 & H). rewrite sketched_inv in H. destruct H as (o4 & D4 & H). rewrite sketched_inv in H. destruct H as (o5 & D5 & H).
    split.
    + intro H3. split; [apply (proj1 (Gp dd P)); eauto|apply (proj1 (Gp pt V)); eauto].
    + intros [[E ->]|[E [->| ->]]]; rewrite E in *; cbn [Nat.eqb andb] in D4, D5; [apply Gc; eauto|apply Go; eauto|apply Gc; eauto].
  - intros [H3 HL]. destruct (proj2 (Gp dd P) (fun h : 3 < ws_dim ws => proj1 (H3 h))) as [o1 D1]. destruct Gr as [o2 D2]. destruct (proj2 (Gp pt V) (fun h : 3 < ws_dim ws => proj2 (H3 h))) as [o3 D3].
    rewrite D1. cbn [then_draw]. rewrite D2. cbn [then_draw]. rewrite D3. cbn [then_draw].
    destruct (Nat.eqb_spec (ws_dim ws) 2) as [E2|E2]; [|destruct (Nat.eqb_spec (ws_dim ws) 3) as [E3|E3]].
    + rewrite E2. cbn [Nat.eqb andb]. destruct dr; [|cbn; eauto]. destruct (proj2 Gc (HL (or_introl (conj E2 eq_refl)))) as [o4 D4]. rewrite D4. cbn. eauto.
    + cbn [andb]. assert (exists o4, (if dr then then_draw (array_of rg (map (outline_of V) ridges)) draw_rows else Sketched []) = Sketched o4) as [o4 D4].
      { destruct dr; [|eauto]. apply Go, HL. auto. }
      assert (exists o5, (if fl then then_draw (array_of rg (map (corners V) ridges)) draw_rows else Sketched []) = Sketched o5) as [o5 D5].
      { destruct fl; [|eauto]. apply Gc, HL. auto. }
      rewrite D4. cbn [then_draw]. rewrite D5. cbn. eauto.
    + cbn. eauto.
Qed.

(** On the line the points and the points half way to the origin are drawn, and nothing fails. *)
Theorem C110_chain :
  forall voronoi near P ws ragged_ok draw_data points draw fill,
    new_cell voronoi near P = Some ws -> ws_dim ws = 1 -> (forall p, In p P -> length p = 1) ->
    exists pic, voronoi_draw ragged_ok ws draw_data points draw fill = Sketched pic /\
      pc_data pic = (if draw_data then map (fun p => [nth 0 p 0%Q; 0%Q]) P else []) /\
      pc_vertices pic = (if points then map (fun p => [(nth 0 p 0 / 2)%Q; 0%Q]) (filter (fun p => negb (Qeq_bool (nth 0 p 0 / 2)%Q 0)) P) else []) /\
      pc_rays pic = [] /\ pc_lines pic = [] /\ pc_faces pic = [].
Proof.
  intros voronoi near P ws rg dd pt dr fl EN H1 HP.
  assert (ws = mkWS 1 P [] (filter (fun v => negb (forallb (fun x => Qeq_bool x 0) v)) (map (map (fun x => (x / 2)%Q)) P)) (near P [0%Q])) as ->.
  { unfold new_cell in EN. destruct P as [|p0 P0]; [discriminate|]. rewrite (HP p0 (or_introl eq_refl)) in EN. cbn [Nat.eqb repeat] in EN.
    symmetry. assert (forall a b : ws_cell, Some a = Some b -> a = b) as Hs by (intros a b Hab; injection Hab as ->; reflexivity). apply Hs. exact EN. }
  clear H1 EN. unfold voronoi_draw. cbn [ws_dim ws_points ws_vertices ws_edges]. cbn [Nat.ltb Nat.leb Nat.eqb andb]. rewrite andb_false_r.
  unfold draw_points. cbn [Nat.ltb Nat.leb].
  assert (map planar P = map (fun p => [nth 0 p 0%Q; 0%Q]) P) as A1.
  { apply map_ext_in. intros p Hp. specialize (HP p Hp). destruct p as [|x [|y p]]; try discriminate HP. reflexivity. }
  assert (map planar (filter (fun v => negb (forallb (fun x => Qeq_bool x 0) v)) (map (map (fun x => (x / 2)%Q)) P)) =
    map (fun p => [(nth 0 p 0 / 2)%Q; 0%Q]) (filter (fun p => negb (Qeq_bool (nth 0 p 0 / 2)%Q 0)) P)) as A2.
  { clear A1. induction P as [|p P IH]; [reflexivity|]. specialize (IH (fun q Hq => HP q (or_intror Hq))). specialize (HP p (or_introl eq_refl)).
    destruct p as [|x [|y p]]; try discriminate HP. cbn [map filter forallb nth]. rewrite andb_true_r. destruct (Qeq_bool (x / 2) 0); cbn [negb map]; [exact IH|].
    rewrite IH. reflexivity. }
  destruct dd, pt; cbn [then_draw]; eexists; (split; [reflexivity|]); cbn [pc_data pc_vertices pc_rays pc_lines pc_faces]; auto.
Qed.

(** The cell of the square lattice with lattice constant 2: four lines. *)
Example C110_square :
  new_cell voronoi_square2 first_nearest square2_points = Some square2_cell /\ ws_dim square2_cell = 2 /\
  voronoi_square2 square2_points = Some square2_diagram /\
  is_diagram 2 square2_points (dg_vertices square2_diagram) (dg_ridge_points square2_diagram) (dg_ridge_vertices square2_diagram) /\
  (forall p, In p square2_points -> length p = 2) /\ (forall r, In r (dg_ridge_vertices square2_diagram) -> r <> []) /\
  exists pic, voronoi_draw false square2_cell true true true true = Sketched pic /\
    pc_lines pic = [[[-1; -1]; [-1; 1]]; [[-1; -1]; [1; -1]]; [[-1; 1]; [1; 1]]; [[1; -1]; [1; 1]]]%Q /\ pc_faces pic = [] /\
    pc_vertices pic = [[-1; -1]; [-1; 1]; [1; -1]; [1; 1]]%Q /\ length (pc_rays pic) = 5.
Proof.
  split; [vm_compute; reflexivity|]. split; [reflexivity|]. split; [vm_compute; reflexivity|]. split; [apply voronoi_square2_ok; vm_compute; reflexivity|].
  split; [intros p Hp; cbn in Hp; repeat (destruct Hp as [<-|Hp]; [reflexivity|]); contradiction|].
  split; [intros r Hr; cbn in Hr; repeat (destruct Hr as [<-|Hr]; [discriminate|]); contradiction|].
  eexists. split; [vm_compute; reflexivity|]. repeat split.
Qed.

(** Three points in the plane: their only Voronoi vertex is the centre of the circle through them, and all ridges are infinite. *)
Definition triangle_points : list vec := [[0; 0]; [2; 0]; [0; 2]]%Q.
Definition triangle_diagram : diagram := mkDiagram [[1; 1]]%Q [(0, 1); (0, 2); (1, 2)] [[-1; 0]; [-1; 0]; [-1; 0]]%Z.

Lemma triangle_near a b p : is_nearest triangle_points [a; b] p -> (p = [0; 0] \/ p = [2; 0] \/ p = [0; 2])%Q.
Proof. intros [H _]. cbn in H. intuition. Qed.

Lemma triangle_vertex x : voronoi_vertex 2 triangle_points x <-> same [1; 1]%Q x.
Proof.
  split.
  - intros [L H]. destruct x as [|a [|b [|]]]; try discriminate L.
    assert (forall p, In p triangle_points -> is_nearest triangle_points [a; b] p) as Hall.
    { assert (forall p, In p triangle_points -> is_nearest triangle_points [a; b] p \/ ~ is_nearest triangle_points [a; b] p) as Hdec.
      { intros p Hp. destruct (forallb (fun q => Qle_bool (sqdist [a; b] p) (sqdist [a; b] q)) triangle_points) eqn:E.
        - left. split; [exact Hp|]. intros q Hq. rewrite forallb_forall in E. apply Qle_bool_iff. auto.
        - right. intros [_ H']. assert (forallb (fun q => Qle_bool (sqdist [a; b] p) (sqdist [a; b] q)) triangle_points = true); [|congruence].
          apply forallb_forall. intros q Hq. apply Qle_bool_iff. auto. }
      intros p Hp. destruct (Hdec p Hp) as [Hy|Hn]; [exact Hy|exfalso].
      assert (forall u v c, ~ (u == 0 /\ v == 0)%Q -> (forall q, In q triangle_points -> q <> p -> (inner [u; v] q == c)%Q) -> False) as K.
      { intros u v c Huv Hq. apply Huv. assert (forall i, nth i [u; v] 0 == 0)%Q as Z.
        { apply H; [reflexivity|]. intros r s Hr Hs. rewrite (Hq r (proj1 Hr)), (Hq s (proj1 Hs)); [reflexivity| |]; intro E; subst; contradiction. }
        split; [apply (Z 0)|apply (Z 1)]. }
      cbn in Hp. destruct Hp as [<-|[<-|[<-|[]]]].
      - apply (K 1 1 2)%Q; [intros [E _]; discriminate E|]. intros q Hq Hne. cbn in Hq. destruct Hq as [<-|[<-|[<-|[]]]]; [congruence| |]; vm_compute; reflexivity.
      - apply (K 1 0 0)%Q; [intros [E _]; discriminate E|]. intros q Hq Hne. cbn in Hq. destruct Hq as [<-|[<-|[<-|[]]]]; [|congruence|]; vm_compute; reflexivity.
      - apply (K 0 1 0)%Q; [intros [_ E]; discriminate E|]. intros q Hq Hne. cbn in Hq. destruct Hq as [<-|[<-|[<-|[]]]]; [| |congruence]; vm_compute; reflexivity. }
    assert (forall p q, In p triangle_points -> In q triangle_points -> sqdist [a; b] p == sqdist [a; b] q)%Q as E.
    { intros p q Hp Hq. apply Qle_antisym; [apply (Hall p Hp), Hq|apply (Hall q Hq), Hp]. }
    pose proof (E [0; 0] [2; 0] (or_introl eq_refl) (or_intror (or_introl eq_refl)))%Q as E1.
    pose proof (E [0; 0] [0; 2] (or_introl eq_refl) (or_intror (or_intror (or_introl eq_refl))))%Q as E2.
    unfold sqdist in E1, E2. cbn in E1, E2. rewrite !PropPreset.same_cons. split; [lra|]. split; [lra|]. apply PropPreset.same_nil.
  - intros [L H]. destruct x as [|a [|b [|]]]; try discriminate L. pose proof (H 0) as Ha. pose proof (H 1) as Hb. cbn in Ha, Hb. split; [reflexivity|].
    assert (forall p, In p triangle_points -> (sqdist [a; b] p == 2)%Q) as D.
    { intros p Hp. cbn in Hp. destruct Hp as [<-|[<-|[<-|[]]]]; unfold sqdist; cbn; rewrite <- Ha, <- Hb; reflexivity. }
    assert (forall p, In p triangle_points -> is_nearest triangle_points [a; b] p) as N.
    { intros p Hp. split; [exact Hp|]. intros q Hq. rewrite (D p Hp), (D q Hq). apply Qle_refl. }
    intros u Lu Hu. destruct u as [|u [|v [|]]]; try discriminate Lu.
    pose proof (Hu _ _ (N [0; 0]%Q (or_introl eq_refl)) (N [2; 0]%Q (or_intror (or_introl eq_refl)))) as U1.
    pose proof (Hu _ _ (N [0; 0]%Q (or_introl eq_refl)) (N [0; 2]%Q (or_intror (or_intror (or_introl eq_refl))))) as U2.
    unfold inner in U1, U2. cbn in U1, U2. intros [|[|i]]; cbn; try lra. destruct i; reflexivity.
Qed.

Lemma triangle_ok : is_diagram 2 triangle_points (dg_vertices triangle_diagram) (dg_ridge_points triangle_diagram) (dg_ridge_vertices triangle_diagram).
Proof.
  split; [|split; [|split]].
  - intros v [<-|[]]. apply triangle_vertex. split; reflexivity.
  - intros x H. exists [1; 1]%Q. split; [left; reflexivity|]. apply triangle_vertex, H.
  - reflexivity.
  - intros k i j r H1 H2. do 3 (destruct k as [|k]; [cbn in H1, H2; injection H1 as <- <-; injection H2 as <-;
      (split; [cbn; lia|]); (split; [cbn; lia|]); (split; [discriminate|]); (split; [discriminate|]);
      intros z [<-|[<-|[]]]; (split; [cbn; lia|]); intro Hz; try (exfalso; lia); (split; apply nearest_check; vm_compute; reflexivity)|]).
    destruct k; discriminate H1.
Qed.

(** The diagram of three points cannot be drawn with the default arguments: [draw_lines] indexes an empty list. *)
Theorem C110_triangle_refuted :
  exists voronoi near P ws dg,
    new_cell voronoi near P = Some ws /\ ws_dim ws = 2 /\ voronoi P = Some dg /\
    is_diagram 2 P (dg_vertices dg) (dg_ridge_points dg) (dg_ridge_vertices dg) /\ NoDup P /\ ~ flat 2 P /\
    forall ragged_ok draw_data points fill,
      voronoi_draw ragged_ok ws draw_data points true fill = Broken NoSegments /\
      exists pic, voronoi_draw ragged_ok ws draw_data points false fill = Sketched pic.
Proof.
  exists (fun _ => Some triangle_diagram), first_nearest, triangle_points, (mkWS 2 triangle_points [] [[1; 1]]%Q 0), triangle_diagram.
  split; [vm_compute; reflexivity|]. split; [reflexivity|]. split; [reflexivity|]. split; [exact triangle_ok|].
  split; [repeat constructor; cbn; intuition discriminate|]. split.
  - intros (u & c & Lu & [i Hi] & H). destruct u as [|u [|v [|]]]; try discriminate Lu.
    pose proof (H [0; 0]%Q (or_introl eq_refl)) as H0. pose proof (H [2; 0]%Q (or_intror (or_introl eq_refl))) as H1.
    pose proof (H [0; 2]%Q (or_intror (or_intror (or_introl eq_refl)))) as H2. unfold inner in H0, H1, H2. cbn in H0, H1, H2.
    destruct i as [|[|i]]; cbn in Hi; try (apply Hi; lra). destruct i; apply Hi; reflexivity.
  - intros rg dd pt fl. split; [destruct dd, pt; reflexivity|]. destruct dd, pt, fl; eexists; reflexivity.
Qed.

(** In space: faces with three and with four corners are not drawn by numpy 1.24 and later (a pyramid; the other faces are infinite). *)
Example C110_ragged :
  let ws := mkWS 3 [[0; 0; 0]]%Q [[0; 1; 2; 3]; [0; 1; 4]] [[1; 1; 0]; [-1; 1; 0]; [-1; -1; 0]; [1; -1; 0]; [0; 0; 1]]%Q 0 in
  voronoi_draw false ws false false true true = Broken RaggedRows /\
  voronoi_draw true ws false false true true = Sketched (mkPicture [] [] []
    [[[1; 1; 0]; [-1; 1; 0]; [-1; -1; 0]; [1; -1; 0]; [1; 1; 0]]; [[1; 1; 0]; [-1; 1; 0]; [0; 0; 1]; [1; 1; 0]]]%Q
    [[[1; 1; 0]; [-1; 1; 0]; [-1; -1; 0]; [1; -1; 0]]; [[1; 1; 0]; [-1; 1; 0]; [0; 0; 1]]]%Q) /\
  voronoi_draw true (mkWS 4 [[0; 0; 0; 0]]%Q [] [] 0) true false true true = Broken TooManyAxes /\
  voronoi_draw true (mkWS 4 [[0; 0; 0; 0]]%Q [] [] 0) false false true true = Sketched (mkPicture [] [] [] [] []).
Proof. cbv zeta. repeat split. Qed.

Example C110_chain_example :
  exists ws, new_cell (fun _ => None) first_nearest [[0]; [-3]; [3]]%Q = Some ws /\ ws_dim ws = 1 /\
    voronoi_draw false ws true true true true = Sketched (mkPicture [[0; 0]; [-3; 0]; [3; 0]]%Q [] [[-3 / 2; 0]; [3 / 2; 0]]%Q [] []).
Proof. eexists. split; [reflexivity|]. split; reflexivity. Qed.

Print Assumptions C109_labels.
Print Assumptions C109_distinct.
Print Assumptions C109_chain.
Print Assumptions C109_zip.
Print Assumptions C110_picture.
Print Assumptions C110_nearest.
Print Assumptions C110_when.
Print Assumptions C110_chain.
Print Assumptions C110_triangle_refuted.
