(** * Property C115 (lattpy/plotting.py: interpolate_to_grid) *)
From Coq Require Import List ZArith QArith Qminmax Bool Arith Lia Lqa.
From Verif Require Import Np NpFacts LinAlg LinFacts SpatialModel SpecSpatial SpatialProofs StructureModel VoronoiModel InterpModel SpecInterp.
Import ListNotations.
Open Scope nat_scope.
Open Scope list_scope.

(** ** Sums with weights *)

Lemma wsum_add {A} (f g : A -> Q) (l : list A) w : (wsum w (map (fun a => f a + g a) l) == wsum w (map f l) + wsum w (map g l))%Q.
Proof. revert w. induction l as [|a l IH]; intros [|b w]; cbn; try ring. rewrite IH. ring. Qed.
Lemma wsum_scale {A} (f : A -> Q) c (l : list A) w : (wsum w (map (fun a => c * f a) l) == c * wsum w (map f l))%Q.
Proof. revert w. induction l as [|a l IH]; intros [|b w]; cbn; try ring. rewrite IH. ring. Qed.
Lemma wsum_ext {A} (f g : A -> Q) (l : list A) w : (forall a, In a l -> f a == g a)%Q -> (wsum w (map f l) == wsum w (map g l))%Q.
Proof. revert w. induction l as [|a l IH]; intros [|b w] H; cbn; try ring. rewrite IH, (H a); [ring|left; auto|intros; apply H; right; auto]. Qed.
Lemma wsum_le {A} (f g : A -> Q) (l : list A) w : (forall a, In a w -> 0 <= a)%Q -> (forall a, In a l -> f a <= g a)%Q -> (wsum w (map f l) <= wsum w (map g l))%Q.
Proof.
  revert w. induction l as [|a l IH]; intros [|b w] Hw H; cbn; try lra. assert (0 <= b)%Q by (apply Hw; left; auto). assert (f a <= g a)%Q by (apply H; left; auto).
  assert (wsum w (map f l) <= wsum w (map g l))%Q by (apply IH; intros; [apply Hw|apply H]; right; auto). nra.
Qed.
Lemma wsum_zero {A} (f : A -> Q) (l : list A) w d : (forall a, In a w -> 0 <= a)%Q -> (forall a, In a l -> 0 <= f a)%Q -> (wsum w (map f l) <= 0)%Q ->
  forall k, k < length l -> (0 < nth k w 0)%Q -> (f (nth k l d) == 0)%Q.
Proof.
  revert w. induction l as [|a l IH]; intros [|b w] Hw H Hs k Hk Hp; cbn in *; try lia.
  - destruct k; cbn in Hp; lra.
  - assert (0 <= b)%Q by (apply Hw; auto). assert (0 <= f a)%Q by (apply H; auto).
    assert (0 <= wsum w (map f l))%Q as Hn.
    { apply (Qle_trans _ (wsum w (map (fun _ : A => 0%Q) l))); [|apply wsum_le; auto]. assert (wsum w (map (fun _ : A => 0%Q) l) == 0)%Q as ->; [|lra].
      clear. revert w. induction l; intros [|? ?]; cbn; try reflexivity. rewrite IHl. ring. }
    assert (0 <= b * f a)%Q by nra.
    destruct k as [|k]; [|apply (IH w); auto; [lra|lia]]. assert (b * f a == 0)%Q as E by lra. destruct (Qmult_integral _ _ E); [lra|auto].
Qed.

Lemma wsum_nth {A} (l : list A) (v w : list Q) : length v = length l -> length w = length l ->
  (forall k, k < length l -> (0 <= nth k w 0)%Q) ->
  forall c, (forall k, k < length l -> (0 < nth k w 0)%Q -> (nth k v 0 == c)%Q) -> (wsum w v == c * wsum w (map (fun _ => 1%Q) l))%Q.
Proof.
  revert v w. induction l as [|a l IH]; intros [|x v] [|b w] Ev Ew Hw c H; cbn in *; try discriminate; [ring|].
  rewrite (IH v w ltac:(lia) ltac:(lia)) with (c := c); [|intros k Hk; apply (Hw (S k)); lia|intros k Hk; apply (H (S k)); lia].
  pose proof (Hw 0 ltac:(lia)) as H0. cbn in H0. destruct (Qlt_le_dec 0 b) as [Hb|Hb]; [rewrite (H 0 ltac:(lia) Hb); ring|].
  assert (b == 0)%Q as -> by lra. ring.
Qed.

(** ** The hull *)

Lemma mean_between (f : vec -> Q) points w p lo hi : mean points w p -> (forall q, In q points -> lo <= f q <= hi)%Q -> (lo <= wsum w (map f points) <= hi)%Q.
Proof.
  intros (Hl & Hw & H1 & _) H. assert (forall c, wsum w (map (fun _ : vec => c) points) == c)%Q as Hc.
  { intro c. transitivity (wsum w (map (fun _ : vec => c * 1)%Q points)); [apply wsum_ext; intros; ring|]. rewrite wsum_scale, H1. ring. }
  split; [rewrite <- (Hc lo)|rewrite <- (Hc hi)]; apply wsum_le; auto; intros q Hq; apply H; auto.
Qed.

Lemma nth_in_Q (w : list Q) k : (forall a, In a w -> 0 <= a)%Q -> (0 <= nth k w 0)%Q.
Proof. intro H. destruct (Nat.lt_ge_cases k (length w)); [apply H; apply nth_In; auto|rewrite nth_overflow; auto; lra]. Qed.

Lemma sq_pos (x : Q) : (0 <= x * x)%Q.
Proof. destruct (Qlt_le_dec x 0); [setoid_replace (x * x)%Q with ((- x) * (- x))%Q by ring|]; apply Qmult_le_0_compat; lra. Qed.
Lemma sq_zero (x : Q) : (x * x <= 0)%Q -> (x == 0)%Q.
Proof. intro H. assert (x * x == 0)%Q as E by (pose proof (sq_pos x); lra). destruct (Qmult_integral _ _ E); auto. Qed.

(** A site with a weight at the place of a site is that site: the circle through the corners of the triangle is empty. *)
Lemma only_itself points w p k0 : mean points w p -> on_empty_circle points w -> k0 < length points -> same_point (nth k0 points []) p ->
  forall k, k < length points -> (0 < nth k w 0)%Q -> same_point (nth k points []) p.
Proof.
  intros (Hl & Hw & H1 & Hx & Hy) (c & r & Hon & Hout) Hk0 [E0 E1].
  assert (r <= sq_dist p c)%Q as Hp. { pose proof (Hout k0 Hk0) as H. unfold sq_dist in *. rewrite E0, E1 in H. exact H. }
  assert (wsum w (map (fun q => sq_dist q c) points) == r)%Q as Hr.
  { rewrite (wsum_nth points _ w (map_length _ _) Hl) with (c := r); [rewrite H1; ring|intros; apply nth_in_Q; auto|].
    intros k Hk Hpk. rewrite (nth_indep _ 0%Q (sq_dist [] c)) by (rewrite map_length; auto). rewrite (map_nth (fun q => sq_dist q c)). apply Hon; auto. }
  assert (wsum w (map (fun q => sq_dist q p) points) <= 0)%Q as Hz.
  { assert (wsum w (map (fun q => sq_dist q p) points) == r - sq_dist p c)%Q as ->; [|lra].
    transitivity (wsum w (map (fun q => sq_dist q c + ((-2 * (px p - px c)) * px q + ((-2 * (py p - py c)) * py q + (sq_dist p c + 2 * (px p - px c) * px c + 2 * (py p - py c) * py c) * 1)))%Q points)).
    { apply wsum_ext. intros q _. unfold sq_dist. ring. }
    rewrite !wsum_add, !wsum_scale, Hr, Hx, Hy, H1. unfold sq_dist. ring. }
  intros k Hk Hpk. pose proof (wsum_zero (fun q => sq_dist q p) points w [] Hw) as H. specialize (H ltac:(intros q _; unfold sq_dist; pose proof (sq_pos (px q - px p)); pose proof (sq_pos (py q - py p)); lra) Hz k Hk Hpk). cbv beta in H.
  unfold sq_dist in H. pose proof (sq_pos (px (nth k points []) - px p)). pose proof (sq_pos (py (nth k points []) - py p)).
  assert (px (nth k points []) - px p == 0)%Q by (apply sq_zero; lra). assert (py (nth k points []) - py p == 0)%Q by (apply sq_zero; lra). split; lra.
Qed.

Lemma site_in_hull points p : In p points -> in_hull points p.
Proof.
  intro H. induction points as [|q l IH]; [destruct H|]. destruct H as [->|H].
  - exists (1%Q :: map (fun _ => 0%Q) l). assert (forall f : vec -> Q, wsum (map (fun _ => 0%Q) l) (map f l) == 0)%Q as Hz.
    { intro f. clear. induction l; cbn; [reflexivity|]. rewrite IHl. ring. }
    split; [cbn; rewrite map_length; auto|]. split; [intros a [<-|Ha]; [lra|apply in_map_iff in Ha; destruct Ha as [? [<- _]]; lra]|].
    cbn. rewrite !Hz. repeat split; ring.
  - destruct (IH H) as (w & Hl & Hw & H1 & Hx & Hy). exists (0%Q :: w). split; [cbn; auto|]. split; [intros a [<-|Ha]; [lra|auto]|]. cbn. rewrite H1, Hx, Hy. repeat split; ring.
Qed.

Lemma hull_convex points p q s z : in_hull points p -> in_hull points q -> (0 <= s <= 1)%Q ->
  (px z == (1 - s) * px p + s * px q)%Q -> (py z == (1 - s) * py p + s * py q)%Q -> in_hull points z.
Proof.
  intros (w & Hl & Hw & H1 & Hx & Hy) (u & Hl' & Hu & H1' & Hx' & Hy') Hs Ex Ey.
  exists (map2 (fun a b => (1 - s) * a + s * b)%Q w u).
  assert (forall f : vec -> Q, wsum (map2 (fun a b => (1 - s) * a + s * b)%Q w u) (map f points) == (1 - s) * wsum w (map f points) + s * wsum u (map f points))%Q as Hm.
  { intro f. clear - Hl Hl'. revert w u Hl Hl'. induction points as [|a l IH]; intros [|b w] [|c u] E E'; cbn in *; try discriminate; [ring|]. rewrite IH by lia. ring. }
  assert (length (map2 (fun a b => (1 - s) * a + s * b)%Q w u) = length points) as Hlen.
  { clear - Hl Hl'. revert w u Hl Hl'. induction points as [|a l IH]; intros [|b w] [|c u] E E'; cbn in *; try discriminate; auto. }
  split; [exact Hlen|]. split.
  - clear - Hw Hu Hs. revert u Hu. induction w as [|b w IH]; intros [|c u] Hu a; cbn; try tauto. intros [<-|Ha].
    + assert (0 <= b)%Q by (apply Hw; left; auto). assert (0 <= c)%Q by (apply Hu; left; auto). nra.
    + apply (IH ltac:(intros; apply Hw; right; auto) u); [intros; apply Hu; right; auto|exact Ha].
  - rewrite !Hm, H1, H1', Hx, Hx', Hy, Hy', Ex, Ey. repeat split; ring.
Qed.

(** ** The grid *)

Lemma axis_nth lo hi num k : k < num -> (nth k (linspace lo hi num true) 0 == lo + inject_Z (Z.of_nat k) * ((hi - lo) / inject_Z (Z.of_nat (num - 1))))%Q.
Proof. intro H. unfold linspace. rewrite (nth_indep _ 0%Q ((fun k => (lo + inject_Z (Z.of_nat k) * ((hi - lo) / inject_Z (Z.of_nat (num - 1))))%Q) 0)) by (rewrite map_length, seq_length; auto).
  rewrite (map_nth (fun k => (lo + inject_Z (Z.of_nat k) * ((hi - lo) / inject_Z (Z.of_nat (num - 1))))%Q)), seq_nth by auto. reflexivity. Qed.

Lemma axis_length lo hi num : length (linspace lo hi num true) = num.
Proof. unfold linspace. rewrite map_length, seq_length. reflexivity. Qed.

(** The number of a step as a part of the whole axis. *)
Lemma axis_part lo hi num k : k < num -> exists s, (0 <= s <= 1)%Q /\ (nth k (linspace lo hi num true) 0 == (1 - s) * lo + s * hi)%Q /\ (k = 0 -> (s == 0)%Q) /\ (2 <= num -> k = num - 1 -> (s == 1)%Q).
Proof.
  intro Hk. exists (inject_Z (Z.of_nat k) / inject_Z (Z.of_nat (num - 1)))%Q. destruct (Nat.eq_dec num 1) as [->|Hn].
  - assert (k = 0) as -> by lia. rewrite axis_nth by lia. change (inject_Z (Z.of_nat 0)) with 0%Q. assert (forall x, 0 / x == 0)%Q as E by (intro; unfold Qdiv; ring).
    rewrite (E (inject_Z (Z.of_nat (1 - 1)))). split; [lra|]. split; [ring|]. split; [reflexivity|lia].
  - assert (0 < inject_Z (Z.of_nat (num - 1)))%Q as Hp by (change 0%Q with (inject_Z 0); rewrite <- Zlt_Qlt; lia).
    split; [split|split; [|split]].
    + apply Qle_shift_div_l; auto. rewrite Qmult_0_l. change 0%Q with (inject_Z 0). rewrite <- Zle_Qle. lia.
    + apply Qle_shift_div_r; auto. rewrite Qmult_1_l. rewrite <- Zle_Qle. lia.
    + rewrite axis_nth by auto. field. lra.
    + intros ->. cbn. unfold Qdiv. ring.
    + intros _ ->. field. lra.
Qed.

(** The result in parts. *)
Lemma interpolated griddata positions values num offset m fill xx yy zz :
  interpolate_to_grid griddata positions values num offset m fill = Ok (xx, yy, zz) ->
  exists xlo xhi ylo yhi, let xi := linspace xlo xhi (fst num) true in let yi := linspace ylo yhi (snd num) true in
    (forall p, In p positions -> length p = 2) /\
    is_min (map px positions) (xlo + fst offset)%Q /\ is_max (map px positions) (xhi - fst offset)%Q /\
    is_min (map py positions) (ylo + snd offset)%Q /\ is_max (map py positions) (yhi - snd offset)%Q /\
    xx = map (fun _ => xi) yi /\ yy = map (fun b => map (fun _ => b) xi) yi /\
    griddata positions values (map (fun b => map (fun a => [a; b]) xi) yi) m fill = Ok zz.
Proof.
  unfold interpolate_to_grid. destruct (forallb (fun p : list Q => length p =? 2) positions) eqn:Ef; [|discriminate]. cbn [negb]. rewrite forallb_forall in Ef.
  assert (forall p, In p positions -> length p = 2) as H2 by (intros p Hp; apply Nat.eqb_eq; auto).
  assert (map2 (fun a b => [a; b]) (map (fun p => nth 0 p 0%Q) positions) (map (fun p => nth 1 p 0%Q) positions) = positions) as ->.
  { clear Ef. induction positions as [|p l IH]; [reflexivity|]. cbn [map map2]. rewrite IH by (intros; apply H2; right; auto). f_equal.
    specialize (H2 p (or_introl eq_refl)). destruct p as [|a [|b [|? ?]]]; try discriminate. reflexivity. }
  destruct positions as [|p0 l]; [discriminate|]. cbn [map grid_axis].
  set (xlo := (qmin_list _ _ - fst offset)%Q). set (xhi := (qmax_list _ _ + fst offset)%Q). set (ylo := (qmin_list _ _ - snd offset)%Q). set (yhi := (qmax_list _ _ + snd offset)%Q).
  destruct (griddata _ _ _ _ _) as [z|e] eqn:Eg; [|discriminate]. intros [= <- <- <-].
  exists xlo, xhi, ylo, yhi. cbv zeta. split; [exact H2|].
  assert (forall l m m', (m == m')%Q -> is_min l m -> is_min l m') as Hmin by (intros l0 m0 m' E [[x [Hx Ex]] H]; split; [exists x; rewrite <- E; auto|intros; rewrite <- E; auto]).
  assert (forall l m m', (m == m')%Q -> is_max l m -> is_max l m') as Hmax by (intros l0 m0 m' E [[x [Hx Ex]] H]; split; [exists x; rewrite <- E; auto|intros; rewrite <- E; auto]).
  split; [apply (Hmin _ (qmin_list (px p0) (map px l))); [unfold xlo; change (map (fun p : list Q => nth 0 p 0%Q) l) with (map px l); unfold px at 1; ring|exact (qmin_list_is_min (px p0) (map px l))]|]. split; [apply (Hmax _ (qmax_list (px p0) (map px l))); [unfold xhi; change (map (fun p : list Q => nth 0 p 0%Q) l) with (map px l); unfold px at 1; ring|exact (qmax_list_is_max (px p0) (map px l))]|].
  split; [apply (Hmin _ (qmin_list (py p0) (map py l))); [unfold ylo; change (map (fun p : list Q => nth 1 p 0%Q) l) with (map py l); unfold py at 1; ring|exact (qmin_list_is_min (py p0) (map py l))]|]. split; [apply (Hmax _ (qmax_list (py p0) (map py l))); [unfold yhi; change (map (fun p : list Q => nth 1 p 0%Q) l) with (map py l); unfold py at 1; ring|exact (qmax_list_is_max (py p0) (map py l))]|].
  auto.
Qed.

Lemma nth_map_in {A B} (f : A -> B) l k d d' : k < length l -> nth k (map f l) d' = f (nth k l d).
Proof. intro H. rewrite (nth_indep _ d' (f d)) by (rewrite map_length; auto). apply map_nth. Qed.

(** ** The theorems *)

(** The grid has the requested numbers of rows and columns, the coordinates of a node depend on its column and its row only,
    the columns (rows) are equally spaced, and they reach from the first to the last site plus the offset. *)
Theorem C115_grid :
  forall griddata positions values nx ny ox oy m fill xx yy zz,
    interpolate_to_grid griddata positions values (nx, ny) (ox, oy) m fill = Ok (xx, yy, zz) ->
    length xx = ny /\ length yy = ny /\
    exists xi yi, (forall i, i < ny -> nth i xx [] = xi /\ length (nth i yy []) = nx /\ forall j, j < nx -> nth j (nth i yy []) 0%Q = nth i yi 0%Q) /\
      length xi = nx /\ length yi = ny /\
      (exists dx, forall j, S j < nx -> (nth (S j) xi 0 - nth j xi 0 == dx)%Q) /\ (exists dy, forall i, S i < ny -> (nth (S i) yi 0 - nth i yi 0 == dy)%Q) /\
      (1 <= nx -> is_min (map px positions) (nth 0 xi 0 + ox)%Q) /\ (2 <= nx -> is_max (map px positions) (nth (nx - 1) xi 0 - ox)%Q) /\
      (1 <= ny -> is_min (map py positions) (nth 0 yi 0 + oy)%Q) /\ (2 <= ny -> is_max (map py positions) (nth (ny - 1) yi 0 - oy)%Q).
Proof.
  intros gd positions values nx ny ox oy m fill xx yy zz H. destruct (interpolated _ _ _ _ _ _ _ _ _ _ H) as (xlo & xhi & ylo & yhi & H2 & A1 & A2 & A3 & A4 & -> & -> & _).
  cbn [fst snd] in *. set (xi := linspace xlo xhi nx true) in *. set (yi := linspace ylo yhi ny true) in *.
  assert (length xi = nx) as Lx by apply axis_length. assert (length yi = ny) as Ly by apply axis_length.
  rewrite !map_length. split; [auto|]. split; [auto|]. exists xi, yi. split.
  { intros i Hi. split; [rewrite (nth_map_in _ _ _ 0%Q) by lia; reflexivity|]. rewrite (nth_map_in _ _ _ 0%Q) by lia. split; [rewrite map_length; auto|].
    intros j Hj. rewrite (nth_map_in _ _ _ 0%Q) by lia. reflexivity. }
  split; [auto|]. split; [auto|].
  assert (forall lo hi n, exists d, forall j, S j < n -> (nth (S j) (linspace lo hi n true) 0 - nth j (linspace lo hi n true) 0 == d)%Q) as Hstep.
  { intros lo hi n. exists ((hi - lo) / inject_Z (Z.of_nat (n - 1)))%Q. intros j Hj. rewrite !axis_nth by lia. rewrite Nat2Z.inj_succ. unfold Z.succ. rewrite inject_Z_plus. change (inject_Z 1) with 1%Q. ring. }
  split; [apply Hstep|]. split; [apply Hstep|].
  assert (forall l m m', (m == m')%Q -> is_min l m -> is_min l m') as Hmin by (intros l0 m0 m' E [[x [Hx Ex]] Hm]; split; [exists x; rewrite <- E; auto|intros; rewrite <- E; auto]).
  assert (forall l m m', (m == m')%Q -> is_max l m -> is_max l m') as Hmax by (intros l0 m0 m' E [[x [Hx Ex]] Hm]; split; [exists x; rewrite <- E; auto|intros; rewrite <- E; auto]).
  split; [intro Hn; eapply Hmin; [|exact A1]|]. { destruct (axis_part xlo xhi nx 0 ltac:(lia)) as (s & _ & E & E0 & _). fold xi in E. rewrite E, (E0 eq_refl). ring. }
  split; [intro Hn; eapply Hmax; [|exact A2]|]. { destruct (axis_part xlo xhi nx (nx - 1) ltac:(lia)) as (s & _ & E & _ & E1). fold xi in E. rewrite E, (E1 Hn eq_refl). ring. }
  split; [intro Hn; eapply Hmin; [|exact A3]|intro Hn; eapply Hmax; [|exact A4]].
  - destruct (axis_part ylo yhi ny 0 ltac:(lia)) as (s & _ & E & E0 & _). fold yi in E. rewrite E, (E0 eq_refl). ring.
  - destruct (axis_part ylo yhi ny (ny - 1) ltac:(lia)) as (s & _ & E & _ & E1). fold yi in E. rewrite E, (E1 Hn eq_refl). ring.
Qed.

(** The entries belong to the nodes with the coordinates of [xx] and [yy] (the axes are not exchanged); with the nearest method
    every entry is the value of a nearest site. *)
Lemma entries griddata positions values nx ny ox oy m fill xx yy zz : interpolating griddata ->
  interpolate_to_grid griddata positions values (nx, ny) (ox, oy) m fill = Ok (xx, yy, zz) ->
  length values = length positions /\ length zz = ny /\ forall i, i < ny -> length (nth i zz []) = nx /\
    forall j, j < nx -> let p := [nth j (nth i xx []) 0; nth j (nth i yy []) 0]%Q in let z := nth j (nth i zz []) None in
      match m with Linear => linear_value positions values fill p z | Nearest => nearest_value positions values p z | Cubic => True end.
Proof.
  intros Hg H. destruct (interpolated _ _ _ _ _ _ _ _ _ _ H) as (xlo & xhi & ylo & yhi & H2 & _ & _ & _ & _ & -> & -> & E).
  cbn [fst snd] in *. set (xi := linspace xlo xhi nx true) in *. set (yi := linspace ylo yhi ny true) in *.
  assert (length xi = nx) as Lx by apply axis_length. assert (length yi = ny) as Ly by apply axis_length.
  destruct (Hg _ _ _ _ _ _ E) as (E1 & E2 & E3). rewrite map_length in *. split; [auto|]. split; [lia|]. intros i Hi. specialize (E3 i ltac:(lia)).
  rewrite (nth_map_in _ _ _ 0%Q) in E3 by lia. rewrite map_length in E3. destruct E3 as [E3 E4]. split; [lia|]. intros j Hj. specialize (E4 j ltac:(lia)).
  rewrite (nth_map_in _ _ _ 0%Q) in E4 by lia. cbv zeta in *. rewrite !(nth_map_in _ _ i 0%Q) by lia. rewrite (nth_map_in _ _ j 0%Q) by lia. exact E4.
Qed.

Theorem C115_nearest :
  forall griddata positions values nx ny ox oy fill xx yy zz,
    interpolating griddata -> interpolate_to_grid griddata positions values (nx, ny) (ox, oy) Nearest fill = Ok (xx, yy, zz) ->
    length zz = ny /\ forall i j, i < ny -> j < nx -> length (nth i zz []) = nx /\
      exists k, k < length positions /\ nth j (nth i zz []) None = Some (nth k values 0%Q) /\
        forall l, l < length positions ->
          (sq_dist (nth k positions []) [nth j (nth i xx []) 0; nth j (nth i yy []) 0] <= sq_dist (nth l positions []) [nth j (nth i xx []) 0; nth j (nth i yy []) 0])%Q.
Proof.
  intros gd positions values nx ny ox oy fill xx yy zz Hg H. destruct (entries _ _ _ _ _ _ _ _ _ _ _ _ Hg H) as (_ & El & He). split; [auto|].
  intros i j Hi Hj. destruct (He i Hi) as [E1 E2]. split; [exact E1|]. exact (E2 j Hj).
Qed.

(** The linear method: a value that is an affine function of the position is reproduced wherever there is a value other than [fill];
    all values lie between those of the sites; and a node at a site has the value of that site. *)
Theorem C115_linear :
  forall griddata positions values nx ny ox oy fill xx yy zz,
    interpolating griddata -> interpolate_to_grid griddata positions values (nx, ny) (ox, oy) Linear fill = Ok (xx, yy, zz) ->
    length zz = ny /\ forall i j, i < ny -> j < nx -> length (nth i zz []) = nx /\
      let x := nth j (nth i xx []) 0%Q in let y := nth j (nth i yy []) 0%Q in let z := nth j (nth i zz []) None in
      (~ in_hull positions [x; y] -> z = fill) /\
      (in_hull positions [x; y] -> exists q, z = Some q /\
         (forall lo hi, (forall v, In v values -> lo <= v <= hi)%Q -> (lo <= q <= hi)%Q) /\
         (forall a b c, (forall k, k < length positions -> (nth k values 0 == a * px (nth k positions []) + b * py (nth k positions []) + c)%Q) -> (q == a * x + b * y + c)%Q) /\
         (forall k, k < length positions -> same_point (nth k positions []) [x; y] ->
            (forall l, l < length positions -> same_point (nth l positions []) (nth k positions []) -> l = k) -> (q == nth k values 0)%Q)).
Proof.
  intros gd positions values nx ny ox oy fill xx yy zz Hg H. destruct (entries _ _ _ _ _ _ _ _ _ _ _ _ Hg H) as (Ev & El & He). split; [auto|].
  intros i j Hi Hj. destruct (He i Hi) as [E1 E2]. specialize (E2 j Hj). cbv zeta in *. split; [exact E1|]. destruct E2 as [Hin Hout]. split; [exact Hout|].
  set (p := [nth j (nth i xx []) 0; nth j (nth i yy []) 0]%Q) in *. intro Hh. destruct (Hin Hh) as (w & q & Hm & Hc & -> & Eq). exists q. split; [reflexivity|].
  pose proof Hm as (Hl & Hw & H1 & Hx & Hy).
  assert (forall f, (forall k, k < length positions -> (nth k values 0 == f (nth k positions []))%Q) -> (wsum w values == wsum w (map f positions))%Q) as Hf.
  { intros f Hf. clear - Ev Hf. revert values w Ev Hf. induction positions as [|a l IH]; intros [|v values] [|b w] Ev Hf; cbn in *; try discriminate; try reflexivity.
    rewrite (Hf 0 ltac:(lia)). cbn [nth]. rewrite (IH values w ltac:(lia)); [reflexivity|]. intros k Hk. apply (Hf (S k)). lia. }
  split; [|split].
  - intros lo hi Hv. rewrite Eq. clear - Hv Hl Hw H1 Ev.
    assert (forall c, wsum w (map (fun _ : Q => c) values) == c)%Q as Hc.
    { intro c. transitivity (wsum w (map (fun _ : Q => c * 1)%Q values)); [apply wsum_ext; intros; ring|]. rewrite wsum_scale.
      assert (map (fun _ : Q => 1%Q) values = map (fun _ : vec => 1%Q) positions) as ->; [|rewrite H1; ring].
      clear - Ev. revert values Ev. induction positions; intros [|? ?] E; try discriminate; cbn in *; auto. f_equal. apply IHpositions. lia. }
    assert (wsum w (map (fun v => v) values) == wsum w values)%Q as Hid by (rewrite map_id; reflexivity).
    rewrite <- Hid. split; [rewrite <- (Hc lo)|rewrite <- (Hc hi)]; apply wsum_le; auto; intros v Hin; apply Hv; auto.
  - intros a b c Hv. rewrite Eq, (Hf (fun s => (a * px s + b * py s + c)%Q) Hv).
    transitivity (wsum w (map (fun s => (a * px s + (b * py s + c * 1))%Q) positions)); [apply wsum_ext; intros; ring|].
    rewrite !wsum_add, !wsum_scale, Hx, Hy, H1. unfold p, px, py. cbn [nth]. ring.
  - intros k Hk Hs Hdis. rewrite Eq. rewrite (wsum_nth positions values w Ev Hl) with (c := nth k values 0%Q); [rewrite H1; ring|intros; apply nth_in_Q; auto|].
    intros l Hlt Hp. pose proof (only_itself positions w p k Hm Hc Hk Hs l Hlt Hp) as [S1 S2].
    assert (l = k) as ->; [|reflexivity]. apply Hdis; auto. destruct Hs as [S3 S4]. split; [rewrite S1, S3|rewrite S2, S4]; reflexivity.
Qed.

(** Around the sites: with a positive offset the border has no value; without an offset every node of a rectangle that has sites
    at its four corners has one. *)
Theorem C115_border :
  forall griddata positions values nx ny ox oy fill xx yy zz,
    interpolating griddata -> interpolate_to_grid griddata positions values (nx, ny) (ox, oy) Linear fill = Ok (xx, yy, zz) ->
    (forall i j, i < ny -> j < nx -> (0 < ox)%Q /\ (j = 0 \/ 2 <= nx /\ j = nx - 1) \/ (0 < oy)%Q /\ (i = 0 \/ 2 <= ny /\ i = ny - 1) -> nth j (nth i zz []) None = fill) /\
    ((ox == 0)%Q -> (oy == 0)%Q ->
     (forall p q, In p positions -> In q positions -> exists r, In r positions /\ (px r == px p)%Q /\ (py r == py q)%Q) ->
     forall i j, i < ny -> j < nx -> exists q, nth j (nth i zz []) None = Some q).
Proof.
  intros gd positions values nx ny ox oy fill xx yy zz Hg H. destruct (entries _ _ _ _ _ _ _ _ _ _ _ _ Hg H) as (Ev & El & He).
  destruct (interpolated _ _ _ _ _ _ _ _ _ _ H) as (xlo & xhi & ylo & yhi & H2 & A1 & A2 & A3 & A4 & -> & -> & _).
  cbn [fst snd] in *. set (xi := linspace xlo xhi nx true) in *. set (yi := linspace ylo yhi ny true) in *.
  assert (length xi = nx) as Lx by apply axis_length. assert (length yi = ny) as Ly by apply axis_length.
  assert (forall i j, i < ny -> j < nx -> linear_value positions values fill [nth j xi 0; nth i yi 0]%Q (nth j (nth i zz []) None)) as Hv.
  { intros i j Hi Hj. destruct (He i Hi) as [_ E]. specialize (E j Hj). cbv zeta in E. rewrite !(nth_map_in _ _ i 0%Q) in E by lia. rewrite (nth_map_in _ _ j 0%Q) in E by lia. exact E. }
  split.
  - intros i j Hi Hj Hb. apply (Hv i j Hi Hj). intros (w & Hm). pose proof Hm as (_ & _ & _ & Hx & Hy).
    assert (xlo + ox <= nth j xi 0 <= xhi - ox /\ ylo + oy <= nth i yi 0 <= yhi - oy)%Q as [Bx By].
    { split.
      - pose proof (mean_between px positions w _ (xlo + ox)%Q (xhi - ox)%Q Hm) as B. rewrite Hx in B. apply B. intros q Hq. split; [apply A1|apply A2]; apply in_map; auto.
      - pose proof (mean_between py positions w _ (ylo + oy)%Q (yhi - oy)%Q Hm) as B. rewrite Hy in B. apply B. intros q Hq. split; [apply A3|apply A4]; apply in_map; auto. }
    destruct (axis_part xlo xhi nx j Hj) as (s & _ & E & E0 & E1). destruct (axis_part ylo yhi ny i Hi) as (t & _ & F & F0 & F1). fold xi in E. fold yi in F.
    destruct Hb as [[Ho [Hj0|[Hn Hj1]]]|[Ho [Hi0|[Hn Hi1]]]].
    + specialize (E0 Hj0). rewrite E0 in E. lra.
    + specialize (E1 Hn Hj1). rewrite E1 in E. lra.
    + specialize (F0 Hi0). rewrite F0 in F. lra.
    + specialize (F1 Hn Hi1). rewrite F1 in F. lra.
  - intros Ox Oy Hcor i j Hi Hj. destruct (Hv i j Hi Hj) as [Hin _]. destruct Hin as (w & q & _ & _ & -> & _); [|eauto].
    destruct A1 as [[x0 [I0 X0]] _]. destruct A2 as [[x1 [I1 X1]] _]. destruct A3 as [[y0 [J0 Y0]] _]. destruct A4 as [[y1 [J1 Y1]] _].
    apply in_map_iff in I0. destruct I0 as [p0 [<- I0]]. apply in_map_iff in I1. destruct I1 as [p1 [<- I1]].
    apply in_map_iff in J0. destruct J0 as [q0 [<- J0]]. apply in_map_iff in J1. destruct J1 as [q1 [<- J1]].
    destruct (Hcor p0 q0 I0 J0) as (a & Ia & Xa & Ya). destruct (Hcor p1 q0 I1 J0) as (b & Ib & Xb & Yb).
    destruct (Hcor p0 q1 I0 J1) as (c & Ic & Xc & Yc). destruct (Hcor p1 q1 I1 J1) as (d & Id & Xd & Yd).
    destruct (axis_part xlo xhi nx j Hj) as (s & Hs & E & _). destruct (axis_part ylo yhi ny i Hi) as (t & Ht & F & _). fold xi in E. fold yi in F.
    assert (in_hull positions [nth j xi 0; ylo]%Q) as Hl.
    { apply (hull_convex positions a b s); auto using site_in_hull; unfold px, py in *; cbn [nth]; [rewrite E, Xa, Xb, X0, X1, Ox; ring|rewrite Ya, Yb, Y0, Oy; ring]. }
    assert (in_hull positions [nth j xi 0; yhi]%Q) as Hu.
    { apply (hull_convex positions c d s); auto using site_in_hull; unfold px, py in *; cbn [nth]; [rewrite E, Xc, Xd, X0, X1, Ox; ring|rewrite Yc, Yd, Y1, Oy; ring]. }
    apply (hull_convex positions _ _ t _ Hl Hu Ht); unfold px, py; cbn [nth]; [ring|rewrite F; ring].
Qed.

(** Failures: positions without two coordinates, no sites, and whatever griddata raises; nothing else. *)
Theorem C115_errors :
  forall griddata positions values num offset m fill e,
    interpolate_to_grid griddata positions values num offset m fill = Raise e ->
    e = ValueError /\ (positions = [] \/ exists p, In p positions /\ length p <> 2) \/
    positions <> [] /\ (forall p, In p positions -> length p = 2) /\ exists xi, griddata positions values xi m fill = Raise e.
Proof.
  intros gd positions values num offset m fill e. unfold interpolate_to_grid. destruct (forallb (fun p : list Q => length p =? 2) positions) eqn:Ef; cbn [negb].
  - rewrite forallb_forall in Ef. assert (forall p, In p positions -> length p = 2) as H2 by (intros p Hp; apply Nat.eqb_eq; auto).
    assert (map2 (fun a b => [a; b]) (map (fun p => nth 0 p 0%Q) positions) (map (fun p => nth 1 p 0%Q) positions) = positions) as ->.
    { clear Ef. induction positions as [|p l IH]; [reflexivity|]. cbn [map map2]. rewrite IH by (intros; apply H2; right; auto). f_equal.
      specialize (H2 p (or_introl eq_refl)). destruct p as [|a [|b [|? ?]]]; try discriminate. reflexivity. }
    destruct positions as [|p0 l]; [intros [= <-]; left; auto|]. cbn [map grid_axis]. destruct (gd _ _ _ _ _) eqn:Eg; [discriminate|]. intros [= <-].
    right. split; [discriminate|]. split; [exact H2|]. eexists. exact Eg.
  - intros [= <-]. left. split; [reflexivity|]. right. apply Bool.not_true_iff_false in Ef. rewrite forallb_forall in Ef.
    assert (exists p, In p positions /\ (length p =? 2) = false) as [p [Hp E]].
    { clear - Ef. induction positions as [|p l IH]; [exfalso; apply Ef; intros ? []|]. destruct (length p =? 2) eqn:E; [|exists p; split; [left|]; auto].
      destruct IH as [q [Hq E']]; [|exists q; split; [right|]; auto]. intro Hall. apply Ef. intros q [<-|Hq]; auto. }
    exists p. split; auto. apply Nat.eqb_neq. exact E.
Qed.

(** ** Examples *)

(** Interpolation between the corners of the unit square. *)
Definition Q_eq_dec (x y : Q) : {x = y} + {x <> y}.
Proof. decide equality; [apply Pos.eq_dec|apply Z.eq_dec]. Defined.

Definition square_sites : list vec := [[0; 0]; [1; 0]; [0; 1]; [1; 1]]%Q.
Definition square_weights (p : vec) : list Q := [(1 - px p) * (1 - py p); px p * (1 - py p); (1 - px p) * py p; px p * py p]%Q.
Definition square_griddata : griddata_fun := fun points values xi m fill =>
  if list_eq_dec (list_eq_dec Q_eq_dec) points square_sites then
    if length values =? 4 then
      match m with
      | Linear => Ok (map (map (fun p => if Qle_bool 0 (px p) && Qle_bool (px p) 1 && Qle_bool 0 (py p) && Qle_bool (py p) 1 then Some (wsum (square_weights p) values) else fill)) xi)
      | Nearest => Ok (map (map (fun p => Some (nth ((if Qle_bool (px p) (1#2) then 0 else 1) + (if Qle_bool (py p) (1#2) then 0 else 2)) values 0%Q))) xi)
      | Cubic => Raise OtherError
      end
    else Raise ValueError
  else Raise OtherError.

Lemma square_interpolating : interpolating square_griddata.
Proof.
  intros points values xi m fill zz. unfold square_griddata. destruct (list_eq_dec (list_eq_dec Q_eq_dec) points square_sites) as [->|]; [|discriminate].
  destruct (length values =? 4) eqn:Ev; [|discriminate]. apply Nat.eqb_eq in Ev. intro E. split; [exact Ev|].
  destruct m; [| |discriminate]; match type of E with Ok ?t = _ => assert (t = zz) as <- by congruence end; clear E.
  - split; [apply map_length|]. intros i Hi. rewrite (nth_map_in _ _ _ []) by auto. split; [apply map_length|]. intros j Hj. cbv zeta. rewrite (nth_map_in (A := vec) (B := option Q) _ _ j []) by auto.
    set (p := nth j (nth i xi []) []). destruct (Qle_bool 0 (px p) && Qle_bool (px p) 1 && Qle_bool 0 (py p) && Qle_bool (py p) 1) eqn:Eb.
    + rewrite !andb_true_iff, !Qle_bool_iff in Eb. destruct Eb as [[[B1 B2] B3] B4].
      assert (mean square_sites (square_weights p) p) as Hm.
      { split; [reflexivity|]. split; [intros a Ha; cbn [square_weights In] in Ha; repeat (destruct Ha as [<-|Ha]; [apply Qmult_le_0_compat; lra|]); destruct Ha|].
        cbn -[Qmult Qplus Qminus px py]. change (px [0; 0]%Q) with 0%Q. change (px [1; 0]%Q) with 1%Q. change (px [0; 1]%Q) with 0%Q. change (px [1; 1]%Q) with 1%Q.
        change (py [0; 0]%Q) with 0%Q. change (py [1; 0]%Q) with 0%Q. change (py [0; 1]%Q) with 1%Q. change (py [1; 1]%Q) with 1%Q. repeat split; ring. }
      split; [intros _|intro Hn; exfalso; apply Hn; exists (square_weights p); exact Hm].
      exists (square_weights p), (wsum (square_weights p) values). split; [exact Hm|]. split; [|split; reflexivity].
      exists [1#2; 1#2]%Q, (1#2)%Q. split; intros [|[|[|[|k]]]] Hk; try (cbn in Hk; lia); intros; vm_compute; try reflexivity; discriminate.
    + split; [|intros _; reflexivity]. intros (w & Hm). exfalso. pose proof Hm as (_ & _ & _ & Hx & Hy).
      pose proof (mean_between px square_sites w p 0 1 Hm) as Bx. pose proof (mean_between py square_sites w p 0 1 Hm) as By. rewrite Hx in Bx. rewrite Hy in By.
      destruct Bx as [B1 B2]; [intros q Hq; cbn in Hq; repeat (destruct Hq as [<-|Hq]; [cbn; lra|]); destruct Hq|].
      destruct By as [B3 B4]; [intros q Hq; cbn in Hq; repeat (destruct Hq as [<-|Hq]; [cbn; lra|]); destruct Hq|].
      rewrite <- Qle_bool_iff in B1, B2, B3, B4. rewrite B1, B2, B3, B4 in Eb. discriminate.
  - split; [apply map_length|]. intros i Hi. rewrite (nth_map_in _ _ _ []) by auto. split; [apply map_length|]. intros j Hj. cbv zeta. rewrite (nth_map_in (A := vec) (B := option Q) _ _ j []) by auto.
    set (p := nth j (nth i xi []) []). eexists. split; [|split; [reflexivity|]].
    + change (length square_sites) with 4. destruct (Qle_bool _ _), (Qle_bool _ _); cbn; lia.
    + assert (forall a b, Qle_bool a b = false -> b < a)%Q as Hf by (intros a b H; apply Qnot_le_lt; intro H'; apply Qle_bool_iff in H'; congruence).
      destruct (Qle_bool (px p) (1#2)) eqn:E1; [apply Qle_bool_iff in E1|apply Hf in E1]; (destruct (Qle_bool (py p) (1#2)) eqn:E2; [apply Qle_bool_iff in E2|apply Hf in E2]);
      intros [|[|[|[|l]]]] Hl; try (cbn in Hl; lia); cbn [Nat.add nth square_sites]; unfold sq_dist;
      repeat match goal with |- context [px (?a :: ?r)] => change (px (a :: r)) with a | |- context [py (?a :: ?b :: ?r)] => change (py (a :: b :: r)) with b end; lra.
Qed.

(** Three by two nodes on the unit square with half a unit around it; the values are 3 + x + 10 y. *)
Example C115_example :
  interpolating square_griddata /\
  (exists xx yy zz, interpolate_to_grid square_griddata square_sites [3; 4; 13; 14]%Q (3, 2) (0, 0)%Q Linear None = Ok (xx, yy, zz) /\
     map (map Qred) xx = [[0; 1#2; 1]; [0; 1#2; 1]]%Q /\ map (map Qred) yy = [[0; 0; 0]; [1; 1; 1]]%Q /\
     map (map (option_map Qred)) zz = [[Some 3; Some (7#2); Some 4]; [Some 13; Some (27#2); Some 14]]%Q) /\
  (exists xx yy zz, interpolate_to_grid square_griddata square_sites [3; 4; 13; 14]%Q (3, 5) (1, 1#2)%Q Linear None = Ok (xx, yy, zz) /\
     map (map (option_map Qred)) zz = [[None; None; None]; [None; Some (7#2); None]; [None; Some (17#2); None]; [None; Some (27#2); None]; [None; None; None]]%Q) /\
  (exists xx yy zz, interpolate_to_grid square_griddata square_sites [3; 4; 13; 14]%Q (2, 2) (1, 1#2)%Q Nearest None = Ok (xx, yy, zz) /\
     zz = [[Some 3; Some 4]; [Some 13; Some 14]]%Q) /\
  interpolate_to_grid square_griddata [[0; 0; 0]]%Q [1]%Q (2, 2) (0, 0)%Q Linear None = Raise ValueError /\
  interpolate_to_grid square_griddata [] [] (2, 2) (0, 0)%Q Linear None = Raise ValueError /\
  interpolate_to_grid square_griddata [[0; 0]]%Q [1]%Q (2, 2) (0, 0)%Q Linear None = Raise OtherError.
Proof.
  split; [exact square_interpolating|].
  split; [do 3 eexists; split; [vm_compute; reflexivity|]; repeat split|].
  split; [do 3 eexists; split; [vm_compute; reflexivity|]; reflexivity|].
  split; [do 3 eexists; split; [vm_compute; reflexivity|]; reflexivity|].
  repeat split.
Qed.

(** The grid around two sites with negative coordinates, whatever is interpolated, and a value for the nodes outside. *)
Example C115_grid_example :
  (forall griddata : griddata_fun, (forall points values xi m fill, griddata points values xi m fill = Ok (map (map (fun p => Some (px p))) xi)) ->
     exists xx yy zz, interpolate_to_grid griddata [[-3; -5]; [-2; -7]]%Q [1; 2]%Q (3, 2) (1#2, 1)%Q Cubic None = Ok (xx, yy, zz) /\
       map (map Qred) xx = [[-7#2; -5#2; -3#2]; [-7#2; -5#2; -3#2]]%Q /\ map (map Qred) yy = [[-8; -8; -8]; [-4; -4; -4]]%Q) /\
  (exists xx yy zz, interpolate_to_grid square_griddata square_sites [3; 4; 13; 14]%Q (3, 2) (1, 0)%Q Linear (Some 99%Q) = Ok (xx, yy, zz) /\
     map (map (option_map Qred)) zz = [[Some 99; Some (7#2); Some 99]; [Some 99; Some (27#2); Some 99]]%Q).
Proof.
  split; [|do 3 eexists; split; [vm_compute; reflexivity|]; reflexivity].
  intros gd Hg. unfold interpolate_to_grid. cbn [forallb length Nat.eqb andb negb map nth fst snd grid_axis]. rewrite Hg. do 3 eexists. split; [reflexivity|]. split; vm_compute; reflexivity.
Qed.

(** The hypotheses of the two parts on single nodes: a node at a site, corners for every pair of sites. *)
Example C115_square_example :
  same_point (nth 2 square_sites []) [0; 1]%Q /\ (forall l, l < 4 -> same_point (nth l square_sites []) (nth 2 square_sites []) -> l = 2) /\
  (forall k, k < 4 -> (nth k [3; 4; 13; 14]%Q 0 == 1 * px (nth k square_sites []) + 10 * py (nth k square_sites []) + 3)%Q) /\
  (forall p q, In p square_sites -> In q square_sites -> exists r, In r square_sites /\ (px r == px p)%Q /\ (py r == py q)%Q).
Proof.
  split; [split; reflexivity|]. split; [intros [|[|[|[|l]]]] Hl [H1 H2]; try reflexivity; try lia; vm_compute in H1, H2; discriminate|].
  split; [intros [|[|[|[|l]]]] Hl; try lia; vm_compute; reflexivity|].
  intros p q Hp Hq. exists [px p; py q]. split; [|split; reflexivity].
  cbn in Hp, Hq. repeat (destruct Hp as [<-|Hp]; [repeat (destruct Hq as [<-|Hq]; [cbn; tauto|]); destruct Hq|]). destruct Hp.
Qed.

Print Assumptions C115_grid.
Print Assumptions C115_nearest.
Print Assumptions C115_linear.
Print Assumptions C115_border.
Print Assumptions C115_errors.
