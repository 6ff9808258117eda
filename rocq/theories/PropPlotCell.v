(** * Property C99 (lattpy/plotting.py: draw_unit_cell, lattpy/structure.py: plot_cell) *)
From Coq Require Import String List ZArith QArith Qabs Bool Arith Lia Lqa Sorting.Sorted.
From Verif Require Import Np NpFacts LinAlg LinFacts UtilsModel SpecUtils SpecBasis AtomModel BasisModel SpatialModel SpecSpatial SpecStructure ShapeModel StructureModel KDBrute DataModel LatticeModel PropStructure LatticeExamples
  BasisProofs PropBasis NeighborCellProofs StructureFacts StructureProofs AnalyzeProofs PropAnalyze DataFacts PropLimits IdentityModel PathModel PropPath PlotModel SpecPlot PropPlot SpecCell.
Import ListNotations.
Open Scope nat_scope.
Open Scope list_scope.

(** The two points of a line agree with two corners. *)
Ltac points := repeat (apply Forall2_cons; [cbn; ring|]); apply Forall2_nil.

(** The line is an edge for one of the choices of a vector and of a corner. *)
Ltac edge_at k S := exists k, S; split; [lia|]; split; [reflexivity|]; split; points.
Ltac some_edge :=
  split; [reflexivity|];
  first [ edge_at 0 (fun _ : nat => false) | edge_at 1 (fun _ : nat => false) | edge_at 2 (fun _ : nat => false)
        | edge_at 0 (fun j => j =? 1) | edge_at 0 (fun j => j =? 2) | edge_at 1 (fun j => j =? 0)
        | edge_at 1 (fun j => j =? 2) | edge_at 2 (fun j => j =? 0) | edge_at 2 (fun j => j =? 1)
        | edge_at 0 (fun j => (j =? 1) || (j =? 2)) | edge_at 1 (fun j => (j =? 0) || (j =? 2)) | edge_at 2 (fun j => (j =? 0) || (j =? 1)) ].

(** One of the lines is the edge. *)
Tactic Notation "this_line" integer(n) := eexists; split; [do n right; left; reflexivity|];
  split; [lia|]; split; [assumption|]; unfold corner, on_page; cbn -[Qplus];
  repeat match goal with H : ?S _ = _ :> bool |- _ => rewrite !H end; cbn -[Qplus]; split; points.
Ltac some_line := first [ this_line 0 | this_line 1 | this_line 2 | this_line 3 | this_line 4 | this_line 5 | this_line 6 | this_line 7
  | this_line 8 | this_line 9 | this_line 10 | this_line 11 | this_line 12 | this_line 13 | this_line 14 ].

(** Every line of the drawing is an edge of the cell and every edge is drawn; with three vectors there are 15 lines for the 12
    edges. *)
Theorem C99_unit_cell :
  forall d V color, 1 <= d <= 3 -> length V = d -> (forall v, In v V -> length v = d) ->
    let (arrows, outl) := draw_unit_cell V true color in
    (forall l, In l (arrows ++ outl) -> ln_color l = color /\ exists k S, is_edge d V k S l) /\
    (forall k S, k < d -> S k = false -> exists l, In l (arrows ++ outl) /\ is_edge d V k S l) /\
    length arrows = d /\ length outl = (match d with 1 => 0 | 2 => 2 | _ => 12 end).
Proof.
  intros d V color Hd HV Hl.
  assert (d = 1 \/ d = 2 \/ d = 3) as [-> | [-> | ->]] by lia.
  - destruct V as [|v [|]]; try discriminate HV. pose proof (Hl v (or_introl eq_refl)) as L. destruct v as [|x [|]]; try discriminate L.
    cbn -[Qplus]. split; [|split; [|auto]].
    + intros l [<-|[]]. some_edge.
    + intros k S Hk HS. assert (k = 0) as -> by lia. some_line.
  - destruct V as [|u [|v [|]]]; try discriminate HV. pose proof (Hl u (or_introl eq_refl)) as Lu. pose proof (Hl v (or_intror (or_introl eq_refl))) as Lv.
    destruct u as [|u0 [|u1 [|]]]; try discriminate Lu. destruct v as [|v0 [|v1 [|]]]; try discriminate Lv.
    cbn -[Qplus]. split; [|split; [|auto]].
    + intros l Hin. repeat (destruct Hin as [<-|Hin]; [some_edge|]). contradiction.
    + intros k S Hk HS. assert (k = 0 \/ k = 1) as [-> | ->] by lia; [destruct (S 1) eqn:E|destruct (S 0) eqn:E]; some_line.
  - destruct V as [|u [|v [|w [|]]]]; try discriminate HV.
    pose proof (Hl u (or_introl eq_refl)) as Lu. pose proof (Hl v (or_intror (or_introl eq_refl))) as Lv. pose proof (Hl w (or_intror (or_intror (or_introl eq_refl)))) as Lw.
    destruct u as [|u0 [|u1 [|u2 [|]]]]; try discriminate Lu. destruct v as [|v0 [|v1 [|v2 [|]]]]; try discriminate Lv. destruct w as [|w0 [|w1 [|w2 [|]]]]; try discriminate Lw.
    cbn -[Qplus]. split; [|split; [|auto]].
    + intros l Hin. repeat (destruct Hin as [<-|Hin]; [some_edge|]). contradiction.
    + intros k S Hk HS. assert (k = 0 \/ k = 1 \/ k = 2) as [-> | [-> | ->]] by lia;
        [destruct (S 1) eqn:E, (S 2) eqn:E'|destruct (S 0) eqn:E, (S 2) eqn:E'|destruct (S 0) eqn:E, (S 1) eqn:E']; some_line.
Qed.

(** Without the outline, and in one dimension, only the lattice vectors are drawn. *)
Theorem C99_vectors_only :
  forall V color, snd (draw_unit_cell V false color) = [] /\ (length V = 1 -> snd (draw_unit_cell V true color) = []).
Proof. intros V color. split; [reflexivity|]. intro H. unfold draw_unit_cell. cbn [snd]. rewrite H. reflexivity. Qed.

(** A slanted cell in the plane. *)
Example C99_unit_cell_example :
  let (arrows, outl) := draw_unit_cell [[2; 0]; [1; 1]]%Q true (VStr "k") in
  map (fun l => (map Qred (ln_start l), map Qred (ln_end l))) (arrows ++ outl) =
    [([0; 0], [2; 0]); ([0; 0], [1; 1]); ([1; 1], [3; 1]); ([2; 0], [3; 1])]%Q.
Proof. vm_compute. reflexivity. Qed.

(** ** plot_cell *)

(** The neighbours that are drawn: of every atom those at its first [m] distances, where [m] is the largest number of
    connections. *)
Definition shown (s : structure) (m : nat) : list (nat * site) :=
  flat_map (fun i => flat_map (fun k => match StructureModel.get_neighbors s (repeat 0%Z (b_dim (st_basis s))) i k with Ok L => map (pair i) L | Raise _ => [] end)
    (seq 0 m)) (seq 0 (length (st_atoms s))).

Definition outside (t : site) : Prop := exists z, In z (removelast t) /\ z <> 0%Z.
Definition outsideb (e : nat * site) : bool := existsb (fun z => negb (z =? 0)%Z) (site_cell (snd e)).

Lemma outsideb_spec e : outsideb e = true <-> outside (snd e).
Proof.
  unfold outsideb, outside, site_cell. rewrite existsb_exists. split; intros [z [H1 H2]]; exists z; (split; [auto|]).
  - intros ->. discriminate.
  - apply negb_true_iff, Z.eqb_neq. auto.
Qed.

Definition row_of (s : structure) (i k : nat) : list (nat * site) :=
  match StructureModel.get_neighbors s (repeat 0%Z (b_dim (st_basis s))) i k with Ok L => map (pair i) L | Raise _ => [] end.

Lemma shown_rows s m : shown s m = concat (flat_map (fun i => map (row_of s i) (seq 0 m)) (seq 0 (length (st_atoms s)))).
Proof.
  unfold shown. induction (seq 0 (length (st_atoms s))) as [|i l IH]; [reflexivity|]. cbn [flat_map]. rewrite concat_app, <- IH. f_equal. apply flat_map_concat_map.
Qed.

Lemma gather {A B C} (R1 : A -> B -> Prop) (R2 : A -> C -> Prop) (P : A -> bool) es rows :
  Forall2 (fun e r => exists l1 l2, r = Ok (l1, l2) /\ Forall2 R1 e l1 /\ Forall2 R2 (filter P e) l2) es rows ->
  exists parts, all_ok rows = Ok parts /\ Forall2 R1 (concat es) (concat (map fst parts)) /\ Forall2 R2 (filter P (concat es)) (concat (map snd parts)).
Proof.
  induction 1 as [|e r es rows (l1 & l2 & -> & H1 & H2) _ (parts & E & G1 & G2)]; [exists []; repeat split; constructor|].
  exists ((l1, l2) :: parts). cbn. rewrite E, filter_app. split; auto. split; apply Forall2_app; auto.
Qed.

Lemma Forall2_flat {A B C D} (f : A -> list C) (g : A -> list D) (R : C -> D -> Prop) (l : list A) (dummy : B) :
  (forall x, In x l -> Forall2 R (f x) (g x)) -> Forall2 R (flat_map f l) (flat_map g l).
Proof. induction l as [|x l IH]; intro H; [constructor|]. cbn. apply Forall2_app; [apply H; left; auto|apply IH; intros; apply H; right; auto]. Qed.

(** Points that are left by [np.unique]. *)
Lemma vec_leb_refl u : vec_leb u u = true.
Proof. induction u as [|x u IH]; [reflexivity|]. cbn. rewrite (proj2 (Qeq_bool_iff x x) (Qeq_refl x)). exact IH. Qed.

Lemma vec_leb_antisym u v : vec_leb u v = true -> vec_leb v u = true -> veq u v.
Proof.
  revert v. induction u as [|x u IH]; intros [|y v] H1 H2; try discriminate; [constructor|]. cbn in *.
  destruct (Qeq_bool x y) eqn:E.
  - apply Qeq_bool_iff in E. rewrite (proj2 (Qeq_bool_iff y x) (Qeq_sym _ _ E)) in H2. constructor; [exact E|]. apply IH; auto.
  - destruct (Qeq_bool y x) eqn:E'; [apply Qeq_bool_iff, Qeq_sym, Qeq_bool_iff in E'; congruence|].
    apply Qle_bool_iff in H1, H2. pose proof (Qle_antisym _ _ H1 H2) as E2. apply Qeq_bool_iff in E2. congruence.
Qed.

Lemma insert_in {A} (leb : A -> A -> bool) x y l : In y (insert_stable leb x l) <-> y = x \/ In y l.
Proof. induction l as [|z l IH]; cbn; [intuition|]. destruct (leb x z); cbn; [intuition|]. rewrite IH. intuition. Qed.
Lemma sort_in {A} (leb : A -> A -> bool) y l : In y (sort_stable leb l) <-> In y l.
Proof. induction l as [|z l IH]; cbn; [tauto|]. rewrite insert_in, IH. intuition. Qed.

Lemma unique_points l : (forall p, In p (unique vec_leb l) -> In p l) /\ (forall p, In p l -> exists q, In q (unique vec_leb l) /\ veq p q).
Proof.
  unfold unique. assert (forall m, (forall p, In p (dedup_sorted vec_leb m) -> In p m) /\ (forall p, In p m -> exists q, In q (dedup_sorted vec_leb m) /\ veq p q)) as H.
  { induction m as [|x m [I1 I2]]; [split; [auto|intros p []]|]. cbn. destruct (dedup_sorted vec_leb m) as [|y ys] eqn:E.
    - split; [intros p [<-|[]]; auto|]. intros p [<-|Hp]; [exists x; split; [left; auto|apply veq_refl]|]. destruct (I2 p Hp) as [q [[] _]].
    - destruct (vec_leb x y && vec_leb y x) eqn:B.
      + apply andb_prop in B. destruct B as [B1 B2]. split; [intros p Hp; right; apply I1; exact Hp|].
        intros p [<-|Hp]; [exists y; split; [left; auto|apply vec_leb_antisym; auto]|apply I2; auto].
      + split; [intros p [<-|Hp]; [left; auto|right; apply I1; exact Hp]|].
        intros p [<-|Hp]; [exists x; split; [left; auto|apply veq_refl]|]. destruct (I2 p Hp) as [q [Hq Hv]]. exists q. split; [right; exact Hq|auto]. }
  destruct (H (sort_stable vec_leb l)) as [H1 H2]. split; intros p Hp; [apply (sort_in vec_leb), H1; auto|apply H2, sort_in; auto].
Qed.

Lemma vec_leb_total u v : vec_leb u v = true \/ vec_leb v u = true.
Proof.
  revert v. induction u as [|x u IH]; intros [|y v]; auto. cbn. destruct (Qeq_bool x y) eqn:E.
  - apply Qeq_bool_iff in E. rewrite (proj2 (Qeq_bool_iff y x) (Qeq_sym _ _ E)). apply IH.
  - destruct (Qeq_bool y x) eqn:E'; [apply Qeq_bool_iff, Qeq_sym, Qeq_bool_iff in E'; congruence|]. rewrite !Qle_bool_iff. destruct (Qlt_le_dec x y); [left; lra|right; auto].
Qed.

Lemma vec_leb_trans u v w : vec_leb u v = true -> vec_leb v w = true -> vec_leb u w = true.
Proof.
  revert v w. induction u as [|x u IH]; intros [|y v] [|z w] H1 H2; try discriminate; auto. cbn in *.
  destruct (Qeq_bool x y) eqn:E1, (Qeq_bool y z) eqn:E2, (Qeq_bool x z) eqn:E3; rewrite ?Qeq_bool_iff in *;
    repeat match goal with H : Qeq_bool _ _ = false |- _ => apply Qeq_bool_neq in H end; rewrite ?Qle_bool_iff in *; try (eapply IH; eassumption); try lra.
  all: try (exfalso; match goal with H : ~ _ |- _ => apply H; lra end).
Qed.

Lemma vec_leb_veq u v : veq u v -> vec_leb u v = true.
Proof. induction 1 as [|x y u v E _ IH]; [reflexivity|]. cbn. rewrite (proj2 (Qeq_bool_iff x y) E). exact IH. Qed.

Lemma sorted_points l : StronglySorted (fun u v => vec_leb u v = true) (sort_stable vec_leb l).
Proof.
  induction l as [|x l IH]; cbn; [constructor|]. induction IH as [|y m Hm IHm Hf]; cbn; [repeat constructor|].
  destruct (vec_leb x y) eqn:E.
  - constructor; [constructor; auto|]. constructor; auto. eapply Forall_impl; [|exact Hf]. intros z Hz. eapply vec_leb_trans; eauto.
  - constructor; auto. apply Forall_forall. intros z Hz. apply insert_in in Hz. destruct Hz as [->|Hz]; [destruct (vec_leb_total x y); congruence|].
    rewrite Forall_forall in Hf. auto.
Qed.

Lemma unique_distinct l : ForallOrdPairs (fun u v => ~ veq u v) (unique vec_leb l).
Proof.
  unfold unique. pose proof (sorted_points l) as H. induction H as [|x m Hm IH Hf]; cbn; [constructor|].
  assert (forall p, In p (dedup_sorted vec_leb m) -> In p m) as Sub.
  { clear. induction m as [|y m IH]; [auto|]. cbn. destruct (dedup_sorted vec_leb m) as [|z zs]; [intros p [<-|[]]; left; auto|].
    destruct (vec_leb y z && vec_leb z y); intros p Hp; [right; auto|]. destruct Hp as [<-|Hp]; [left; auto|right; auto]. }
  assert (StronglySorted (fun u v => vec_leb u v = true) (dedup_sorted vec_leb m)) as SD.
  { clear -Hm. induction Hm as [|y m Hm IH Hf]; cbn; [constructor|].
    assert (forall p, In p (dedup_sorted vec_leb m) -> In p m) as Sub.
    { clear. induction m as [|y m IH]; [auto|]. cbn. destruct (dedup_sorted vec_leb m) as [|z zs]; [intros p [<-|[]]; left; auto|].
      destruct (vec_leb y z && vec_leb z y); intros p Hp; [right; auto|]. destruct Hp as [<-|Hp]; [left; auto|right; auto]. }
    destruct (dedup_sorted vec_leb m) as [|z zs]; [repeat constructor|]. destruct (vec_leb y z && vec_leb z y); auto.
    constructor; auto. rewrite Forall_forall in *. intros p Hp. apply Hf, Sub, Hp. }
  destruct (dedup_sorted vec_leb m) as [|z zs]; [repeat constructor|]. destruct (vec_leb x z && vec_leb z x) eqn:B; auto.
  constructor; auto. rewrite Forall_forall in Hf. apply Forall_forall. intros p Hp Hv.
  rewrite (Hf z (Sub z (or_introl eq_refl))) in B. cbn in B.
  assert (vec_leb z p = true) as Hzp.
  { destruct Hp as [<-|Hp]; [apply vec_leb_refl|]. inversion SD as [|? ? _ Hz]; subst. rewrite Forall_forall in Hz. auto. }
  rewrite (vec_leb_trans z p x Hzp (vec_leb_veq _ _ (veq_sym _ _ Hv))) in B. discriminate.
Qed.

Lemma on_page_distinct p q : length p = length q -> veq (on_page p) (on_page q) -> veq p q.
Proof.
  intros L H. unfold on_page in H. rewrite L in H. destruct (Nat.eqb_spec (length q) 1) as [E|]; auto.
  destruct p as [|x [|]], q as [|y [|]]; cbn in *; try discriminate. inversion H; subst. repeat constructor. auto.
Qed.

(** The picture of the unit cell of an analysed lattice: a line to every neighbour at one of the first [m] distances of the atom. *)
Theorem C99_plot_cell :
  forall query s0 s conns vecs cell colors,
    let b := st_basis s in
    let d := b_dim b in
    let n := length (st_atoms s) in
    let m := max_connections conns in
    let place t := lattice_point d (b_mat b) (nth (site_atom t) (st_positions s) []) (removelast t) in
    correct_tree query -> valid_basis (st_basis s0) -> 1 <= b_dim (st_basis s0) <= 3 -> in_step s0 -> st_connections s0 = Some conns -> analyze query s0 = (s, Ok tt) ->
    (forall a, In a (st_atoms s) -> atom_getattr a "color" <> None /\ atom_getattr a "radius" <> None /\ atom_getattr a "name" <> None) ->
    (forall e, In e colors -> exists i j, for_pair n i j e) ->
    exists p, plot_cell s true vecs cell colors = Ok p /\
      (* the lines *)
      Forall2 (fun e l => exists c, pair_color n (VStr "k") colors (fst e) (site_atom (snd e)) c /\ drawn (nth (fst e) (st_positions s) []) (place (snd e)) c l) (shown s m) (cp_lines p) /\
      (* the vectors and the atoms *)
      (cp_arrows p, cp_outline p) = (if vecs then draw_unit_cell (b_vectors b) cell (VStr "k") else ([], [])) /\
      Forall2 (fun i D => exists a col, nth_error (st_atoms s) i = Some a /\ atom_getattr a "color" = Some col /\ dt_points D = [on_page (nth i (st_positions s) [])] /\
          Some (dt_radius D) = atom_getattr a "radius" /\ dt_scale D = 1%Q /\ dt_label D = atom_getattr a "name" /\
          dt_color D = (if match col with VNone => true | VStr s => String.eqb s "" | VNum q => Qeq_bool q 0 end then VStr (String.append "C" (show_nat i)) else col))
        (seq 0 n) (cp_atoms p) /\
      (* the neighbours outside the cell: small discs like those of their atoms, each place once *)
      (forall D, In D (cp_ghosts p) -> dt_scale D = (6#10)%Q /\ ForallOrdPairs (fun u v => ~ veq u v) (dt_points D) /\
         exists i A, nth_error (cp_atoms p) i = Some A /\ dt_radius D = dt_radius A /\ dt_color D = dt_color A /\
           forall q, In q (dt_points D) -> exists e, In e (shown s m) /\ outside (snd e) /\ site_atom (snd e) = i /\ veq q (on_page (place (snd e)))) /\
      (forall e, In e (shown s m) -> outside (snd e) -> exists D A q, In D (cp_ghosts p) /\ nth_error (cp_atoms p) (site_atom (snd e)) = Some A /\
         dt_radius D = dt_radius A /\ dt_color D = dt_color A /\ In q (dt_points D) /\ veq q (on_page (place (snd e)))).
Proof.
  intros query s0 s conns vecs cell colors b d n m place Hq Hb0 Hd0 Hs0 Ec0 Ha Hattr Hcol.
  destruct (analyze_keeps query s0) as [K1 [K2 [K3 K4]]]. rewrite Ha in K1, K2, K3, K4. cbn [fst] in *.
  assert (in_step s) as Hs by (pose proof (in_step_analyze query s0 Hs0) as H; rewrite Ha in H; exact H).
  destruct Hs as [Lpos [Hpos _]]. fold n in Lpos. fold b d in Hpos.
  assert (valid_basis b) as Hb by (unfold b; rewrite K1; exact Hb0).
  assert (1 <= d <= 3) as Hd by (unfold d, b; rewrite K1; exact Hd0).
  assert (forall i, i < n -> length (nth i (st_positions s) []) = d) as Hp by (intros i Hi; apply Hpos, nth_In; unfold vec in *; lia).
  assert (forall i k, i < n -> StructureModel.get_neighbors s (repeat 0%Z d) i k = Raise IndexError \/
      exists L, StructureModel.get_neighbors s (repeat 0%Z d) i k = Ok L /\ forall t, In t L -> exists c a, t = c ++ [Z.of_nat a] /\ length c = d /\ a < n) as Hget.
  { destruct (C29_neighbors_translation_covariant query s0 s conns Hq Hb0 ltac:(lia) Hs0 Ec0 Ha) as (mm & cells & _ & _ & Ecells & H).
    rewrite <- K1, <- K3 in H. rewrite <- K1 in Ecells. fold b d in H, Ecells. intros i k Hi.
    destruct (H i ltac:(unfold vec in *; lia)) as [Ds [_ [_ HN]]]. specialize (HN (repeat 0%Z d) k (repeat_length _ _)).
    destruct (nth_error Ds k) as [x|]; [|left; exact HN]. right. destruct HN as (L & L0 & E & _ & _ & _ & Hin & _). exists L. split; auto.
    intros t Ht. apply Hin in Ht. destruct Ht as (c & a & Ha' & -> & Hl). exists (map2 Z.add c (repeat 0%Z d)), a. split; auto.
    destruct (cells_props b mm Hb ltac:(fold d; lia) cells Ecells) as [_ [Hlen _]]. rewrite map2_length, repeat_length, (Hlen c (proj1 Hl)). fold d.
    split; [lia|]. unfold vec in *. lia. }
  destruct (color_table n (VStr "k") colors Hcol) as [hop [Eh Hhop]].
  set (R1 := fun (e : nat * site) l => exists c, pair_color n (VStr "k") colors (fst e) (site_atom (snd e)) c /\ drawn (nth (fst e) (st_positions s) []) (place (snd e)) c l).
  set (R2 := fun (e : nat * site) (g : nat * vec) => fst g = site_atom (snd e) /\ fst g < n /\ veq (snd g) (place (snd e))).
  destruct (gather R1 R2 outsideb (flat_map (fun i => map (row_of s i) (seq 0 m)) (seq 0 n))
     (flat_map (fun i => map (cell_neighbors s hop i (nth i (st_positions s) [])) (seq 0 m)) (seq 0 n))) as (parts & Eparts & G1 & G2).
  { apply (Forall2_flat _ _ _ _ tt). intros i Hi. apply in_seq in Hi. assert (i < n) as Hin by lia. clear Hi.
    induction (seq 0 m) as [|k ks IH]; cbn [map]; constructor; auto. clear IH. unfold row_of, cell_neighbors. fold b d.
    destruct (Hget i k Hin) as [-> | [L [-> HL]]]; [exists [], []; repeat split; constructor|]. eexists _, _. split; [reflexivity|].
    unfold StructureModel.get_positions. fold b. split.
    - clear k ks. induction L as [|t L IH]; cbn [map map2]; [constructor|]. constructor; [|apply IH; intros; apply HL; right; auto].
      destruct (HL t (or_introl eq_refl)) as (c & a & -> & Lc & Ha').
      rewrite site_cell_app, site_atom_app. destruct (Hhop i a Hin Ha') as [col [Ecol Hpc]]. exists col. cbn [fst snd]. rewrite site_atom_app. split; auto.
      assert (nth a (nth i hop []) VNone = col) as ->.
      { unfold color_at in Ecol. destruct (nth_error hop i) as [row|] eqn:Er; [|discriminate]. rewrite (nth_error_nth _ _ [] Er). apply nth_error_nth. exact Ecol. }
      unfold place. rewrite site_atom_app, removelast_last.
      assert (length (translate b c (nth a (st_positions s) [])) = d) as Lt by (apply translate_length; auto).
      apply draw_vector_drawn; [rewrite vsub_length; rewrite ?Hp by auto; congruence|].
      eapply veq_trans; [apply vadd_vsub; rewrite Hp by auto; congruence|]. apply translate_point; auto.
    - clear k ks. induction L as [|t L IH]; cbn [map combine flat_map filter]; [constructor|].
      destruct (HL t (or_introl eq_refl)) as (c & a & -> & Lc & Ha'). assert (forall t, In t L -> exists c a, t = c ++ [Z.of_nat a] /\ length c = d /\ a < n) as HL' by (intros; apply HL; right; auto).
      unfold outsideb at 1. cbn [fst snd]. destruct (existsb _ (site_cell (c ++ [Z.of_nat a]))); cbn [app]; [|apply IH; auto].
      constructor; [|apply IH; auto]. unfold R2. cbn [fst snd]. rewrite site_cell_app, site_atom_app. split; auto. split; auto. unfold place. rewrite site_atom_app, removelast_last.
      apply translate_point; auto. }
  pose proof (shown_rows s m) as Esh. fold n in Esh. rewrite <- Esh in G1, G2.
  destruct (all_some_forall2 (cell_dots s) (fun i D => exists a col, nth_error (st_atoms s) i = Some a /\ atom_getattr a "color" = Some col /\ dt_points D = [on_page (nth i (st_positions s) [])] /\
          Some (dt_radius D) = atom_getattr a "radius" /\ dt_scale D = 1%Q /\ dt_label D = atom_getattr a "name" /\
          dt_color D = (if match col with VNone => true | VStr s => String.eqb s "" | VNum q => Qeq_bool q 0 end then VStr (String.append "C" (show_nat i)) else col)) (seq 0 n)) as [atoms [Eatoms Hatoms]].
  { intros i Hi. apply in_seq in Hi. unfold cell_dots. destruct (nth_error (st_atoms s) i) as [at_|] eqn:Ea; [|apply nth_error_None in Ea; fold n in Ea; lia].
    destruct (nth_error (st_positions s) i) as [x|] eqn:Ex; [|apply nth_error_None in Ex; unfold vec in *; lia].
    destruct (Hattr at_ (nth_error_In _ _ Ea)) as (A1 & A2 & A3). destruct (atom_getattr at_ "color") as [col|] eqn:Ec; [|congruence]. destruct (atom_getattr at_ "name") as [nm|] eqn:En; [|congruence].
    destruct (atom_getattr at_ "radius") as [rd|] eqn:Er; [|congruence]. eexists. split; [reflexivity|]. exists at_, col. rewrite Er, En.
    cbn [draw_sites dt_points dt_radius dt_scale dt_label dt_color map]. assert (nth i (st_positions s) [] = x) as Enx by (apply nth_error_nth; exact Ex). rewrite planar_page. unfold vec in *. rewrite Enx. repeat (split; [reflexivity || auto|]).
    unfold disc_color. destruct col as [|t|q]; cbn [truthy]; auto; [destruct (String.eqb t "")|destruct (Qeq_bool q 0)]; reflexivity. }
  assert (length atoms = n) as Latoms by (clear -Hatoms; rewrite <- (seq_length n 0); induction Hatoms; cbn; congruence).
  assert (n <> 0) as Hn0.
  { intro E. unfold n in E. apply length_zero_iff_nil in E. rewrite E in K2. unfold analyze in Ha. rewrite <- K2 in Ha. discriminate. }
  destruct (if vecs then draw_unit_cell (b_vectors b) cell (VStr "k") else ([], [])) as [arrows outl] eqn:Ev.
  eexists. split.
  { unfold plot_cell. fold b d n. destruct (Nat.ltb_spec 3 d); [lia|]. rewrite Ev, Eatoms, Eh. cbn [negb orb]. destruct (Nat.eqb_spec n 0); [contradiction|].
    rewrite K4, Ec0. fold m. rewrite Eparts. reflexivity. }
  cbn [cp_lines cp_ghosts cp_atoms cp_arrows cp_outline]. split; [exact G1|]. split; [reflexivity|]. split; [exact Hatoms|].
  assert (forall (A B : Type) (R : A -> B -> Prop) u v, Forall2 R u v -> (forall y, In y v -> exists x, In x u /\ R x y) /\ (forall x, In x u -> exists y, In y v /\ R x y)) as F2.
  { clear. intros A B R u v. induction 1 as [|x y u v Hxy _ [I1 I2]]; [split; intros ? []|]. split.
    - intros z [<-|Hz]; [exists x; split; [left|]; auto|]. destruct (I1 z Hz) as [x' [? ?]]. exists x'. split; [right|]; auto.
    - intros z [<-|Hz]; [exists y; split; [left|]; auto|]. destruct (I2 z Hz) as [y' [? ?]]. exists y'. split; [right|]; auto. }
  destruct (F2 _ _ _ _ _ G2) as [B1 B2]. clear F2. split.
  - intros D HD. apply in_flat_map in HD. destruct HD as [i [Hi HD]]. unfold ghost_dots in HD.
    destruct (map snd (filter (fun jp => fst jp =? i) (concat (map snd parts)))) as [|p0 ps] eqn:Ef; [destruct HD|].
    destruct (nth_error atoms i) as [A0|] eqn:EA; [|destruct HD]. destruct HD as [<-|[]]. cbn [draw_sites dt_scale dt_points dt_radius dt_color]. split; auto.
    assert (forall x, In x (p0 :: ps) -> exists e, In e (shown s m) /\ outside (snd e) /\ site_atom (snd e) = i /\ veq x (place (snd e))) as Hx.
    { intros x Hx. rewrite <- Ef in Hx. apply in_map_iff in Hx. destruct Hx as [g [<- Hg]]. apply filter_In in Hg. destruct Hg as [Hg Eg]. apply Nat.eqb_eq in Eg.
      destruct (B1 g Hg) as [e [He [E1 [_ Hv]]]]. apply filter_In in He. exists e. split; [apply He|]. split; [apply outsideb_spec, He|]. split; [congruence|exact Hv]. }
    split.
    + pose proof (unique_distinct (p0 :: ps)) as HU. pose proof (proj1 (unique_points (p0 :: ps))) as Sub.
      assert (forall x, In x (unique vec_leb (p0 :: ps)) -> length x = d) as Hlen.
      { intros x Hx'. destruct (Hx x (Sub x Hx')) as [e [_ [_ [_ Hv]]]]. apply veq_nth in Hv. rewrite (proj1 Hv). unfold place. apply lattice_point_length. }
      revert HU Hlen. generalize (unique vec_leb (p0 :: ps)). clear. intros U HU. induction HU as [|u U Hu _ IH]; intro Hlen; cbn [map]; constructor.
      * rewrite Forall_forall in *. intros y Hy. apply in_map_iff in Hy. destruct Hy as [v [<- Hv]]. rewrite !planar_page. intro H.
        apply (Hu v Hv). apply on_page_distinct; auto. rewrite !Hlen; auto; [right; auto|left; auto].
      * apply IH. intros; apply Hlen; right; auto.
    + exists i, A0. split; auto. split; auto. split; auto. intros q Hq'. apply in_map_iff in Hq'. destruct Hq' as [x [<- Hx']].
      destruct (Hx x (proj1 (unique_points _) x Hx')) as [e [H1 [H2 [H3 H4]]]]. exists e. split; auto. split; auto. split; auto. rewrite planar_page. apply on_page_veq. exact H4.
  - intros e He Ho. destruct (B2 e) as [g [Hg [E1 [E2 Hv]]]]; [apply filter_In; split; auto; apply outsideb_spec; auto|].
    assert (In (snd g) (map snd (filter (fun jp => fst jp =? fst g) (concat (map snd parts))))) as Hin.
    { apply in_map. apply filter_In. split; auto. apply Nat.eqb_refl. }
    destruct (nth_error atoms (fst g)) as [A0|] eqn:EA; [|apply nth_error_None in EA; lia].
    destruct (proj2 (unique_points _) _ Hin) as [q [Hq' Hvq]].
    exists (draw_sites (unique vec_leb (map snd (filter (fun jp => fst jp =? fst g) (concat (map snd parts))))) (dt_radius A0) (6#10) (dt_color A0) None), A0, (planar q).
    split; [|rewrite <- E1; split; [exact EA|split; [reflexivity|split; [reflexivity|split]]]].
    + apply in_flat_map. exists (fst g). split; [apply in_seq; lia|]. unfold ghost_dots. rewrite EA.
      destruct (map snd (filter (fun jp => fst jp =? fst g) (concat (map snd parts)))); [destruct Hin|left; reflexivity].
    + cbn [draw_sites dt_points]. apply in_map. exact Hq'.
    + rewrite planar_page. apply on_page_veq. eapply veq_trans; [apply veq_sym; exact Hvq|exact Hv].
Qed.

(** Lattices of more than three dimensions cannot be drawn. *)
Theorem C99_dimension :
  forall s nb vecs cell colors, 3 < b_dim (st_basis s) -> plot_cell s nb vecs cell colors = Raise ValueError.
Proof. intros s nb vecs cell colors H. unfold plot_cell. cbv zeta. apply Nat.ltb_lt in H. rewrite H. reflexivity. Qed.

Example C99_dimension_example :
  let b4 := mkBasis [[1; 0; 0; 0]; [0; 1; 0; 0]; [0; 0; 1; 0]; [0; 0; 0; 1]]%Q [[1; 0; 0; 0]; [0; 1; 0; 0]; [0; 0; 1; 0]; [0; 0; 0; 1]]%Q in
  3 < b_dim b4 /\ plot_cell (run_calls brute b4 []) true true true [] = Raise ValueError.
Proof. split; [cbn; lia|]. vm_compute. reflexivity. Qed.

Lemma Forall2_nth_Q p q : veq p q -> Qeq_bool (nth 0 p 0%Q) (nth 0 q 0%Q) = true.
Proof. intro H. apply Qeq_bool_iff. destruct H; [reflexivity|assumption]. Qed.

(** Two atoms at 0 and 3/10 with one connection for every pair: the atom at 0 has neighbours at the distances 3/10 and 1, but
    the largest number of connections is 1, so that only the first distance is drawn. *)
Theorem C99_missing_neighbors_refuted :
  exists s conns i k L p, st_connections s = Some conns /\ StructureModel.get_neighbors s [0%Z] i k = Ok L /\ L = [[-1; 0]; [1; 0]]%Z /\ max_connections conns <= k /\
    plot_cell s true true true [] = Ok p /\
    forall l t, In l (cp_lines p) -> In t L -> ~ veq (ln_end l) (on_page (lattice_point 1 (b_mat (st_basis s)) (nth (site_atom t) (st_positions s) []) (removelast t))).
Proof.
  exists two_atoms, [[1; 1]; [1; 1]], 0, 1. eexists _, _. split; [reflexivity|]. split; [vm_compute; reflexivity|]. split; [reflexivity|]. split; [cbn; lia|].
  split; [vm_compute; reflexivity|]. cbn [cp_lines]. intros l t Hl Ht H.
  destruct Hl as [<-|[<-|[]]], Ht as [<-|[<-|[]]]; apply Forall2_nth_Q in H; vm_compute in H; discriminate.
Qed.

(** The hypotheses of [C99_plot_cell] hold for this lattice; with two connections for every pair, the neighbours in the next
    cells are drawn as well. *)
Example C99_example :
  correct_tree brute /\ valid_basis (st_basis two_atoms) /\ 1 <= b_dim (st_basis two_atoms) <= 3 /\ in_step two_atoms /\
  st_connections two_atoms = Some [[1; 1]; [1; 1]] /\ analyze brute two_atoms = (two_atoms, Ok tt) /\
  (forall a, In a (st_atoms two_atoms) -> atom_getattr a "color" <> None /\ atom_getattr a "radius" <> None /\ atom_getattr a "name" <> None) /\
  shown two_atoms 1 = [(0, [0; 1]%Z); (1, [0; 0]%Z)] /\
  match plot_cell (fst (add_connections brute two_atoms 2 true)) true true true [] with
  | Ok p => map (fun l => (map Qred (ln_start l), map Qred (ln_end l))) (cp_lines p) =
      [([0; 0], [3#10; 0]); ([0; 0], [-7#10; 0]); ([3#10; 0], [0; 0]); ([3#10; 0], [1; 0])]%Q /\
      map (fun D => map (map Qred) (dt_points D)) (cp_ghosts p) = [[[1; 0]]; [[-7#10; 0]]]%Q
  | Raise _ => False
  end.
Proof.
  split; [exact brute_nearest|].
  split; [split; [split; [reflexivity|intros r [<-|[]]; reflexivity]|split; [split; [reflexivity|intros r [<-|[]]; reflexivity]|
    split; intros [|i] [|j] Hi Hj; cbn in Hi, Hj; try lia; reflexivity]]|].
  split; [cbn; lia|].
  split.
  { apply (reachable_in_step brute ex_chain). change two_atoms with (run_calls brute ex_chain
      [CAddAtom (Some [0]%Q) (ex_atom "A") false 0; CAddAtom (Some [3#10]%Q) (ex_atom "B") false 1]). unfold run_calls. cbn [fold_left].
    repeat (apply r_call; [|intro; reflexivity || discriminate]). apply r_new. }
  split; [reflexivity|]. split; [vm_compute; reflexivity|].
  split; [intros a [<-|[<-|[]]]; repeat split; discriminate|]. split; [vm_compute; reflexivity|]. vm_compute. split; reflexivity.
Qed.

Print Assumptions C99_unit_cell.
Print Assumptions C99_vectors_only.
Print Assumptions C99_unit_cell_example.
Print Assumptions C99_plot_cell.
Print Assumptions C99_missing_neighbors_refuted.
Print Assumptions C99_dimension.
Print Assumptions C99_example.
