(** * Properties C01-C05 and C64 (lattpy/utils.py) *)
From Coq Require Import String List ZArith QArith Qround Qabs Qpower Bool Arith Lia Lqa Sorting.Sorted.
From Verif Require Import Np NpFacts UtilsModel SpecUtils UtilsProofs.
Import ListNotations.
Open Scope nat_scope.

(** ** C01: lookup tables decode to the original array *)

Theorem C01_lookup_decodes :
  forall (A : Type) (leb eqb : A -> A -> bool), total_order leb -> decides_eq eqb ->
  forall (array : list A) (values : list A) (indices : list nat) (d : A),
    create_lookup_table leb eqb array = (values, indices) ->
    increasing leb values /\
    (forall x, In x values <-> In x array) /\
    length indices = length array /\
    (length values <= 256 -> map (fun i => nth i values d) indices = array).
Proof.
  intros A leb eqb Hl He array values indices d H.
  pose proof (lookup_values_spec leb eqb Hl array) as [H1 H2].
  pose proof (lookup_indices_length leb eqb array) as H3.
  pose proof (lookup_decodes leb eqb Hl He array d) as H4.
  rewrite H in *. simpl in *. auto.
Qed.

(** With more than 256 distinct entries decoding is wrong, whatever the array. *)
Theorem C01_lookup_overflow_refuted :
  forall (A : Type) (leb eqb : A -> A -> bool), total_order leb -> decides_eq eqb ->
  forall (array : list A) (values : list A) (indices : list nat) (d : A),
    create_lookup_table leb eqb array = (values, indices) ->
    256 < length values -> map (fun i => nth i values d) indices <> array.
Proof.
  intros A leb eqb Hl He array values indices d H.
  pose proof (lookup_overflow leb eqb Hl He array d) as H4.
  rewrite H in *. simpl in *. auto.
Qed.

(** The same for the two-dimensional distance tables used by the library. *)
Theorem C01_lookup_decodes_table :
  forall (A : Type) (leb eqb : A -> A -> bool), total_order leb -> decides_eq eqb ->
  forall (array : list (list A)) (cols : nat) (values : list A) (indices : list (list nat)) (d : A),
    (forall r, In r array -> length r = cols) ->
    create_lookup_table2 leb eqb array = (values, indices) ->
    increasing leb values /\
    (forall x, In x values <-> exists r, In r array /\ In x r) /\
    (length values <= 256 -> map (map (fun i => nth i values d)) indices = array).
Proof.
  intros A leb eqb Hl He array cols values indices d Hr H.
  unfold create_lookup_table2 in H.
  destruct (create_lookup_table leb eqb (concat array)) as [v ind] eqn:E.
  injection H as <- <-.
  destruct (C01_lookup_decodes A leb eqb Hl He _ _ _ d E) as [H1 [H2 [H3 H4]]].
  split; [exact H1|]. split.
  - intro x. rewrite H2, in_concat. tauto.
  - intro Hlen. rewrite reshape_map, H4 by assumption.
    apply reshape_concat. intros r Hin. rewrite (Hr r Hin).
    destruct array as [|r0 array]; [destruct Hin|]. symmetry. apply Hr. left; auto.
Qed.

(** The orders the library uses satisfy the hypotheses. *)
Example C01_dist_order : total_order dleb /\ decides_eq deqb.
Proof.
  split; [split|].
  - apply dleb_total.
  - apply dleb_trans.
  - apply dleb_antisym.
  - intros x y. apply deqb_eq.
Qed.

Example C01_example :
  create_lookup_table2 dleb deqb [[Fin 1000000; Inf]; [Fin 1414214; Fin 1000000]] =
  ([Fin 1000000; Fin 1414214; Inf], [[0; 2]; [1; 0]]).
Proof. reflexivity. Qed.

Example C01_overflow_example :
  256 < length (fst (create_lookup_table Nat.leb Nat.eqb (seq 0 300))) /\
  nth 256 (snd (create_lookup_table Nat.leb Nat.eqb (seq 0 300))) 7 = 0.
Proof. vm_compute. split; [|reflexivity]. repeat constructor. Qed.

(** ** C02: min_dtype can hold the data and is the smallest of its kind *)

(** "[z] is representable in the numpy type [t]". *)
Definition holds (t : ndtype) (z : Z) : Prop :=
  match t with
  | U8 => fits_unsigned 8 z | U16 => fits_unsigned 16 z
  | U32 => fits_unsigned 32 z | U64 => fits_unsigned 64 z
  | I8 => fits_signed 8 z | I16 => fits_signed 16 z
  | I32 => fits_signed 32 z | I64 => fits_signed 64 z
  | OBJ => True
  end.

Theorem C02_min_dtype_holds :
  forall a signed t, min_dtype a signed = Some t -> forall x, In x a -> holds t x.
Proof.
  intros a s t H x Hx. pose proof (min_dtype_holds a s t x H Hx) as H'.
  destruct t; exact H'.
Qed.

(** It fails only for an empty array. *)
Theorem C02_min_dtype_defined : forall a signed, min_dtype a signed = None <-> a = [].
Proof. exact min_dtype_empty. Qed.

(** Minimality: with [signed=True] among the signed types holding every entry and its negative;
    otherwise among the signed types if some entry is negative and the unsigned types if none is. *)
Theorem C02_min_dtype_minimal :
  forall a t b, machine_width b ->
    (min_dtype a true = Some t ->
     (forall x, In x a -> fits_signed b x /\ fits_signed b (- x)) ->
     (t <> OBJ -> dt_signed t = true) /\ (dt_bits t <= b)%Z) /\
    (min_dtype a false = Some t ->
     (exists x, In x a /\ (x < 0)%Z) -> (forall x, In x a -> fits_signed b x) ->
     (t <> OBJ -> dt_signed t = true) /\ (dt_bits t <= b)%Z) /\
    (min_dtype a false = Some t -> (forall x, In x a -> fits_unsigned b x) ->
     dt_signed t = false /\ (dt_bits t <= b)%Z).
Proof.
  intros a t b Hb. split; [|split].
  - intros H Hf. split.
    + intro Ho. apply (min_dtype_sign a true t H Ho). auto.
    + eapply min_dtype_minimal_signed; eauto.
  - intros H Hx Hf. split.
    + intro Ho. apply (min_dtype_sign a false t H Ho). auto.
    + eapply min_dtype_minimal_neg; eauto.
  - intros H Hf. split.
    + destruct (dt_signed t) eqn:E; auto.
      assert (t <> OBJ) as Ho by (intros ->; discriminate).
      apply (min_dtype_sign a false t H Ho) in E. destruct E as [E|[x [Hx Hn]]]; [discriminate|].
      specialize (Hf x Hx). unfold fits_unsigned in Hf. lia.
    + eapply min_dtype_minimal_nonneg; eauto.
Qed.

Example C02_example :
  min_dtype [0; 300; 12]%Z false = Some U16 /\ min_dtype [-100; 100]%Z true = Some I8 /\
  min_dtype [-128]%Z true = Some I16 /\ min_dtype [-1; 40000]%Z false = Some I32.
Proof. repeat split; reflexivity. Qed.

(** ** C03: chain *)

Theorem C03_chain_links :
  forall (A : Type) (items : list A),
  exists pairs, chain items false = Some pairs /\
    length pairs = length items - 1 /\
    forall i a b, nth_error pairs i = Some (a, b) <->
                  nth_error items i = Some a /\ nth_error items (S i) = Some b.
Proof.
  intros A items. exists (chain_base items). split; [apply chain_false|].
  split; [apply chain_base_length|]. intros i a b. rewrite nth_error_chain_base. reflexivity.
Qed.

Theorem C03_chain_cycle :
  forall (A : Type) (items : list A),
    (chain items true = None <-> items = []) /\
    forall x rest pairs, items = x :: rest -> chain items false = Some pairs ->
      chain items true = Some (pairs ++ [(last items x, x)]).
Proof.
  intros A items. split.
  - destruct items as [|x l]; [split; reflexivity|].
    rewrite chain_true_cons. split; discriminate.
  - intros x rest pairs -> H. rewrite chain_false in H. injection H as <-.
    apply chain_true_cons.
Qed.

Example C03_example :
  chain [1; 2; 3] false = Some [(1, 2); (2, 3)] /\
  chain [1; 2; 3] true = Some [(1, 2); (2, 3); (3, 1)] /\
  chain [7] true = Some [(7, 7)].
Proof. repeat split. Qed.

(** ** C04: frmt_num *)

(** [value] is the number printed before the prefix for power [k]. *)
Theorem C04_frmt_num :
  forall (num div : Q) (dec : nat) digits prefix,
    (1 < div)%Q -> frmt_num num dec div = (digits, prefix) ->
    exists (k : nat) (value : Q),
      k <= 8 /\ prefix = nth k prefix_of_power ""%string /\
      (value * Qpower div (Z.of_nat k) == num)%Q /\
      nearest (value * inject_Z (10 ^ Z.of_nat dec)) digits /\
      (k < 8 -> (Qabs value < div)%Q) /\
      (forall j, j < k -> (div <= Qabs (num / Qpower div (Z.of_nat j)))%Q).
Proof.
  intros num div dec digits prefix Hd H. unfold frmt_num in H.
  destruct (frmt_num_loop_spec frmt_prefixes num div) as [k [v [H1 [H2 [H3 [H4 H5]]]]]].
  { apply Qlt_trans with 1%Q; [reflexivity|assumption]. }
  rewrite H1 in H. injection H as <- <-. exists k, v. repeat split; auto.
  apply Qrint_near.
Qed.

(** frmt_bytes is the instance with div = 1024. *)
Theorem C04_frmt_bytes :
  forall (num : Q) (dec : nat) digits prefix,
    frmt_bytes num dec = (digits, prefix) ->
    exists (k : nat) (value : Q),
      k <= 8 /\ prefix = nth k prefix_of_power ""%string /\
      (value * Qpower (1024#1) (Z.of_nat k) == num)%Q /\
      nearest (value * inject_Z (10 ^ Z.of_nat dec)) digits /\
      (k < 8 -> (Qabs value < 1024#1)%Q) /\
      (forall j, j < k -> (1024#1 <= Qabs (num / Qpower (1024#1) (Z.of_nat j)))%Q).
Proof. intros num dec digits prefix. apply C04_frmt_num. reflexivity. Qed.

Example C04_example :
  frmt_num (1234567#1) 2 (1000#1) = (123%Z, "M"%string) /\
  frmt_bytes (123456#1) 1 = (1206%Z, "k"%string) /\
  frmt_num (999#1) 1 (1000#1) = (9990%Z, ""%string).
Proof. repeat split; vm_compute; reflexivity. Qed.

(** ** C05: error display *)

Theorem C05_error_display :
  forall e,
    match e with
    | NotAnalyzedError | NoConnectionsError | NotBuiltError =>
      exists msg hint, err_msg e = Some msg /\ err_hint e = Some hint /\
        err_str e = Some (msg ++ " (" ++ hint ++ ")")%string
    | SiteOccupiedError _ _ | NoAtomsError =>
      err_msg e <> None /\ err_hint e = None /\ err_str e = None
    end.
Proof.
  intros []; simpl; repeat split; try discriminate; eexists _, _; repeat split.
Qed.

Example C05_example :
  err_str NotBuiltError = Some
   "lattice has not been built (use the 'build' method to construct a finite size lattice model)"%string
  /\ err_str (SiteOccupiedError "A" "[0.]") = None.
Proof. split; reflexivity. Qed.

(** ** C64: frmt_time *)

(** Long format: the unit is chosen by magnitude and the fields are the parts of the duration,
    each rounded to the printed precision. *)
Theorem C64_frmt_time_long :
  forall s, (0 <= s)%Q ->
    match frmt_time s false with
    | TMicro us => (s < 1#1000)%Q /\ nearest ((1000000#1) * s) us
    | TMilli t => (1#1000 <= s < 1)%Q /\ nearest ((10000#1) * s) t
    | TSec t => (1 <= s < 60#1)%Q /\ nearest ((10#1) * s) t
    | TFullMin m t => (60#1 <= s < 3600#1)%Q /\ (1 <= m < 60)%Z /\
        nearest ((10#1) * (s - inject_Z (60 * m))) t /\ (0 <= s - inject_Z (60 * m) < 60#1)%Q
    | TFullHour h m sec => (3600#1 <= s)%Q /\ (1 <= h)%Z /\ (0 <= m < 60)%Z /\
        nearest (s - inject_Z (60 * (60 * h + m))) sec /\
        (0 <= s - inject_Z (60 * (60 * h + m)) < 60#1)%Q
    | _ => False
    end.
Proof.
  intros s Hs. unfold frmt_time.
  destruct (Qle_bool (1 # 1000) s) eqn:E1; simpl negb; cbv iota.
  2:{ assert (~ (1#1000 <= s)%Q) by (rewrite <- Qle_bool_iff; congruence).
      split; [lra|]. apply Qrint_near. }
  apply Qle_bool_iff in E1.
  destruct (Qle_bool 1 s) eqn:E2; simpl negb; cbv iota.
  2:{ assert (~ (1 <= s)%Q) by (rewrite <- Qle_bool_iff; congruence).
      split; [split; lra|]. unfold nearest.
      setoid_replace ((10000 # 1) * s)%Q with ((10#1) * ((1000 # 1) * s))%Q by ring.
      apply Qrint_near. }
  apply Qle_bool_iff in E2.
  destruct (Qle_bool (60#1) s) eqn:E3; simpl negb; cbv iota.
  2:{ assert (~ (60#1 <= s)%Q) by (rewrite <- Qle_bool_iff; congruence).
      split; [split; lra|]. apply Qrint_near. }
  apply Qle_bool_iff in E3.
  destruct (divmod60 s) as [m r] eqn:Ed. apply divmod60_spec in Ed.
  destruct Ed as [Ed [Hr1 Hr2]].
  assert (s - inject_Z (60 * m) == r)%Q as Hsub.
  { rewrite inject_Z_mult. change (inject_Z 60) with (60#1). lra. }
  assert (1 <= m)%Z as Hm.
  { assert (0 < m)%Z; [|lia]. rewrite Zlt_Qlt. change (inject_Z 0) with 0%Q. lra. }
  destruct (Z.ltb_spec m 60) as [Hlt|Hge].
  - assert (inject_Z m <= 59#1)%Q.
    { change (59#1) with (inject_Z 59). rewrite <- Zle_Qle. lia. }
    repeat split; try lia; try lra.
    unfold nearest. rewrite Hsub. apply Qrint_near.
  - assert (60#1 <= inject_Z m)%Q.
    { change (60#1) with (inject_Z 60). rewrite <- Zle_Qle. lia. }
    destruct (divmod60 (inject_Z m)) as [h mm] eqn:Eh. apply divmod60_int in Eh.
    destruct Eh as [Hh Hmm].
    assert (60 * h + Qrint mm = m)%Z as Htot.
    { rewrite Hmm, Hh. pose proof (Z.div_mod m 60). lia. }
    rewrite Htot. repeat split; try lra.
    + pose proof (Z.div_le_lower_bound m 60 1). lia.
    + rewrite Hmm. apply Z.mod_pos_bound. lia.
    + rewrite Hmm. apply Z.mod_pos_bound. lia.
    + unfold nearest. rewrite Hsub. apply Qrint_near.
Qed.

(** Short format: hours and minutes above 60 minutes, minutes and seconds up to and including
    exactly 60 minutes. *)
Theorem C64_frmt_time_short :
  forall s,
    match frmt_time s true with
    | TZero => (s <= 0)%Q
    | TMinSec m sec => (0 < s < 3660#1)%Q /\ (0 <= m <= 60)%Z /\
        nearest (s - inject_Z (60 * m)) sec /\ (0 <= s - inject_Z (60 * m) < 60#1)%Q
    | THourMin h m => (3660#1 <= s)%Q /\ (1 <= h)%Z /\ (0 <= m < 60)%Z /\
        (0 <= s - inject_Z (60 * (60 * h + m)) < 60#1)%Q
    | _ => False
    end.
Proof.
  intro s. unfold frmt_time.
  destruct (Qle_bool s 0) eqn:E1; simpl negb; cbv iota.
  { apply Qle_bool_iff. assumption. }
  assert (~ (s <= 0)%Q) as Hs by (rewrite <- Qle_bool_iff; congruence).
  destruct (divmod60 s) as [m r] eqn:Ed. apply divmod60_spec in Ed.
  destruct Ed as [Ed [Hr1 Hr2]].
  assert (s - inject_Z (60 * m) == r)%Q as Hsub.
  { rewrite inject_Z_mult. change (inject_Z 60) with (60#1). lra. }
  assert (0 <= m)%Z as Hm.
  { assert (-1 < m)%Z; [|lia]. rewrite Zlt_Qlt. change (inject_Z (-1)) with (-(1))%Q. lra. }
  destruct (Z.ltb_spec 60 m) as [Hlt|Hge].
  - assert (61#1 <= inject_Z m)%Q.
    { change (61#1) with (inject_Z 61). rewrite <- Zle_Qle. lia. }
    destruct (divmod60 (inject_Z m)) as [h mm] eqn:Eh. apply divmod60_int in Eh.
    destruct Eh as [Hh Hmm].
    assert (60 * h + Qrint mm = m)%Z as Htot.
    { rewrite Hmm, Hh. pose proof (Z.div_mod m 60). lia. }
    rewrite Htot. repeat split; try lra.
    + pose proof (Z.div_le_lower_bound m 60 1). lia.
    + rewrite Hmm. apply Z.mod_pos_bound. lia.
    + rewrite Hmm. apply Z.mod_pos_bound. lia.
  - assert (inject_Z m <= 60#1)%Q.
    { change (60#1) with (inject_Z 60). rewrite <- Zle_Qle. lia. }
    repeat split; try lia; try lra.
    unfold nearest. rewrite Hsub. apply Qrint_near.
Qed.

(** One hour shows as 60:00 and 59.6 seconds as 00:60; 119.97 s in the long format as 1:60.0min. *)
Theorem C64_sixty_refuted :
  frmt_time (3600#1) true = TMinSec 60 0 /\ frmt_time (596#10) true = TMinSec 0 60 /\
  frmt_time (11997#100) false = TFullMin 1 600.
Proof. repeat split. Qed.

Example C64_example :
  frmt_time (7384#1) true = THourMin 2 3 /\ frmt_time (7384#1) false = TFullHour 2 3 4 /\
  frmt_time (15#10000) false = TMilli 15 /\ frmt_time (90#1) true = TMinSec 1 30.
Proof. repeat split. Qed.

Print Assumptions C01_lookup_decodes.
Print Assumptions C01_lookup_overflow_refuted.
Print Assumptions C01_lookup_decodes_table.
Print Assumptions C02_min_dtype_holds.
Print Assumptions C02_min_dtype_minimal.
Print Assumptions C03_chain_links.
Print Assumptions C03_chain_cycle.
Print Assumptions C04_frmt_num.
Print Assumptions C05_error_display.
Print Assumptions C64_frmt_time_long.
Print Assumptions C64_frmt_time_short.
