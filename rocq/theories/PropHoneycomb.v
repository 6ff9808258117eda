(** * Property C107 (lattpy/__init__.py: neighbours in simple_hexagonal, honeycomb and graphene) *)
From Coq Require Import String List ZArith QArith Qabs Bool Arith Lia Lqa Permutation Sorting.Sorted.
From Verif Require Import Np NpFacts LinAlg LinFacts SpecUtils UtilsModel UtilsProofs SpecBasis AtomModel BasisModel BasisProofs
  NeighborCellProofs PropBasis SpecSpatial KDProofs SpecStructure StructureModel KDBrute RoundFacts StructureFacts
  AnalyzeProofs StructureProofs PropStructure PropAnalyze SpecShell ShellProofs PropReciprocal PresetModel PropPreset
  SpecGrid GridProofs PropPrimitive PropGrid FilterProofs PropOrder PropShell HoneycombModel.
Import ListNotations.
Open Scope nat_scope.
Open Scope list_scope.

(** ** Two almost equal nearest distances *)

(** If all distances but [q1] and [q2] are clearly larger, the nearest ones are those at the smaller of the rounded distances. *)
Lemma near_shell d V R a c q1 q2 z1 z2 :
  let D n := sqdist (nth a R []) (lattice_point d V (nth c R []) n) in
  ((1#10000000000) < q1)%Q -> ((1#10000000000) < q2)%Q -> (exists n, length n = d /\ (D n == q1)%Q) -> (exists n, length n = d /\ (D n == q2)%Q) ->
  (forall n, length n = d -> (D n == 0 \/ D n == q1 \/ D n == q2 \/ (5#4) * q1 <= D n /\ (5#4) * q2 <= D n)%Q) ->
  rounds_to_micro q1 z1 -> rounds_to_micro q2 z2 ->
  forall n z, (away d V R a c n z /\ exists i, i < 1 /\ ranked (distance_between d V R a c) i z) <->
    length n = d /\ z = Z.min z1 z2 /\ ((D n == q1)%Q /\ z = z1 \/ (D n == q2)%Q /\ z = z2).
Proof.
  intros D H1 H2 [n1 [Hn1 En1]] [n2 [Hn2 En2]] Hall Hz1 Hz2 n z.
  pose proof (rounds_ten _ _ H1 Hz1) as T1. pose proof (rounds_ten _ _ H2 Hz2) as T2.
  assert (distance_between d V R a c z1) as A1 by (split; [lia|]; exists n1; split; auto; eapply rounds_ext; [symmetry; exact En1|exact Hz1]).
  assert (distance_between d V R a c z2) as A2 by (split; [lia|]; exists n2; split; auto; eapply rounds_ext; [symmetry; exact En2|exact Hz2]).
  assert (forall n z, away d V R a c n z -> z = 0%Z \/ (D n == q1)%Q /\ z = z1 \/ (D n == q2)%Q /\ z = z2 \/ (z1 < z /\ z2 < z)%Z) as Hcase.
  { intros m y [Hm Hy]. fold (D m) in Hy. destruct (Hall m Hm) as [E|[E|[E|[E E']]]].
    - left. eapply rounds_zero; eauto.
    - right. left. split; auto. eapply rounds_unique; eauto.
    - right. right. left. split; auto. eapply rounds_unique; eauto.
    - right. right. right. split; [eapply (rounds_gap q1)|eapply (rounds_gap q2)]; eauto. }
  split.
  - intros [Haw [i [Hi [[Hne _] [L [_ [HL HLi]]]]]]]. assert (i = 0) as -> by lia. destruct L; [|discriminate].
    assert (forall y, distance_between d V R a c y -> (z <= y)%Z) as Hmin.
    { intros y Hy. apply Znot_gt_le. intro G. apply (proj2 (HL y)). split; [auto|lia]. }
    pose proof (Hmin _ A1). pose proof (Hmin _ A2). split; [apply Haw|]. destruct (Hcase n z Haw) as [C|[[C ->]|[[C ->]|C]]]; [contradiction|split; [lia|auto]|split; [lia|auto]|lia].
  - intros [Hn [Emin Hc]]. assert (away d V R a c n z) as Haw.
    { split; auto. destruct Hc as [[C ->]|[C ->]]; (eapply rounds_ext; [symmetry; exact C|auto]). }
    split; auto. exists 0. split; auto. split; [split; [lia|eauto]|]. exists []. split; [constructor|]. split; auto. intro y. split; [intros []|].
    intros [[Hy [m Hm]] Hlt]. destruct (Hcase m y Hm) as [C|[[_ ->]|[[_ ->]|C]]]; [contradiction| | |]; lia.
Qed.

(** The cells at the smaller one of two distances; all of them if the distances agree. *)
Definition closer_cells (z1 z2 : Z) (cells1 cells2 : list (list Z)) : list (list Z) :=
  match (z1 ?= z2)%Z with Lt => cells1 | Eq => cells1 ++ cells2 | Gt => cells2 end.

Lemma closer_spec z1 z2 A B n : In n (closer_cells z1 z2 A B) <-> (z1 <= z2)%Z /\ In n A \/ (z2 <= z1)%Z /\ In n B.
Proof.
  unfold closer_cells. destruct (Z.compare_spec z1 z2) as [H|H|H]; [rewrite in_app_iff| |]; split; intros; try (intuition lia).
Qed.

(** ** The hexagonal lattice *)

Section Hexagonal.
  Variables (inv : mat -> mat) (s a : Q).
  Hypothesis Ha : ((1#1000) < a)%Q.
  Hypothesis Hs : ((299#100) <= s * s <= (301#100))%Q.
  Let V := b_mat (hexagonal inv s a).
  Let q1 := (a * a * ((9 + s * s) * (1#4)))%Q.
  Let q2 := (a * a * (s * s))%Q.

  Lemma aa_pos : ((1#1000000) < a * a)%Q.
  Proof. nra. Qed.

  Lemma hexagonal_valid : inverts inv 2 -> valid_basis (hexagonal inv s a).
  Proof.
    intro I2. assert (~ (a == 0)%Q) by lra. assert (~ (s == 0)%Q) by (intro E; rewrite E in Hs; lra).
    apply I2. exists [[/ (3 * a); / (a * s)]; [/ (3 * a); - / (a * s)]]%Q. matrix_check; field; auto.
  Qed.

  (** In units of a^2/4: [9 (x + y)^2 + s^2 (x - y)^2]. *)
  Lemma hex_sq x y : (cell_sq 2 V [x; y] == a * a * ((9 * inject_Z ((x + y) * (x + y)) + s * s * inject_Z ((x - y) * (x - y))) * (1#4)))%Q.
  Proof.
    unfold cell_sq, entry, V. cbn -[Qmult Qplus inject_Z Qdiv Qminus Qopp Z.mul Z.add Z.sub]. unfold Z.sub. rewrite !inject_Z_mult, !inject_Z_plus, !inject_Z_opp. field.
  Qed.

  Definition side_cells : list (list Z) := [[1; 0]; [-1; 0]; [0; 1]; [0; -1]]%Z.
  Definition across_cells : list (list Z) := [[1; -1]; [-1; 1]]%Z.

  (** Sum and difference of the coordinates. *)
  Lemma hex_cases x y : let u := (x + y)%Z in let v := (x - y)%Z in
    [x; y] = [0; 0]%Z \/ In [x; y] side_cells /\ (u * u = 1 /\ v * v = 1)%Z \/ In [x; y] across_cells /\ (u * u = 0 /\ v * v = 4)%Z \/
    (4 <= u * u \/ 1 <= u * u /\ 9 <= v * v \/ 16 <= v * v)%Z.
  Proof.
    intros u v.
    destruct (Z_le_dec 4 (u * u)) as [|Hu]; [right; right; right; auto|]. destruct (Z_le_dec 16 (v * v)) as [|Hv]; [right; right; right; auto|].
    assert (-1 <= u <= 1)%Z by nia. assert (-3 <= v <= 3)%Z by nia. assert (x + y = u)%Z as Eu by reflexivity. assert (x - y = v)%Z as Ev by reflexivity.
    clearbody u v. assert (u = -1 \/ u = 0 \/ u = 1)%Z as Cu by lia. assert (v = -3 \/ v = -2 \/ v = -1 \/ v = 0 \/ v = 1 \/ v = 2 \/ v = 3)%Z as Cv by lia.
    destruct Cu as [->|[->| ->]], Cv as [->|[->|[->|[->|[->|[->| ->]]]]]]; try (exfalso; lia); try (right; right; right; lia).
    - right. left. replace x with (-1)%Z by lia. replace y with 0%Z by lia. split; [cbn; tauto|split; reflexivity].
    - right. left. replace x with 0%Z by lia. replace y with (-1)%Z by lia. split; [cbn; tauto|split; reflexivity].
    - right. right. left. replace x with (-1)%Z by lia. replace y with 1%Z by lia. split; [cbn; tauto|split; reflexivity].
    - left. replace x with 0%Z by lia. replace y with 0%Z by lia. reflexivity.
    - right. right. left. replace x with 1%Z by lia. replace y with (-1)%Z by lia. split; [cbn; tauto|split; reflexivity].
    - right. left. replace x with 0%Z by lia. replace y with 1%Z by lia. split; [cbn; tauto|split; reflexivity].
    - right. left. replace x with 1%Z by lia. replace y with 0%Z by lia. split; [cbn; tauto|split; reflexivity].
  Qed.

  Lemma hex_lengths n : length n = 2 ->
    (n = [0; 0]%Z /\ cell_sq 2 V n == 0 \/ In n side_cells /\ cell_sq 2 V n == q1 \/ In n across_cells /\ cell_sq 2 V n == q2 \/
     ~ In n side_cells /\ ~ In n across_cells /\ 8 * (a * a) <= cell_sq 2 V n)%Q.
  Proof.
    intro Hn. destruct n as [|x [|y [|]]]; try discriminate Hn. pose proof aa_pos as A. rewrite hex_sq.
    assert (forall z w, (z <= w)%Z -> (inject_Z z <= inject_Z w)%Q) as Hle by (intros z w; rewrite <- Zle_Qle; auto).
    destruct (hex_cases x y) as [E|[[E [E1 E2]]|[[E [E1 E2]]|E]]].
    - left. split; auto. injection E as -> ->. cbn. ring.
    - right. left. split; auto. rewrite E1, E2. unfold q1. change (inject_Z 1) with 1%Q. ring.
    - right. right. left. split; auto. rewrite E1, E2. unfold q2. change (inject_Z 0) with 0%Q. change (inject_Z 4) with 4%Q. field.
    - right. right. right. split; [|split].
      + intro I. cbn in I. destruct I as [I|[I|[I|[I|[]]]]]; injection I as <- <-; cbn in E; lia.
      + intro I. cbn in I. destruct I as [I|[I|[]]]; injection I as <- <-; cbn in E; lia.
      + set (U := ((x + y) * (x + y))%Z) in *. set (W := ((x - y) * (x - y))%Z) in *.
        assert (0 <= inject_Z U)%Q as U0 by (change 0%Q with (inject_Z 0); apply Hle; unfold U; apply Z.square_nonneg).
        assert (0 <= inject_Z W)%Q as W0 by (change 0%Q with (inject_Z 0); apply Hle; unfold W; apply Z.square_nonneg).
        assert (8 <= (9 * inject_Z U + s * s * inject_Z W) * (1#4))%Q as B; [|nra].
        destruct E as [E|[[E E']|E]]; apply Hle in E.
        * change (inject_Z 4) with 4%Q in E. assert (0 <= s * s * inject_Z W)%Q by nra. lra.
        * apply Hle in E'. change (inject_Z 1) with 1%Q in E. change (inject_Z 9) with 9%Q in E'. assert ((299#100) * 9 <= s * s * inject_Z W)%Q by nra. lra.
        * change (inject_Z 16) with 16%Q in E. assert ((299#100) * 16 <= s * s * inject_Z W)%Q by nra. lra.
  Qed.

  (** The cells around a site are examined. *)
  Lemma hex_reach n : n = [0; 0]%Z \/ In n side_cells \/ In n across_cells -> in_reach 2 V 1 n.
  Proof.
    intro Hin. pose proof aa_pos as A. assert (length n = 2) as Hn by (destruct Hin as [->|[H|H]]; [reflexivity| |]; cbn in H; intuition (subst; reflexivity)).
    assert (cell_sq 2 V n < 8 * (a * a))%Q as Hlt.
    { assert (forall x y U W, (x + y) * (x + y) = U -> (x - y) * (x - y) = W -> (U = 0 /\ W = 0 \/ U = 1 /\ W = 1 \/ U = 0 /\ W = 4) -> (cell_sq 2 V [x; y] < 8 * (a * a))%Q)%Z as B.
      { intros x y U W E1 E2 C. rewrite hex_sq, E1, E2. assert (a * a * (s * s) <= (301#100) * (a * a))%Q by nra.
        destruct C as [[-> ->]|[[-> ->]|[-> ->]]]; change (inject_Z 0) with 0%Q; change (inject_Z 1) with 1%Q; change (inject_Z 4) with 4%Q; lra. }
      destruct Hin as [->|[H|H]]; [|destruct H as [<-|[<-|[<-|[<-|[]]]]]|destruct H as [<-|[<-|[]]]]; (eapply B; [reflexivity|reflexivity|cbn; lia]). }
    apply few_in_reach.
    - split; auto. intros k Hk. destruct Hin as [->|[H|H]]; cbn in *; intuition (subst; cbn in *; intuition lia).
    - intros l Hl Hsmall. destruct (lengths_exist 2 V) as [lengths Hlen]. exists lengths. split; auto.
      assert (1 <= length lengths) as H1.
      { destruct Hlen as [_ Hlen]. destruct (proj1 (Hlen (column_sq 2 V 0))) as [x [Hx _]]; [exists 0; split; [lia|reflexivity]|].
        destruct lengths; [destruct Hx|cbn; lia]. }
      assert (length l <= length [0; q1; q2]%Q) as H.
      { apply spread_le; auto. intros x Hx. destruct (Hsmall x Hx) as [n' [[Hn' _] [E Hlt']]]. rewrite <- E in Hlt'.
        destruct (hex_lengths n' Hn') as [[_ E']|[[_ E']|[[_ E']|[_ [_ E']]]]]; [exists 0%Q|exists q1|exists q2|lra]; (split; [cbn; auto|rewrite <- E, E'; reflexivity]). }
      cbn [length] in H. lia.
  Qed.

  (** ** Honeycomb *)

  Let R := [[0; 0]; [a; 0]]%Q.
  Let conns := [[0; 1]; [1; 0]].
  Let p1 := (a * a)%Q.
  Let p2 := (a * a * ((1 + s * s) * (1#4)))%Q.
  Definition sign (x : nat) : Z := match x with 0 => 1%Z | _ => (-1)%Z end.

  (** The cells of the atom of the other kind, as seen from an atom of kind [x]. *)
  Definition straight_cells : list (list Z) := [[0; 0]]%Z.
  Definition bent_cells (x : nat) : list (list Z) := match x with 0 => [[-1; 0]; [0; -1]]%Z | _ => [[1; 0]; [0; 1]]%Z end.

  Lemma honey_sq x m n : x < 2 -> (sqdist (nth x R []) (lattice_point 2 V (nth (1 - x) R []) [m; n]) ==
    a * a * ((inject_Z ((3 * (m + n) + 2 * sign x) * (3 * (m + n) + 2 * sign x)) + s * s * inject_Z ((m - n) * (m - n))) * (1#4)))%Q.
  Proof.
    intro Hx. destruct x as [|[|x]]; [| |lia]; unfold sqdist, lattice_point, entry, R, V, sign; cbn -[Qmult Qplus Qminus Qopp inject_Z Qdiv Z.mul Z.add Z.sub];
      unfold Z.sub; rewrite !inject_Z_mult, !inject_Z_plus, !inject_Z_mult, !inject_Z_plus, !inject_Z_opp; change (inject_Z 3) with 3%Q; change (inject_Z 2) with 2%Q;
      change (inject_Z 1) with 1%Q; change (inject_Z (-1)) with (-(1))%Q; field.
  Qed.

  Lemma honey_cases x m n : x < 2 -> let u := (3 * (m + n) + 2 * sign x)%Z in let v := (m - n)%Z in
    In [m; n] straight_cells /\ (u * u = 4 /\ v * v = 0)%Z \/ In [m; n] (bent_cells x) /\ (u * u = 1 /\ v * v = 1)%Z \/
    ~ In [m; n] straight_cells /\ ~ In [m; n] (bent_cells x) /\ (16 <= u * u \/ 4 <= v * v)%Z.
  Proof.
    intros Hx u v.
    assert (((m = 0 /\ n = 0) \/ sign x = 1 /\ (m = -1 /\ n = 0 \/ m = 0 /\ n = -1) \/ sign x = -1 /\ (m = 1 /\ n = 0 \/ m = 0 /\ n = 1) \/ 4 <= Z.abs u \/ 2 <= Z.abs v))%Z as C
      by (unfold u, v; destruct x; cbn [sign]; lia).
    destruct C as [[-> ->]|[[S [[-> ->]|[-> ->]]]|[[S [[-> ->]|[-> ->]]]|C]]].
    - left. split; [cbn; auto|]. unfold u, v. destruct x; split; reflexivity.
    - right. left. destruct x; [|discriminate S]. split; [cbn; auto|split; reflexivity].
    - right. left. destruct x; [|discriminate S]. split; [cbn; auto|split; reflexivity].
    - right. left. destruct x; [discriminate S|]. split; [cbn; auto|split; reflexivity].
    - right. left. destruct x; [discriminate S|]. split; [cbn; auto|split; reflexivity].
    - right. right. split; [|split].
      + intros [E|[]]. injection E as <- <-. unfold u, v in C. destruct x; cbn in C; lia.
      + intro I. unfold u, v in C. destruct x; cbn [bent_cells] in I; destruct I as [E|[E|[]]]; injection E as <- <-; cbn in C; lia.
      + destruct C; [left|right]; nia.
  Qed.

  Lemma honey_lengths x n : x < 2 -> length n = 2 -> let D := sqdist (nth x R []) (lattice_point 2 V (nth (1 - x) R []) n) in
    (In n straight_cells /\ D == p1 \/ In n (bent_cells x) /\ D == p2 \/ ~ In n straight_cells /\ ~ In n (bent_cells x) /\ (5#2) * (a * a) <= D)%Q.
  Proof.
    intros Hx Hn D. destruct n as [|m [|n [|]]]; try discriminate Hn. pose proof aa_pos as A. unfold D. rewrite honey_sq by auto.
    assert (forall z w, (z <= w)%Z -> (inject_Z z <= inject_Z w)%Q) as Hle by (intros z w; rewrite <- Zle_Qle; auto).
    destruct (honey_cases x m n Hx) as [[I [-> ->]]|[[I [-> ->]]|[N1 [N2 C]]]].
    - left. split; auto. unfold p1. change (inject_Z 4) with 4%Q. change (inject_Z 0) with 0%Q. field.
    - right. left. split; auto. unfold p2. change (inject_Z 1) with 1%Q. ring.
    - right. right. split; auto. split; auto.
      set (U := ((3 * (m + n) + 2 * sign x) * (3 * (m + n) + 2 * sign x))%Z) in *. set (W := ((m - n) * (m - n))%Z) in *.
      assert (0 <= inject_Z U)%Q as U0 by (change 0%Q with (inject_Z 0); apply Hle; unfold U; apply Z.square_nonneg).
      assert (0 <= inject_Z W)%Q as W0 by (change 0%Q with (inject_Z 0); apply Hle; unfold W; apply Z.square_nonneg).
      assert ((5#2) <= (inject_Z U + s * s * inject_Z W) * (1#4))%Q as B; [|nra].
      destruct C as [C|C]; apply Hle in C.
      + change (inject_Z 16) with 16%Q in C. assert (0 <= s * s * inject_Z W)%Q by nra. lra.
      + change (inject_Z 4) with 4%Q in C. assert ((299#100) * 4 <= s * s * inject_Z W)%Q by nra. lra.
  Qed.

  Lemma hex_first z1 z2 n z : rounds_to_micro q1 z1 -> rounds_to_micro q2 z2 ->
    true_neighbor 2 V [[0; 0]%Q] [[1]] 0 0 n z <-> z = Z.min z1 z2 /\ In n (closer_cells z1 z2 side_cells across_cells).
  Proof.
    intros H1 H2. pose proof aa_pos as A. unfold true_neighbor. cbn [nth].
    assert (forall n, (sqdist (nth 0 [[0; 0]%Q] []) (lattice_point 2 V (nth 0 [[0; 0]%Q] []) n) == cell_sq 2 V n)%Q) as Own by (intro m; apply own_distance; reflexivity).
    assert (forall m, In m side_cells -> length m = 2 /\ (cell_sq 2 V m == q1)%Q) as S1.
    { intros m Hm. assert (length m = 2) as Hl by (cbn in Hm; intuition (subst; reflexivity)). split; auto.
      destruct Hm as [<-|[<-|[<-|[<-|[]]]]]; rewrite hex_sq; unfold q1; cbn -[Qmult Qplus]; ring. }
    assert (forall m, In m across_cells -> length m = 2 /\ (cell_sq 2 V m == q2)%Q) as S2.
    { intros m Hm. assert (length m = 2) as Hl by (cbn in Hm; intuition (subst; reflexivity)). split; auto.
      destruct Hm as [<-|[<-|[]]]; rewrite hex_sq; unfold q2; cbn -[Qmult Qplus]; field. }
    assert (a * a * (s * s) <= (301#100) * (a * a))%Q as B1 by nra. assert ((299#100) * (a * a) <= a * a * (s * s))%Q as B2 by nra.
    rewrite (near_shell 2 V [[0; 0]%Q] 0 0 q1 q2 z1 z2); auto.
    - rewrite closer_spec. split.
      + intros [Hn [Ez C]]. split; auto. rewrite Own in C. destruct (hex_lengths n Hn) as [[_ E]|[[I E]|[[I E]|[_ [_ E]]]]].
        * exfalso. unfold q1, q2 in C. destruct C as [[C _]|[C _]]; rewrite E in C; lra.
        * destruct C as [[_ C]|[C C']]; [left; split; [lia|auto]|]. left. split; auto. assert (z1 = z2) by (eapply rounds_unique; [exact H1|exact H2|rewrite <- E; exact C]). lia.
        * destruct C as [[C C']|[_ C]]; [|right; split; [lia|auto]]. right. split; auto. assert (z1 = z2) by (eapply rounds_unique; [exact H1|exact H2|rewrite <- C; exact E]). lia.
        * exfalso. unfold q1, q2 in C. destruct C as [[C _]|[C _]]; rewrite C in E; lra.
      + intros [-> [[C I]|[C I]]]; [destruct (S1 n I) as [Hn E]|destruct (S2 n I) as [Hn E]]; (split; [auto|split; [auto|]]); rewrite Own; [left|right]; split; auto; lia.
    - unfold q1. lra.
    - unfold q2. lra.
    - exists [1; 0]%Z. split; auto. rewrite Own. apply (S1 [1; 0]%Z). cbn. auto.
    - exists [1; -1]%Z. split; auto. rewrite Own. apply (S2 [1; -1]%Z). cbn. auto.
    - intros m Hm. rewrite Own. destruct (hex_lengths m Hm) as [[_ E]|[[I E]|[[I E]|[_ [_ E]]]]]; auto. right. right. right. unfold q1, q2. lra.
  Qed.

  Lemma honey_first x z1 z2 n z : x < 2 -> rounds_to_micro p1 z1 -> rounds_to_micro p2 z2 ->
    true_neighbor 2 V R conns x (1 - x) n z <-> z = Z.min z1 z2 /\ In n (closer_cells z1 z2 straight_cells (bent_cells x)).
  Proof.
    intros Hx H1 H2. pose proof aa_pos as A. unfold true_neighbor.
    replace (nth (1 - x) (nth x conns []) 0) with 1 by (destruct x as [|[|x]]; [reflexivity|reflexivity|lia]).
    assert (a * a * (s * s) <= (301#100) * (a * a))%Q as B1 by nra. assert ((299#100) * (a * a) <= a * a * (s * s))%Q as B2 by nra.
    assert (forall m, In m straight_cells -> length m = 2) as L1 by (intros m Hm; cbn in Hm; intuition (subst; reflexivity)).
    assert (forall m, In m (bent_cells x) -> length m = 2) as L2 by (intros m Hm; destruct x; cbn in Hm; intuition (subst; reflexivity)).
    assert (exists m, In m (bent_cells x)) as [m2 Hm2] by (destruct x; eexists; left; reflexivity).
    assert (forall m, In m straight_cells -> ~ In m (bent_cells x)) as Hdis by (intros m [<-|[]] I; destruct x; cbn in I; destruct I as [I|[I|[]]]; discriminate I).
    rewrite (near_shell 2 V R x (1 - x) p1 p2 z1 z2); auto.
    - rewrite closer_spec. split.
      + intros [Hn [Ez C]]. split; auto. destruct (honey_lengths x n Hx Hn) as [[I E]|[[I E]|[_ [_ E]]]].
        * destruct C as [[_ C]|[C C']]; [left; split; [lia|auto]|]. left. split; auto. assert (z1 = z2) by (eapply rounds_unique; [exact H1|exact H2|rewrite <- E; exact C]). lia.
        * destruct C as [[C C']|[_ C]]; [|right; split; [lia|auto]]. right. split; auto. assert (z1 = z2) by (eapply rounds_unique; [exact H1|exact H2|rewrite <- C; exact E]). lia.
        * exfalso. unfold p1, p2 in C. destruct C as [[C _]|[C _]]; rewrite C in E; lra.
      + intros [-> [[C I]|[C I]]]; [pose proof (L1 n I) as Hn|pose proof (L2 n I) as Hn]; (split; [auto|split; [auto|]]);
          destruct (honey_lengths x n Hx Hn) as [[I' E]|[[I' E]|[N1 [N2 _]]]]; try contradiction; try (exfalso; eapply Hdis; eauto; fail); [left|right]; split; auto; lia.
    - unfold p1. lra.
    - unfold p2. lra.
    - exists [0; 0]%Z. split; auto. destruct (honey_lengths x [0; 0]%Z Hx eq_refl) as [[_ E]|[[I _]|[N _]]]; auto; exfalso; [apply (Hdis [0; 0]%Z); cbn; auto|apply N; cbn; auto].
    - exists m2. split; auto. destruct (honey_lengths x m2 Hx (L2 _ Hm2)) as [[I _]|[[_ E]|[_ [N _]]]]; auto; [exfalso; eapply Hdis; eauto|contradiction].
    - intros m Hm. right. destruct (honey_lengths x m Hx Hm) as [[_ E]|[[_ E]|[_ [_ E]]]]; auto. right. right. unfold p1, p2. lra.
  Qed.
End Hexagonal.

(** ** The ready-made lattices *)

(** [simple_hexagonal]: four sites at one distance, two at another one; with the square root of three both are [sqrt(3) a].
    The neighbours are all six if the two distances round to the same number, otherwise only the closer ones. *)
Theorem C107_hexagonal :
  forall query inv sqrt3 a at1 z1 z2, correct_tree query -> inverts inv 2 -> ((1#1000) < a)%Q -> ((299#100) <= sqrt3 * sqrt3 <= (301#100))%Q ->
    rounds_to_micro (a * a * ((9 + sqrt3 * sqrt3) * (1#4)))%Q z1 -> rounds_to_micro (a * a * (sqrt3 * sqrt3))%Q z2 ->
    exists s, simple_hexagonal query inv sqrt3 a at1 1 = Ok s /\
      forall N, length N = 2 ->
        (exists L, get_neighbors s N 0 0 = Ok L /\ around N (closer_cells z1 z2 side_cells across_cells) 0 L) /\
        forall i, 1 <= i -> get_neighbors s N 0 i = Raise IndexError.
Proof.
  intros query inv q a at1 z1 z2 Hq I2 Ha Hs H1 H2. pose proof (hexagonal_valid inv q a Ha Hs I2) as Hb.
  assert (b_dim (hexagonal inv q a) = 2) as Hd by reflexivity.
  destruct (preset_one query (hexagonal inv q a) at1 1 Hb ltac:(lia) ltac:(lia)) as [s [s' [E [Han [Hst [Eb [ER Ec]]]]]]].
  rewrite Hd in ER. cbn [repeat] in ER. exists s'. split; [exact E|]. intros N HN.
  pose proof (C105_true_neighbors query s s' [[1]] 1 Hq ltac:(rewrite Eb; auto) ltac:(rewrite Eb, Hd; lia) Hst Ec Han) as T.
  cbv zeta in T. rewrite Eb, Hd, ER in T.
  assert (forall n z, true_neighbor 2 (b_mat (hexagonal inv q a)) [[0; 0]%Q] [[1]] 0 0 n z <-> z = Z.min z1 z2 /\ In n (closer_cells z1 z2 side_cells across_cells)) as F
    by (intros; apply hex_first; auto).
  destruct T with (a := 0) as [Ds [Hsort [HDs Hget]]].
  - intros [|[|x]] [|[|c]]; cbn; lia.
  - exists 0, 0. reflexivity.
  - intros x c n z Hx Hc H. cbn [length] in Hx, Hc. assert (x = 0) as -> by lia. assert (c = 0) as -> by lia. apply F in H.
    apply hex_reach; auto. destruct H as [_ H]. apply closer_spec in H. tauto.
  - cbn. lia.
  - assert (exists n, In n (closer_cells z1 z2 side_cells across_cells)) as [n0 Hn0].
    { unfold closer_cells. destruct (z1 ?= z2)%Z; eexists; left; reflexivity. }
    assert (Ds = [Z.min z1 z2]) as ->.
    { apply sorted_unique; auto; [repeat constructor|]. intro z. rewrite HDs. split.
      - intros [c [n [Hc H]]]. cbn [length] in Hc. assert (c = 0) as -> by lia. apply F in H. left. symmetry. apply H.
      - intros [<-|[]]. exists 0, n0. split; [cbn; lia|]. apply F. auto. }
    split.
    + specialize (Hget N 0 HN). cbn in Hget. destruct Hget as [L [E1 [Hnd HL]]]. exists L. split; auto. apply around_intro; auto.
      * unfold closer_cells. destruct (z1 ?= z2)%Z; repeat (constructor; [cbn; intuition discriminate|]); constructor.
      * intros n Hn. rewrite HN. apply closer_spec in Hn. cbn in Hn. intuition (subst; reflexivity).
      * intro t. rewrite HL. split.
        -- intros [n [c [Hc [-> H]]]]. assert (c = 0) as -> by lia. apply F in H. exists n. split; auto. apply H.
        -- intros [n [Hn ->]]. exists n, 0. split; [lia|]. split; auto. apply F. auto.
    + intros i Hi. specialize (Hget N i HN). destruct i as [|i]; [lia|]. cbn in Hget. destruct i; exact Hget.
Qed.

(** The structure behind [honeycomb] and [graphene]. *)
Lemma two_sites_analysed query inv q a at1 at2 ref1 ref2 : inverts inv 2 -> ((1#1000) < a)%Q -> ((299#100) <= q * q <= (301#100))%Q ->
  (forall s, st_atoms s = [at1; at2] -> get_alpha s ref1 = Ok (One 0) /\ get_alpha s ref2 = Ok (One 1)) ->
  exists s s', two_sites_connected query inv q a at1 at2 ref1 ref2 = Ok s' /\ analyze query s = (s', Ok tt) /\ in_step s /\
    st_basis s = hexagonal inv q a /\ st_positions s = [[0; 0]; [a; 0]]%Q /\ st_connections s = Some [[0; 1]; [1; 0]] /\ st_atoms s' = [at1; at2].
Proof.
  intros I2 Ha Hs Href. pose proof (hexagonal_valid inv q a Ha Hs I2) as Hb. assert (b_dim (hexagonal inv q a) = 2) as Hd by reflexivity.
  assert (all_different []) as H0 by (intros [|i] j r r' _ H; discriminate).
  assert (all_different [[0; 0]; [a; 0]]%Q) as HD.
  { apply all_different_two. rewrite same_cons. intros [E _]. rewrite <- E in Ha. lra. }
  destruct (add_atoms_run query [(Some [0; 0]%Q, at1); (Some [a; 0]%Q, at2)] (new_structure (hexagonal inv q a)) eq_refl H0) as [Hok _];
    [intros r [<-|[<-|[]]]; reflexivity|].
  destruct (Hok HD) as [c [Eadd Hc]]. cbv zeta in Hc. specialize (Hc ltac:(discriminate)). cbn in Hc. subst c.
  set (s := mkStructure (hexagonal inv q a) [at1; at2] [[0; 0]; [a; 0]]%Q false (Some [[0; 1]; [1; 0]]) None).
  destruct (analyze_succeeds query s [[0; 1]; [1; 0]] Hb ltac:(cbn [s st_basis]; lia) ltac:(discriminate) eq_refl eq_refl) as [cells [raw [_ [_ Ean]]]].
  eexists s, _. split; [|split; [exact Ean|]].
  - unfold two_sites_connected. rewrite Eadd. unfold add_connection.
    destruct (Href (mkStructure (st_basis (new_structure (hexagonal inv q a))) ([] ++ [at1; at2]) ([] ++ [[0; 0]; [a; 0]]%Q) false (Some [[0; 0]; [0; 0]]) None) eq_refl) as [R1 R2].
    cbn [new_structure st_basis st_atoms st_positions st_analysis map snd fst app] in *. cbn [meant_position] in *.
    rewrite R1, R2. cbn -[analyze]. change (analyze query _) with (analyze query s). rewrite Ean. reflexivity.
  - split; [|repeat split; auto]. split; [reflexivity|]. split; [intros r [<-|[<-|[]]]; reflexivity|]. split; [exact HD|].
    split; [reflexivity|]. split; [intros row [<-|[<-|[]]]; reflexivity|]. intros [|[|[|x]]] [|[|[|y]]]; reflexivity.
Qed.

(** Every site has three neighbours of the other kind if the distances [a] and [a/2 sqrt(1 + 3)] round to the same number;
    otherwise only the closer ones, one or two. *)
Definition honeycomb_neighbors (s : structure) (z1 z2 : Z) : Prop :=
  forall N x, length N = 2 -> x < 2 ->
    (exists L, get_neighbors s N x 0 = Ok L /\ around N (closer_cells z1 z2 straight_cells (bent_cells x)) (1 - x) L) /\
    forall i, 1 <= i -> get_neighbors s N x i = Raise IndexError.

Lemma two_sites_neighbors query inv q a z1 z2 s s' : correct_tree query -> inverts inv 2 -> ((1#1000) < a)%Q -> ((299#100) <= q * q <= (301#100))%Q ->
  rounds_to_micro (a * a)%Q z1 -> rounds_to_micro (a * a * ((1 + q * q) * (1#4)))%Q z2 ->
  analyze query s = (s', Ok tt) -> in_step s -> st_basis s = hexagonal inv q a -> st_positions s = [[0; 0]; [a; 0]]%Q ->
  st_connections s = Some [[0; 1]; [1; 0]] -> honeycomb_neighbors s' z1 z2.
Proof.
  intros Hq I2 Ha Hs H1 H2 Han Hst Eb ER Ec N x HN Hx. pose proof (hexagonal_valid inv q a Ha Hs I2) as Hb.
  assert (b_dim (hexagonal inv q a) = 2) as Hd by reflexivity.
  pose proof (C105_true_neighbors query s s' _ 1 Hq ltac:(rewrite Eb; auto) ltac:(rewrite Eb, Hd; lia) Hst Ec Han) as T.
  cbv zeta in T. rewrite Eb, Hd, ER in T.
  assert (forall y c n z, y < 2 -> c < 2 -> true_neighbor 2 (b_mat (hexagonal inv q a)) [[0; 0]; [a; 0]]%Q [[0; 1]; [1; 0]] y c n z <->
            c = 1 - y /\ z = Z.min z1 z2 /\ In n (closer_cells z1 z2 straight_cells (bent_cells y))) as F.
  { intros y c n z Hy Hc. destruct (Nat.eq_dec c (1 - y)) as [->|Hne].
    - rewrite (honey_first inv q a Ha Hs y z1 z2 n z Hy H1 H2). tauto.
    - assert (c = y) as -> by lia. split; [|intros [C _]; lia]. intros [_ [i [Hi _]]]. exfalso. destruct y as [|[|y]]; cbn in Hi; lia. }
  destruct T with (a := x) as [Ds [Hsort [HDs Hget]]].
  - intros [|[|[|y]]] [|[|[|c]]]; cbn; lia.
  - exists 0, 1. reflexivity.
  - intros y c n z Hy Hc H. cbn [length] in Hy, Hc. apply F in H; auto. apply hex_reach; auto. destruct H as [_ [_ H]]. apply closer_spec in H.
    destruct H as [[_ [<-|[]]]|[_ H]]; [left; reflexivity|]. right. left. destruct y; cbn in H; destruct H as [<-|[<-|[]]]; cbn; auto.
  - exact Hx.
  - assert (exists n, In n (closer_cells z1 z2 straight_cells (bent_cells x))) as [n0 Hn0].
    { unfold closer_cells. destruct x, (z1 ?= z2)%Z; eexists; left; reflexivity. }
    assert (Ds = [Z.min z1 z2]) as ->.
    { apply sorted_unique; auto; [repeat constructor|]. intro z. rewrite HDs. split.
      - intros [c [n [Hc H]]]. apply F in H; auto. left. symmetry. apply H.
      - intros [<-|[]]. exists (1 - x), n0. split; [cbn [length]; lia|]. apply F; auto. lia. }
    split.
    + specialize (Hget N 0 HN). cbn in Hget. destruct Hget as [L [E1 [Hnd HL]]]. exists L. split; auto. apply around_intro; auto.
      * unfold closer_cells. destruct x, (z1 ?= z2)%Z; repeat (constructor; [cbn; intuition discriminate|]); constructor.
      * intros n Hn. rewrite HN. apply closer_spec in Hn. destruct x; cbn in Hn; intuition (subst; reflexivity).
      * intro t. rewrite HL. split.
        -- intros [n [c [Hc [-> H]]]]. apply F in H; auto. destruct H as [-> H]. exists n. split; auto. apply H.
        -- intros [n [Hn ->]]. exists n, (1 - x). split; [lia|]. split; auto. apply F; auto. lia.
    + intros i Hi. specialize (Hget N i HN). destruct i as [|i]; [lia|]. cbn in Hget. destruct i; exact Hget.
Qed.

Theorem C107_honeycomb :
  forall query inv sqrt3 a z1 z2, correct_tree query -> inverts inv 2 -> ((1#1000) < a)%Q -> ((299#100) <= sqrt3 * sqrt3 <= (301#100))%Q ->
    rounds_to_micro (a * a)%Q z1 -> rounds_to_micro (a * a * ((1 + sqrt3 * sqrt3) * (1#4)))%Q z2 ->
    (forall at1, exists s, honeycomb query inv sqrt3 a at1 = Ok s /\ st_atoms s = [at1; at1] /\ honeycomb_neighbors s z1 z2) /\
    (forall count, exists s, graphene query inv sqrt3 a count = Ok s /\ map a_name (st_atoms s) = ["C1"; "C2"]%string /\ honeycomb_neighbors s z1 z2).
Proof.
  intros query inv q a z1 z2 Hq I2 Ha Hs H1 H2. split.
  - intro at1. destruct (two_sites_analysed query inv q a at1 at1 (RIndex 0) (RIndex 1) I2 Ha Hs) as [s [s' [E [Han [Hst [Eb [ER [Ec Ea]]]]]]]]; [intros; split; reflexivity|].
    exists s'. split; auto. split; auto. eapply two_sites_neighbors; eauto.
  - intro count. destruct (two_sites_analysed query inv q a (atom_new count (Some "C1"%string) (VNum (1#5)) VNone (VNum 1) []) (atom_new (S count) (Some "C2"%string) (VNum (1#5)) VNone (VNum 1) [])
      (RAtom (atom_new count (Some "C1"%string) (VNum (1#5)) VNone (VNum 1) [])) (RAtom (atom_new (S count) (Some "C2"%string) (VNum (1#5)) VNone (VNum 1) [])) I2 Ha Hs)
      as [s [s' [E [Han [Hst [Eb [ER [Ec Ea]]]]]]]]; [intros s Es; unfold get_alpha; rewrite Es; split; reflexivity|].
    exists s'. split; auto. split; [rewrite Ea; reflexivity|]. eapply two_sites_neighbors; eauto.
Qed.

(** Lattice constants with at most six decimals, and a square root of three with an error below 1e-12: three neighbours. *)
Lemma six_decimals q a k : (1000 < k)%Z -> (a * 1000000 == inject_Z k)%Q -> (a <= 1000000)%Q -> (Qabs (q * q - 3) <= 1 # 1000000000000)%Q ->
  rounds_to_micro (a * a)%Q k /\ rounds_to_micro (a * a * ((1 + q * q) * (1#4)))%Q k.
Proof.
  intros Hk Ek Ha Hq. apply Qabs_Qle_condition in Hq. set (e := (q * q - 3)%Q) in *. set (x := inject_Z k) in *.
  assert (1000 < x)%Q as Hx by (change 1000%Q with (inject_Z 1000); unfold x; rewrite <- Zlt_Qlt; auto). assert (x <= 1000000000000)%Q as Hx' by lra.
  assert (a * a * (1000000000000 # 1) == x * x)%Q as E1 by (rewrite <- Ek; ring).
  assert (a * a * ((1 + q * q) * (1#4)) * (1000000000000 # 1) == x * x + x * x * (e * (1#4)))%Q as E2 by (rewrite <- Ek; unfold e; field).
  assert (- x <= x * x * e <= x)%Q as [B1 B2].
  { assert (x * x * (1 # 1000000000000) <= x)%Q as B by nra. assert (0 <= x * x)%Q as X0 by nra. split; nra. }
  split; unfold rounds_to_micro; cbv zeta; fold x; [rewrite E1|rewrite E2]; (split; [lia|]); (split; [nra|]); (split; [intros _; nra|]); (split; [intro C; exfalso; nra|intros _ C; exfalso; nra]).
Qed.

Corollary C107_three_neighbors :
  forall query inv sqrt3 a k, correct_tree query -> inverts inv 2 -> (1000 < k)%Z -> (a * 1000000 == inject_Z k)%Q -> (a <= 1000000)%Q ->
    (Qabs (sqrt3 * sqrt3 - 3) <= 1 # 1000000000000)%Q ->
    forall count, exists s, graphene query inv sqrt3 a count = Ok s /\
      forall N x, length N = 2 -> x < 2 ->
        exists L, get_neighbors s N x 0 = Ok L /\ around N ([0; 0]%Z :: bent_cells x) (1 - x) L /\ length L = 3.
Proof.
  intros query inv q a k Hq I2 Hk Ek Ha He count. destruct (six_decimals q a k Hk Ek Ha He) as [H1 H2].
  assert (1000 < inject_Z k)%Q as Hx by (change 1000%Q with (inject_Z 1000); rewrite <- Zlt_Qlt; auto).
  apply Qabs_Qle_condition in He.
  destruct (C107_honeycomb query inv q a k k Hq I2) as [_ H]; auto; [lra|lra|]. destruct (H count) as [s [E [_ Hn]]]. exists s. split; auto.
  intros N x HN Hx2. destruct (Hn N x HN Hx2) as [[L [EL HL]] _]. exists L. split; auto.
  unfold closer_cells in HL. rewrite Z.compare_refl in HL. split; [exact HL|].
  destruct HL as [_ [Hl _]]. rewrite Hl. destruct x as [|[|x]]; reflexivity.
Qed.

(** ** The double nearest to the square root of three *)
Definition sqrt3_double : Q := 3900231685776981 # 2251799813685248.

Example C107_hexagonal_example :
  correct_tree brute /\ inverts inverse_small 2 /\ ((1#1000) < 1)%Q /\ ((299#100) <= sqrt3_double * sqrt3_double <= (301#100))%Q /\
  rounds_to_micro (1 * 1 * ((9 + sqrt3_double * sqrt3_double) * (1#4)))%Q 1732051 /\ rounds_to_micro (1 * 1 * (sqrt3_double * sqrt3_double))%Q 1732051 /\
  exists s, simple_hexagonal brute inverse_small sqrt3_double 1 (ex_atom "A") 1 = Ok s /\
    get_neighbors s [2; 5]%Z 0 0 = Ok [[1; 6; 0]; [3; 4; 0]; [1; 5; 0]; [2; 4; 0]; [2; 6; 0]; [3; 5; 0]]%Z.
Proof.
  split; [exact brute_nearest|]. split; [exact inverse_small_2|]. split; [reflexivity|]. split; [split; apply Qle_bool_imp_le; reflexivity|].
  split; [unfold rounds_to_micro; cbv zeta; repeat split; intros; try (apply Qle_bool_imp_le; vm_compute; reflexivity); try lia; exfalso; match goal with H : _ == _ |- _ => apply Qeq_bool_iff in H; vm_compute in H; discriminate end|].
  split; [unfold rounds_to_micro; cbv zeta; repeat split; intros; try (apply Qle_bool_imp_le; vm_compute; reflexivity); try lia; exfalso; match goal with H : _ == _ |- _ => apply Qeq_bool_iff in H; vm_compute in H; discriminate end|].
  eexists. split; vm_compute; reflexivity.
Qed.

Example C107_three_neighbors_example :
  correct_tree brute /\ inverts inverse_small 2 /\ (1000 < 1420000)%Z /\ ((142#100) * 1000000 == inject_Z 1420000)%Q /\ ((142#100) <= 1000000)%Q /\
  (Qabs (sqrt3_double * sqrt3_double - 3) <= 1 # 1000000000000)%Q /\
  exists s, graphene brute inverse_small sqrt3_double (142#100) 7 = Ok s /\
    get_neighbors s [2; 5]%Z 0 0 = Ok [[1; 5; 1]; [2; 4; 1]; [2; 5; 1]]%Z /\ get_neighbors s [2; 5]%Z 1 0 = Ok [[2; 6; 0]; [3; 5; 0]; [2; 5; 0]]%Z /\
    get_neighbors s [2; 5]%Z 1 1 = Raise IndexError.
Proof.
  split; [exact brute_nearest|]. split; [exact inverse_small_2|]. split; [reflexivity|]. split; [reflexivity|]. split; [apply Qle_bool_imp_le; reflexivity|].
  split; [apply Qle_bool_imp_le; vm_compute; reflexivity|]. eexists. split; [vm_compute; reflexivity|]. repeat split; vm_compute; reflexivity.
Qed.

(** The three nearest sites of a honeycomb lattice are not always all neighbours: with the lattice constant 131/128 (exact as a double) the
    distances are rounded to 1.023438 and 1.023437, and the one site at the greater distance is dropped. *)
Theorem C107_three_refuted :
  exists a, ((1#1000) < a <= 1000000)%Q /\ (Qabs (sqrt3_double * sqrt3_double - 3) <= 1 # 1000000000000)%Q /\
    exists s L, honeycomb brute inverse_small sqrt3_double a (ex_atom "A") = Ok s /\ get_neighbors s [0; 0]%Z 0 0 = Ok L /\ length L = 2.
Proof.
  exists (131#128). split; [split; [reflexivity|apply Qle_bool_imp_le; reflexivity]|]. split; [apply Qle_bool_imp_le; vm_compute; reflexivity|].
  eexists. exists [[-1; 0; 1]; [0; -1; 1]]%Z. split; [vm_compute; reflexivity|]. split; vm_compute; reflexivity.
Qed.

Example C107_honeycomb_example :
  let a := (131#128)%Q in
  correct_tree brute /\ inverts inverse_small 2 /\ ((1#1000) < a)%Q /\ ((299#100) <= sqrt3_double * sqrt3_double <= (301#100))%Q /\
  rounds_to_micro (a * a)%Q 1023438 /\ rounds_to_micro (a * a * ((1 + sqrt3_double * sqrt3_double) * (1#4)))%Q 1023437 /\
  closer_cells 1023438 1023437 straight_cells (bent_cells 0) = bent_cells 0.
Proof.
  split; [exact brute_nearest|]. split; [exact inverse_small_2|]. split; [reflexivity|]. split; [split; apply Qle_bool_imp_le; reflexivity|].
  split; [unfold rounds_to_micro; cbv zeta; repeat split; intros; try (apply Qle_bool_imp_le; vm_compute; reflexivity); try reflexivity; try lia; exfalso; match goal with H : _ == _ |- _ => apply Qeq_bool_iff in H; vm_compute in H; discriminate end|].
  split; [unfold rounds_to_micro; cbv zeta; repeat split; intros; try (apply Qle_bool_imp_le; vm_compute; reflexivity); try lia; exfalso; match goal with H : _ == _ |- _ => apply Qeq_bool_iff in H; vm_compute in H; discriminate end|].
  reflexivity.
Qed.

Print Assumptions C107_hexagonal.
Print Assumptions C107_honeycomb.
Print Assumptions C107_three_neighbors.
Print Assumptions C107_three_refuted.
