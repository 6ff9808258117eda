(** * Property C84 (lattpy/shape.py: corners, edges and surfaces of a box) *)
From Coq Require Import List ZArith QArith Bool Arith Lia Lqa.
From Verif Require Import Np LinAlg ShapeModel.
Import ListNotations.
Open Scope nat_scope.
Open Scope list_scope.

(** ** Specification *)

(** [u] and [v] agree in all coordinates but one, in which they differ by the size of the box. *)
Definition joined (size u v : list Q) : Prop :=
  exists i, i < length size /\
    ((nth i v 0 == nth i u 0 + nth i size 0)%Q \/ (nth i u 0 == nth i v 0 + nth i size 0)%Q) /\
    forall j, j < length size -> j <> i -> (nth j u 0 == nth j v 0)%Q.

(** [c] lies on the lower ([upper = false]) or upper side of the box along axis [i]. *)
Definition on_side (size pos : list Q) (i : nat) (upper : bool) (c : list Q) : Prop :=
  (nth i c 0 == nth i pos 0 + (if upper then nth i size 0 else 0))%Q.

(** Consecutive elements of a closed walk. *)
Definition step_of (l : list nat) (a b : nat) : Prop :=
  exists k, nth_error l k = Some a /\ nth_error (tl l ++ [hd 0 l]) k = Some b.

(** ** Theorems *)

(** The corners of a box in any dimension: all combinations of the lower and upper values, each once. *)
Theorem C84_corners :
  forall size pos, length size = length pos -> (forall s, In s size -> (0 < s)%Q) ->
    length (box_corners size pos) = 2 ^ length pos /\
    (forall c, In c (box_corners size pos) -> length c = length pos /\ forall i, i < length pos -> exists upper, on_side size pos i upper c) /\
    (forall f : nat -> bool, exists! k, k < 2 ^ length pos /\ forall i, i < length pos -> on_side size pos i (f i) (nth k (box_corners size pos) [])).
Proof.
  intros size pos. unfold box_corners, on_side. revert pos. induction size as [|s size IH]; intros [|x pos] Hl Hp; cbn [length] in *; try discriminate.
  - cbn. split; [reflexivity|]. split; [intros c [<-|[]]; split; [reflexivity|intros; lia]|].
    intro f. exists 0. split; [split; [lia|intros; lia]|]. intros k [Hk _]. lia.
  - destruct (IH pos) as [H1 [H2 H3]]; [lia|intros; apply Hp; right; assumption|]. clear IH.
    assert (map (vadd (x :: pos)) (product (map (fun s0 => [0%Q; s0]) (s :: size))) =
            map (cons (x + 0)%Q) (map (vadd pos) (product (map (fun s0 => [0%Q; s0]) size))) ++
            map (cons (x + s)%Q) (map (vadd pos) (product (map (fun s0 => [0%Q; s0]) size)))) as ->.
    { cbn [map product flat_map]. rewrite app_nil_r, map_app, !map_map. reflexivity. }
    set (C := map (vadd pos) (product (map (fun s0 => [0%Q; s0]) size))) in *. clearbody C. unfold vec in *.
    assert (0 < s)%Q as Hs by (apply Hp; left; reflexivity).
    split; [|split].
    + rewrite app_length, !map_length, H1. cbn. lia.
    + intros c Hc. apply in_app_iff in Hc. destruct Hc as [Hc|Hc]; apply in_map_iff in Hc; destruct Hc as [c' [<- Hc]];
        destruct (H2 c' Hc) as [Hlc Hi]; (split; [cbn [length]; lia|]); intros [|i] H; cbn [nth].
      * exists false. reflexivity.
      * apply Hi. lia.
      * exists true. reflexivity.
      * apply Hi. lia.
    + intro f. destruct (H3 (fun i => f (S i))) as [k [[Hk Hkc] Hu]].
      assert (forall j, j < 2 ^ length pos -> nth j (map (cons (x + 0)%Q) C ++ map (cons (x + s)%Q) C) [] = (x + 0)%Q :: nth j C []) as L.
      { intros j Hj. rewrite app_nth1 by (rewrite map_length; lia). rewrite (nth_indep _ [] ((x + 0)%Q :: [])) by (rewrite map_length; lia). apply map_nth. }
      assert (forall j, j < 2 ^ length pos -> nth (2 ^ length pos + j) (map (cons (x + 0)%Q) C ++ map (cons (x + s)%Q) C) [] = (x + s)%Q :: nth j C []) as R.
      { intros j Hj. rewrite app_nth2 by (rewrite map_length; lia). rewrite map_length, H1. replace (2 ^ length pos + j - 2 ^ length pos) with j by lia.
        rewrite (nth_indep _ [] ((x + s)%Q :: [])) by (rewrite map_length; lia). apply map_nth. }
      exists (if f 0 then 2 ^ length pos + k else k). split.
      * split; [cbn; destruct (f 0); lia|]. intros i Hi. destruct (f 0) eqn:E0.
        -- rewrite R by exact Hk. destruct i as [|i]; cbn [nth]; [rewrite E0; reflexivity|apply Hkc; lia].
        -- rewrite L by exact Hk. destruct i as [|i]; cbn [nth]; [rewrite E0; reflexivity|apply Hkc; lia].
      * intros j [Hj Hjc]. cbn in Hj. pose proof (Hjc 0 ltac:(lia)) as Hj0. destruct (Nat.lt_ge_cases j (2 ^ length pos)) as [Hjl|Hjl].
        -- rewrite L in Hj0 by exact Hjl. cbn [nth] in Hj0. destruct (f 0); [exfalso; lra|]. symmetry. symmetry. apply Hu. split; [exact Hjl|].
           intros i Hi. specialize (Hjc (S i) ltac:(lia)). rewrite L in Hjc by exact Hjl. exact Hjc.
        -- assert (j - 2 ^ length pos < 2 ^ length pos) as Hjr by lia. replace j with (2 ^ length pos + (j - 2 ^ length pos)) in Hj0, Hjc |- * by lia.
           rewrite R in Hj0 by exact Hjr. cbn [nth] in Hj0. destruct (f 0); [|exfalso; lra]. f_equal. apply Hu. split; [exact Hjr|].
           intros i Hi. specialize (Hjc (S i) ltac:(lia)). rewrite R in Hjc by exact Hjr. exact Hjc.
Qed.

Local Ltac find_in := cbn; repeat first [left; reflexivity|right].
Local Ltac no_dup := repeat (constructor; [let NH := fresh in intro NH; cbn in NH; repeat (destruct NH as [NH|NH]; [discriminate|]); contradiction|]); constructor.
Local Ltac apart Hab := cbn in Hab; repeat (destruct Hab as [Hab|Hab]; [injection Hab as <- <-; let NH := fresh in intro NH; cbn in NH; repeat (destruct NH as [NH|NH]; [discriminate|]); contradiction|]); contradiction.

(** The edges of boxes in two and three dimensions: exactly the pairs of corners that differ along one axis, each once;
    there are none in other dimensions. *)
Theorem C84_edges :
  forall size pos, length size = length pos -> (forall s, In s size -> (0 < s)%Q) ->
    (length pos <> 2 -> length pos <> 3 -> box_edges (length pos) = None) /\
    (length pos = 2 \/ length pos = 3 -> exists E, box_edges (length pos) = Some E /\
       (forall a b, In (a, b) E -> a < 2 ^ length pos /\ b < 2 ^ length pos) /\
       (forall a b, a < 2 ^ length pos -> b < 2 ^ length pos ->
          (joined size (nth a (box_corners size pos) []) (nth b (box_corners size pos) []) <-> In (a, b) E \/ In (b, a) E)) /\
       NoDup E /\ (forall a b, In (a, b) E -> ~ In (b, a) E)).
Proof.
  intros size pos Hl Hs. split.
  { intros H2 H3. destruct (length pos) as [|[|[|[|]]]]; try reflexivity; lia. }
  intros [H|H]; rewrite H in *.
  - destruct size as [|s0 [|s1 [|]]]; try discriminate. destruct pos as [|x0 [|x1 [|]]]; try discriminate.
    assert (0 < s0 /\ 0 < s1)%Q as [P0 P1] by (split; apply Hs; cbn; auto). clear Hs Hl H.
    eexists. split; [reflexivity|]. split; [|split; [|split]].
    + intros a b Hab. cbn in Hab. repeat (destruct Hab as [Hab|Hab]; [injection Hab as <- <-; cbn; lia|]). contradiction.
    + intros a b Ha Hb. cbn in Ha, Hb. unfold joined. split.
      * intros [i [Hi [Hd He]]]. destruct a as [|[|[|[|a]]]]; try lia; destruct b as [|[|[|[|b]]]]; try lia;
          destruct i as [|[|i]]; try (exfalso; cbn in Hi; lia);
          pose proof (He 0 ltac:(cbn; lia)) as E0; pose proof (He 1 ltac:(cbn; lia)) as E1; cbn in Hd, E0, E1;
          first [solve [left; find_in]|solve [right; find_in]|idtac];
          exfalso; try (specialize (E0 ltac:(lia))); try (specialize (E1 ltac:(lia))); lra.
      * intro Hab. cbn in Hab. repeat match type of Hab with _ \/ _ => destruct Hab as [Hab|Hab] end; try contradiction; injection Hab as <- <-;
          first [exists 0; split; [cbn; lia|]; split; [cbn; lra|intros [|[|j]] Hj Hn; cbn in Hj; try lia; cbn; lra]
                |exists 1; split; [cbn; lia|]; split; [cbn; lra|intros [|[|j]] Hj Hn; cbn in Hj; try lia; cbn; lra]].
    + no_dup.
    + intros a b Hab. apart Hab.
  - destruct size as [|s0 [|s1 [|s2 [|]]]]; try discriminate. destruct pos as [|x0 [|x1 [|x2 [|]]]]; try discriminate.
    assert (0 < s0 /\ 0 < s1 /\ 0 < s2)%Q as [P0 [P1 P2]] by (split; [|split]; apply Hs; cbn; auto). clear Hs Hl H.
    eexists. split; [reflexivity|]. split; [|split; [|split]].
    + intros a b Hab. cbn in Hab. repeat (destruct Hab as [Hab|Hab]; [injection Hab as <- <-; cbn; lia|]). contradiction.
    + intros a b Ha Hb. cbn in Ha, Hb. unfold joined. split.
      * intros [i [Hi [Hd He]]]. destruct a as [|[|[|[|[|[|[|[|a]]]]]]]]; try lia; destruct b as [|[|[|[|[|[|[|[|b]]]]]]]]; try lia;
          destruct i as [|[|[|i]]]; try (exfalso; cbn in Hi; lia);
          pose proof (He 0 ltac:(cbn; lia)) as E0; pose proof (He 1 ltac:(cbn; lia)) as E1; pose proof (He 2 ltac:(cbn; lia)) as E2;
          cbn in Hd, E0, E1, E2;
          first [solve [left; find_in]|solve [right; find_in]|idtac];
          exfalso; try (specialize (E0 ltac:(lia))); try (specialize (E1 ltac:(lia))); try (specialize (E2 ltac:(lia))); clear - Hd E0 E1 E2 P0 P1 P2; lra.
      * intro Hab. cbn in Hab. repeat match type of Hab with _ \/ _ => destruct Hab as [Hab|Hab] end; try contradiction; injection Hab as <- <-;
          first [exists 0; split; [cbn; lia|]; split; [cbn; lra|intros [|[|[|j]]] Hj Hn; cbn in Hj; try lia; cbn; lra]
                |exists 1; split; [cbn; lia|]; split; [cbn; lra|intros [|[|[|j]]] Hj Hn; cbn in Hj; try lia; cbn; lra]
                |exists 2; split; [cbn; lia|]; split; [cbn; lra|intros [|[|[|j]]] Hj Hn; cbn in Hj; try lia; cbn; lra]].
    + no_dup.
    + intros a b Hab. apart Hab.
Qed.

(** The surfaces: in two dimensions the closed walk around the box, in three dimensions the six sides; every walk goes
    along edges. *)
Theorem C84_surfaces :
  forall size pos, length size = length pos ->
    (length pos <> 2 -> length pos <> 3 -> box_surfaces (length pos) = None) /\
    (length pos = 2 -> exists l, box_surfaces 2 = Some [l ++ [hd 0 l]] /\ length l = 4 /\ NoDup l /\
       forall a b, step_of l a b -> joined size (nth a (box_corners size pos) []) (nth b (box_corners size pos) [])) /\
    (length pos = 3 -> exists S, box_surfaces 3 = Some S /\ length S = 6 /\
       (forall l, In l S -> length l = 4 /\ NoDup l /\
          forall a b, step_of l a b -> joined size (nth a (box_corners size pos) []) (nth b (box_corners size pos) [])) /\
       forall i upper, i < 3 -> exists l, In l S /\ forall a, In a l -> on_side size pos i upper (nth a (box_corners size pos) [])).
Proof.
  intros size pos Hl. split; [|split].
  - intros H2 H3. destruct (length pos) as [|[|[|[|]]]]; try reflexivity; lia.
  - intro H. rewrite H in Hl. destruct size as [|s0 [|s1 [|]]]; try discriminate. destruct pos as [|x0 [|x1 [|]]]; try discriminate.
    exists [0; 1; 3; 2]. split; [reflexivity|]. split; [reflexivity|]. split; [no_dup|].
    intros a b [k [Ha Hb]]. destruct k as [|[|[|[|k]]]]; try (destruct k; discriminate); cbn in Ha, Hb; injection Ha as <-; injection Hb as <-;
      first [exists 0; split; [cbn; lia|]; split; [cbn; lra|intros [|[|j]] Hj Hn; cbn in Hj; try lia; cbn; lra]
            |exists 1; split; [cbn; lia|]; split; [cbn; lra|intros [|[|j]] Hj Hn; cbn in Hj; try lia; cbn; lra]].
  - intro H. rewrite H in Hl. destruct size as [|s0 [|s1 [|s2 [|]]]]; try discriminate. destruct pos as [|x0 [|x1 [|x2 [|]]]]; try discriminate.
    eexists. split; [reflexivity|]. split; [reflexivity|]. split.
    + intros l Hin. repeat (destruct Hin as [<-|Hin]; [split; [reflexivity|]; split; [no_dup|];
        intros a b [k [Ha Hb]]; destruct k as [|[|[|[|k]]]]; try (destruct k; discriminate); cbn in Ha, Hb; injection Ha as <-; injection Hb as <-;
        first [exists 0; split; [cbn; lia|]; split; [cbn; lra|intros [|[|[|j]]] Hj Hn; cbn in Hj; try lia; cbn; lra]
              |exists 1; split; [cbn; lia|]; split; [cbn; lra|intros [|[|[|j]]] Hj Hn; cbn in Hj; try lia; cbn; lra]
              |exists 2; split; [cbn; lia|]; split; [cbn; lra|intros [|[|[|j]]] Hj Hn; cbn in Hj; try lia; cbn; lra]]|]). contradiction.
    + unfold on_side. intros [|[|[|i]]] [|] Hi; try lia;
        [exists [4; 6; 7; 5]|exists [0; 2; 3; 1]|exists [2; 6; 7; 3]|exists [1; 5; 4; 0]|exists [3; 7; 5; 1]|exists [0; 4; 6; 2]];
        (split; [find_in|]); intros a Ha; cbn in Ha; repeat (destruct Ha as [<-|Ha]; [cbn; lra|]); contradiction.
Qed.

(** The corners of a box 2 x 3 at (1, 1), the edges and the surface. *)
Example C84_example :
  box_corners [2; 3]%Q [1; 1]%Q = [[1 + 0; 1 + 0]; [1 + 0; 1 + 3]; [1 + 2; 1 + 0]; [1 + 2; 1 + 3]]%Q /\
  (forall s, In s [2; 3]%Q -> (0 < s)%Q) /\ box_edges 2 = Some [(0, 1); (0, 2); (2, 3); (3, 1)] /\
  step_of [0; 1; 3; 2] 2 0 /\ box_surfaces 2 = Some [[0; 1; 3; 2; 0]].
Proof.
  split; [reflexivity|]. split; [intros s [<-|[<-|[]]]; reflexivity|]. split; [reflexivity|]. split; [exists 3; split; reflexivity|reflexivity].
Qed.

Print Assumptions C84_corners.
Print Assumptions C84_edges.
Print Assumptions C84_surfaces.
