(** * Spec of interpolation between sites in the plane *)
From Coq Require Import List ZArith QArith Bool Arith.
From Verif Require Import Np LinAlg StructureModel InterpModel.
Import ListNotations.
Open Scope nat_scope.
Open Scope list_scope.

(** The coordinates of a point and the squared distance of two points. *)
Definition px (p : vec) : Q := nth 0 p 0%Q.
Definition py (p : vec) : Q := nth 1 p 0%Q.
Definition sq_dist (p q : vec) : Q := ((px p - px q) * (px p - px q) + (py p - py q) * (py p - py q))%Q.
Definition same_point (p q : vec) : Prop := (px p == px q)%Q /\ (py p == py q)%Q.

(** The sum of the values with weights. *)
Fixpoint wsum (w v : list Q) : Q :=
  match w, v with
  | a :: w', x :: v' => (a * x + wsum w' v')%Q
  | _, _ => 0%Q
  end.

(** [p] is the mean of the points with the weights [w]. *)
Definition mean (points : list vec) (w : list Q) (p : vec) : Prop :=
  length w = length points /\ (forall a, In a w -> (0 <= a)%Q) /\ (wsum w (map (fun _ => 1%Q) points) == 1)%Q /\
  (wsum w (map px points) == px p)%Q /\ (wsum w (map py points) == py p)%Q.

Definition in_hull (points : list vec) (p : vec) : Prop := exists w, mean points w p.

(** The points with a weight lie on a circle without a point inside, as the corners of a Delaunay triangle do. *)
Definition on_empty_circle (points : list vec) (w : list Q) : Prop :=
  exists c r, (forall k, k < length points -> (0 < nth k w 0)%Q -> (sq_dist (nth k points []) c == r)%Q) /\
              (forall k, k < length points -> (r <= sq_dist (nth k points []) c)%Q).

(** The value at a point: linear in a triangle that contains it, NaN or the given value outside all triangles. *)
Definition linear_value (points : list vec) (values : list Q) (fill : option Q) (p : vec) (z : option Q) : Prop :=
  (in_hull points p -> exists w q, mean points w p /\ on_empty_circle points w /\ z = Some q /\ (q == wsum w values)%Q) /\
  (~ in_hull points p -> z = fill).

(** The value at a point: that of a site that no other site is nearer than. *)
Definition nearest_value (points : list vec) (values : list Q) (p : vec) (z : option Q) : Prop :=
  exists k, k < length points /\ z = Some (nth k values 0%Q) /\
    forall l, l < length points -> (sq_dist (nth k points []) p <= sq_dist (nth l points []) p)%Q.

(** What is expected of griddata. *)
Definition interpolating (griddata : griddata_fun) : Prop :=
  forall points values xi m fill zz, griddata points values xi m fill = Ok zz ->
    length values = length points /\ length zz = length xi /\
    forall i, i < length xi -> length (nth i zz []) = length (nth i xi []) /\
      forall j, j < length (nth i xi []) ->
        let p := nth j (nth i xi []) [] in let z := nth j (nth i zz []) None in
        match m with
        | Linear => linear_value points values fill p z
        | Nearest => nearest_value points values p z
        | Cubic => True
        end.
