(** * Model of the plots of shapes (lattpy/shape.py)

    A plot is the list of lines and filled polygons handed to matplotlib.  Not modelled: colours, widths, transparency and
    the returned artists. *)
From Coq Require Import List ZArith QArith Bool Arith Reals.
From Verif Require Import Np LinAlg ShapeModel DispPlotModel.
Import ListNotations.
Open Scope nat_scope.
Open Scope list_scope.

(** The corners of lines and polygons.  lattpy/shape.py:149-156, 305-317. *)
Record outline := mkOutline { ol_lines : list (list vec); ol_faces : list (list vec) }.

(** Elements of an array by their numbers, [points[numbers]].  lattpy/shape.py:149, 151, 306, 309, 314, 318. *)
Definition take (points : list vec) (numbers : list nat) : list vec := map (fun k => nth k points []) numbers.

(** [Shape.plot]; [m] is the transposed basis.  lattpy/shape.py:147-157.  Without edges (dimensions other than two and
    three) all corners become one line, which matplotlib (one dimension) or [draw_lines] (more than three, plotting.py:239-245)
    rejects with ValueError; line 156 is not reached. *)
Definition plot_box (size pos : vec) (m : option mat) : drawing outline :=
  let corners := match m with None => box_corners size pos | Some m => map (matvec m) (box_corners size pos) end in
  match box_edges (length size), box_surfaces (length size) with
  | Some e, Some s => Drawn (mkOutline (map (fun p => take corners [fst p; snd p]) e) (map (take corners) s))
  | _, _ => Failed BadLength
  end.

(** [ConvexHull.plot] with the attributes [points], [simplices] and [vertices] of scipy's hull.
    lattpy/shape.py:304-322. *)
Definition plot_hull (dim : nat) (points : list vec) (simplices : list (list nat)) (vertices : list nat) : drawing outline :=
  match dim with
  | 2 => Drawn (mkOutline (map (take points) simplices) [take points vertices])
  | 3 => Drawn (mkOutline (map (fun s => take points (s ++ [hd 0 s])) simplices) (map (take points) simplices))
  | _ => Failed NotImplementedErr
  end.

(** The angles [np.linspace(0, 2 * np.pi, 100)].  lattpy/shape.py:245-247. *)
Definition theta (i : nat) : R := (INR i * (2 * PI / 99))%R.

(** One ring, [(xs[k], ys[k])].  lattpy/shape.py:248-249. *)
Definition ring (r : R) : list (R * R) := map (fun i => (r * cos (theta i), r * sin (theta i))%R) (seq 0 100).

(** [Donut.plot] in the plane: the two lines and the filled polygon.  lattpy/shape.py:244-258.  [pos] is not used there. *)
Definition plot_donut (pos : R * R) (radius_outer radius_inner : R) : list (list (R * R)) * list (R * R) :=
  let inner := ring radius_inner in
  let outer := rev (ring radius_outer) in
  ([inner; outer], inner ++ outer).
