(** * Model of the dispersion plots in lattpy/disptools.py

    A plot is the list of the curves and filled areas handed to matplotlib, with their coordinates and colours, and the
    ticks of the axis.  Energies and wave numbers are exact rationals.  Not modelled: figures, axis titles, grids, line
    widths and transparency, tick formats ([_set_piticks]), the keyword [b] of [grid] that new versions of matplotlib reject, and the lines around the Brillouin zone ([bz]). *)
From Coq Require Import String List ZArith QArith Qabs Bool Arith.
From Verif Require Import Np LinAlg AtomModel SpatialModel IdentityModel PathModel.
Import ListNotations.
Open Scope nat_scope.
Open Scope list_scope.

(** What a plot can raise.  [BadAxis]: ZeroDivisionError, ValueError or IndexError of the axis (disptools.py:42-47, 107).
    [BadColor]: IndexError, KeyError or AttributeError of a colour (disptools.py:110-112).  [BadLength]: ValueError or
    TypeError of matplotlib for coordinates that do not belong together (disptools.py:113, 196, 226, 250).
    [NotImplementedErr]: disptools.py:270. *)
Inductive draw_error := BadAxis | BadColor | BadLength | NotImplementedErr.
(** The plot or the exception.  lattpy/disptools.py:86-275. *)
Inductive drawing (A : Type) := Drawn (a : A) | Failed (e : draw_error).
Arguments Drawn {A}. Arguments Failed {A}.

(** An element of a list of colours.  lattpy/disptools.py:110-112. *)
Inductive color_item := IColor (v : pyval) | IAtom (a : atom).

(** The argument [color]: nothing, one colour (a string, or a value without length), an atom, or a list.
    lattpy/disptools.py:32-38. *)
Inductive color_arg := ColNone | ColOne (v : pyval) | ColAtom (a : atom) | ColList (l : list color_item).

(** [_color_list(color, num_bands)[i]], and the colour of an atom.  lattpy/disptools.py:31-38, 110-112.  [None]: an
    exception.  An atom has a length, so it is taken for the list, and it has no key [i]. *)
Definition band_color (color : color_arg) (num_bands i : nat) : option pyval :=
  match color with
  | ColNone => if i <? num_bands then Some (VStr (String.append "C" (show_nat i))) else None
  | ColOne v => if i <? num_bands then Some v else None
  | ColAtom _ => None
  | ColList l =>
    match nth_error l i with
    | None => None
    | Some (IColor v) => Some v
    | Some (IAtom a) => atom_getattr a "color"
    end
  end.

(** A curve.  lattpy/disptools.py:113. *)
Record curve := mkCurve { cv_points : list (Q * Q); cv_color : pyval }.
(** The area between two energies over [0, sp_end].  lattpy/disptools.py:107, 115. *)
Record strip := mkStrip { sp_end : Q; sp_low : Q; sp_high : Q; sp_color : pyval }.
(** The axes of a new figure: positions and labels of the ticks, upper limit.  lattpy/disptools.py:57-61, 132-141. *)
Record kaxis := mkAxis { ka_ticks : list Q; ka_labels : list string; ka_limit : Q }.
(** A plot; without axes if those of the caller are used.  lattpy/disptools.py:102-105. *)
Record disp_plot := mkPlot { dp_curves : list curve; dp_strips : list strip; dp_axis : option kaxis }.

(** [bandpath_subplots].  lattpy/disptools.py:57-61. *)
Definition bandpath_subplots (ticks : list Q) (labels : list string) : kaxis := mkAxis ticks labels (last ticks 0%Q).

(** The energies of band [i], [disp.T[i]].  lattpy/disptools.py:109. *)
Definition band (disp : list (list Q)) (i : nat) : list Q := map (fun row => nth i row 0%Q) disp.

(** [min(band)], [max(band)].  lattpy/disptools.py:115. *)
Definition band_min (l : list Q) : Q := match l with [] => 0%Q | x :: r => qmin_list x r end.
(** [max(band)].  lattpy/disptools.py:115. *)
Definition band_max (l : list Q) : Q := match l with [] => 0%Q | x :: r => qmax_list x r end.

(** [ax.plot(x, y)].  lattpy/disptools.py:113, 187, 196. *)
Definition plot_curve (x y : list Q) (color : pyval) : option curve :=
  if length x =? length y then Some (mkCurve (combine x y) color) else None.

(** The loop over the bands, from band [i] on.  lattpy/disptools.py:107-115, 181-189. *)
Fixpoint draw_bands (k : list Q) (disp : list (list Q)) (num_bands : nat) (color : color_arg) (fill : bool) (is : list nat)
  : drawing (list curve * list strip) :=
  match is with
  | [] => Drawn ([], [])
  | i :: rest =>
    match band_color color num_bands i with
    | None => Failed BadColor
    | Some col =>
      match plot_curve k (band disp i) col with
      | None => Failed BadLength
      | Some c =>
        match draw_bands k disp num_bands color fill rest with
        | Failed e => Failed e
        | Drawn (cs, ss) =>
          Drawn (c :: cs, (if fill then [mkStrip (band_max k) (band_min (band disp i)) (band_max (band disp i)) col] else []) ++ ss)
        end
      end
    end
  end.

(** [plot_dispersion] for an array with one row per sample and [num_bands] columns; [own] is [ax is None].
    lattpy/disptools.py:86-120. *)
Definition plot_dispersion (num_bands : nat) (disp : list (list Q)) (labels : list string) (scales : option (list Q))
  (color : color_arg) (fill own : bool) : drawing disp_plot :=
  match scale_xaxis (length labels) (length disp) scales with
  | None | Some ([], _) => Failed BadAxis
  | Some (k, ticks) =>
    match draw_bands k disp num_bands color fill (seq 0 num_bands) with
    | Failed e => Failed e
    | Drawn (cs, ss) => Drawn (mkPlot cs ss (if own then Some (bandpath_subplots ticks labels) else None))
    end
  end.

(** [DispersionPath.subplots] after [build(n_sect)].  lattpy/disptools.py:449-464. *)
Definition path_subplots (p : path) : kaxis :=
  bandpath_subplots (map (fun t => inject_Z (Z.of_nat t)) (fst (get_ticks p))) (snd (get_ticks p)).

(** The loop over the densities of states: curves (density, energy).  lattpy/disptools.py:191-197. *)
Fixpoint draw_dos (num_bands : nat) (color : color_arg) (i : nat) (dos_data : list (list Q * list Q)) : drawing (list curve) :=
  match dos_data with
  | [] => Drawn []
  | (bins, dos) :: rest =>
    match band_color color num_bands i with
    | None => Failed BadColor
    | Some col =>
      match plot_curve dos bins col with
      | None => Failed BadLength
      | Some c => match draw_dos num_bands color (S i) rest with Failed e => Failed e | Drawn cs => Drawn (c :: cs) end
      end
    end
  end.

(** [plot_disp_dos]: the dispersion and the densities.  lattpy/disptools.py:152-203. *)
Definition plot_disp_dos (num_bands : nat) (disp : list (list Q)) (dos_data : list (list Q * list Q)) (labels : list string)
  (scales : option (list Q)) (color : color_arg) (fill own : bool) : drawing (disp_plot * list curve) :=
  match plot_dispersion num_bands disp labels scales color fill own with
  | Failed e => Failed e
  | Drawn p => match draw_dos num_bands color 0 dos_data with Failed e => Failed e | Drawn cs => Drawn (p, cs) end
  end.

(** ** plot_bands *)

(** The argument [bands]: one list per band over a line, one table per band over a plane, or more dimensions.
    lattpy/disptools.py:223. *)
Inductive bands_arg := Bands1 (b : list (list Q)) | Bands2 (rows cols : nat) (b : list (list (list Q))) | BandsMore.

(** A plot of bands: curves, or the heights over a plane with the label of the colour bar.  lattpy/disptools.py:224-259. *)
Inductive bands_plot :=
| Curves (c : list (list (Q * Q)))
| Contours (heights : list (list (Q * Q * Q))) (label : option string).

(** The sum of the absolute values of the bands.  lattpy/disptools.py:248. *)
Definition abs_sum (rows cols : nat) (b : list (list (list Q))) : list (list Q) :=
  map (fun i => map (fun j => fold_right (fun t s => (Qabs (nth j (nth i t []) 0) + s)%Q) 0%Q b) (seq 0 cols)) (seq 0 rows).

(** [bands] after line 248.  lattpy/disptools.py:245-248. *)
Definition heights_of (rows cols : nat) (b : list (list (list Q))) : list (list Q) :=
  match b with [t] => t | _ => abs_sum rows cols b end.

(** The label of the colour bar: [bands] is the table of heights by now, so its length is the number of rows.
    lattpy/disptools.py:255-259. *)
Definition bar_label (disp_label : string) (heights : list (list Q)) : option string :=
  if String.eqb disp_label "" then None
  else Some (if length heights =? 1 then disp_label else String.append "|" (String.append disp_label "|")).

(** [plot_bands] with at least one band.  lattpy/disptools.py:206-275.  [contourf] asks for the shape of the coordinates, [(len(ky), len(kx))]
    by [np.meshgrid], and for two rows and columns. *)
Definition plot_bands (kgrid : list (list Q)) (bands : bands_arg) (disp_label : string) : drawing bands_plot :=
  match bands with
  | Bands1 b =>
    match kgrid with
    | [] => Failed BadAxis
    | k :: _ =>
      if negb (forallb (fun e => length e =? length k) b) then Failed BadLength
      else match k with [] => Failed BadAxis | _ => Drawn (Curves (map (combine k) b)) end
    end
  | Bands2 rows cols b =>
    match kgrid with
    | [kx; ky] =>
      let z := heights_of rows cols b in
      if (length ky =? rows) && (length kx =? cols) && (2 <=? rows) && (2 <=? cols) then
        Drawn (Contours (map (fun r => map (fun e => (fst e, fst r, snd e)) (combine kx (snd r))) (combine ky z)) (bar_label disp_label z))
      else Failed BadLength
    | _ => Failed BadAxis
    end
  | BandsMore => Failed NotImplementedErr
  end.
