(** * Model of the dispersion plot of a path (over the real numbers)

    [DispersionPath.plot_dispersion] hands the scales of the path, which are square roots, to [plot_dispersion].  The
    colours and filled strips do not depend on the scales and are those of DispPlotModel.v; here are the coordinates. *)
From Coq Require Import String List ZArith QArith Reals Qreals Bool Arith.
From Verif Require Import Np LinAlg UtilsModel PathModel RealModel PathScaleModel DispPlotModel.
Import ListNotations.
Open Scope nat_scope.
Open Scope list_scope.

(** The loop of [_scale_xaxis].  lattpy/disptools.py:44-48. *)
Fixpoint rscale_loop (size : nat) (scales : list R) (k0 : R) (k ticks : list R) : option (list R * list R) :=
  match scales with
  | [] => Some (k, ticks)
  | s :: rest =>
    let k := k ++ map (fun i => k0 + INR i * s)%R (seq 0 size) in
    match k with
    | [] => None
    | _ => let k0 := last k 0%R in rscale_loop size rest k0 k (ticks ++ [k0])
    end
  end.

(** [_scale_xaxis] with given scales.  lattpy/disptools.py:41-49. *)
Definition rscale_xaxis (num_points len : nat) (scales : list R) : option (list R * list R) :=
  if num_points <=? 1 then None else rscale_loop (sect_size len (num_points - 1)) scales 0%R [] [0%R].

(** Scales that are numbers; [None] if one of them is not finite.  lattpy/disptools.py:443. *)
Fixpoint finite_scales (l : list (option R)) : option (list R) :=
  match l with
  | [] => Some []
  | Some x :: r => option_map (cons x) (finite_scales r)
  | None :: _ => None
  end.

(** The curves of the bands, and the ticks with their labels.  lattpy/disptools.py:102-113. *)
Record path_picture := mkPicture { pp_curves : list (list (R * Q)); pp_ticks : list R; pp_labels : list string }.

(** [DispersionPath.plot_dispersion] for an array of [num_bands] columns.  lattpy/disptools.py:466-470, 102-113.  [None]:
    an exception, or coordinates that are not finite. *)
Definition path_plot (p : path) (num_bands : nat) (disp : list (list Q)) : option path_picture :=
  match path_scales p with
  | None => None
  | Some l =>
    match finite_scales l with
    | None => None
    | Some scales =>
      match rscale_xaxis (length (pa_labels p)) (length disp) scales with
      | None => None
      | Some (k, ticks) =>
        if length k =? length disp then
          Some (mkPicture (map (fun i => combine k (band disp i)) (seq 0 num_bands)) ticks (pa_labels p))
        else None
      end
    end
  end.
