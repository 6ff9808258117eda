(** * Model of interpolate_to_grid (lattpy/plotting.py)
    [griddata] of scipy is a parameter: it is called with the sites, their values, the query points and the method; see
    [interpolating] in SpecInterp.v for what is expected of it.  Numbers are exact; [None] in an entry is NaN.
    Simplified: numbers of grid points are natural numbers (numpy raises for negative ones). *)
From Coq Require Import List ZArith QArith Bool Arith.
From Verif Require Import Np LinAlg SpatialModel StructureModel VoronoiModel.
Import ListNotations.
Open Scope nat_scope.
Open Scope list_scope.

(** The argument [method], passed on to griddata.  lattpy/plotting.py:708, 718. *)
Inductive method := Linear | Nearest | Cubic.

(** [griddata(points, values, xi, method, fill_value)].  lattpy/plotting.py:718. *)
Definition griddata_fun := list vec -> list Q -> list (list vec) -> method -> option Q -> result (list (list (option Q))).

(** [np.linspace(min(x) - offset, max(x) + offset, num)].  lattpy/plotting.py:714-715.  [min] of an empty array raises. *)
Definition grid_axis (x : list Q) (offset : Q) (num : nat) : result (list Q) :=
  match x with
  | [] => Raise ValueError
  | x0 :: rest => Ok (linspace (qmin_list x0 rest - offset)%Q (qmax_list x0 rest + offset)%Q num true)
  end.

(** [interpolate_to_grid].  lattpy/plotting.py:703-719.  [x, y = positions.T] raises unless the positions have two columns.
    The points [(xi[None, :], yi[:, None])] are broadcast: the rows run over [yi], the columns over [xi]. *)
Definition interpolate_to_grid (griddata : griddata_fun) (positions : list vec) (values : list Q) (num : nat * nat)
  (offset : Q * Q) (m : method) (fill : option Q) : result (list (list Q) * list (list Q) * list (list (option Q))) :=
  if negb (forallb (fun p => length p =? 2) positions) then Raise ValueError
  else
    let x := map (fun p => nth 0 p 0%Q) positions in
    let y := map (fun p => nth 1 p 0%Q) positions in
    match grid_axis x (fst offset) (fst num), grid_axis y (snd offset) (snd num) with
    | Ok xi, Ok yi =>
      let xx := map (fun _ => xi) yi in
      let yy := map (fun b => map (fun _ => b) xi) yi in
      match griddata (map2 (fun a b => [a; b]) x y) values (map (fun b => map (fun a => [a; b]) xi) yi) m fill with
      | Ok zz => Ok (xx, yy, zz)
      | Raise e => Raise e
      end
    | Raise e, _ | _, Raise e => Raise e
    end.
