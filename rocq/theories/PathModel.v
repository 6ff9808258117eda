(** * Model of the dispersion path in lattpy/disptools.py and of the colours in lattpy/plotting.py

    Modelled: class DispersionPath without drawing, [_scale_xaxis], [connection_color_array].
    Simplification: coordinates are exact rationals, [np.pi / a] is a parameter.  Drawing is not modelled. *)
From Coq Require Import String List ZArith QArith Qround Bool Arith DecimalString.
From Verif Require Import Np LinAlg UtilsModel SpecSpatial.
Import ListNotations.
Open Scope nat_scope.
Open Scope list_scope.

(** State of a path.  lattpy/disptools.py:297-301. *)
Record path := mkPath { pa_dim : nat; pa_labels : list string; pa_points : list vec; pa_sect : nat }.

(** [DispersionPath(dim)].  lattpy/disptools.py:297-301. *)
Definition new_path (dim : nat) : path := mkPath dim [] [] 0.

(** [str(n)].  lattpy/disptools.py:339. *)
Definition str_nat (n : nat) : string := NilZero.string_of_uint (Nat.to_uint n).

(** [add].  lattpy/disptools.py:320-347. *)
Definition add (p : path) (point : vec) (name : string) : path :=
  let name := if String.eqb name "" then str_nat (length (pa_points p)) else name in
  let '(dim, point) := if pa_dim p =? 0 then (length point, point) else (pa_dim p, firstn (pa_dim p) point) in
  mkPath dim (pa_labels p ++ [name]) (pa_points p ++ [point]) (pa_sect p).

(** [add_points].  lattpy/disptools.py:349-368. *)
Definition add_points (p : path) (points : list vec) (names : option (list string)) : path :=
  let names := match names with None => repeat ""%string (length points) | Some n => n end in
  fold_left (fun p pn => add p (fst pn) (snd pn)) (combine points names) p.

(** [cycle].  lattpy/disptools.py:370-381.  [None]: IndexError of an empty path. *)
Definition cycle (p : path) : option path :=
  match pa_points p, pa_labels p with
  | pt :: _, l :: _ => Some (mkPath (pa_dim p) (pa_labels p ++ [l]) (pa_points p ++ [pt]) (pa_sect p))
  | _, _ => None
  end.

(** The preset points; [v] is [np.pi / a].  lattpy/disptools.py:383-397. *)
Definition gamma (p : path) : path := add p [0; 0; 0]%Q "$\Gamma$".
(** [x].  lattpy/disptools.py:387-389. *)
Definition add_x (v : Q) (p : path) : path := add p [v; 0; 0]%Q "$X$".
(** [m].  lattpy/disptools.py:391-393. *)
Definition add_m (v : Q) (p : path) : path := add p [v; v; 0]%Q "$M$".
(** [r].  lattpy/disptools.py:395-397. *)
Definition add_r (v : Q) (p : path) : path := add p [v; v; v]%Q "$R$".

(** The preset paths.  lattpy/disptools.py:303-313. *)
Definition chain_path (v : Q) : option path := cycle (gamma (add_x v (new_path 1))).
(** [square_path].  lattpy/disptools.py:308-309. *)
Definition square_path (v : Q) : option path := cycle (add_m v (add_x v (gamma (new_path 2)))).
(** [cubic_path].  lattpy/disptools.py:312-313. *)
Definition cubic_path (v : Q) : path := add_r v (gamma (add_m v (add_x v (gamma (new_path 3))))).

(** Broadcasting of two one-dimensional arrays.  lattpy/disptools.py:414 (inside [np.linspace]). *)
Definition broadcast (p q : vec) : option (vec * vec) :=
  if length p =? length q then Some (p, q)
  else if length p =? 1 then Some (repeat (nth 0 p 0%Q) (length q), q)
  else if length q =? 1 then Some (p, repeat (nth 0 q 0%Q) (length p))
  else None.

(** [np.linspace(p0, p1, num)].  lattpy/disptools.py:414. *)
Definition linspace (p0 p1 : vec) (num : nat) : list vec :=
  map (fun k => map2 (fun x y => if num =? 1 then x else x + inject_Z (Z.of_nat k) * ((y - x) / inject_Z (Z.of_nat (num - 1))))%Q p0 p1)
    (seq 0 num).

(** [build]: the object with the section size and the path.  lattpy/disptools.py:399-415.  [None]: ValueError for
    points of different lengths, or of a length other than the dimension. *)
Definition build_sections (dim n : nat) : list (vec * vec) -> option (list vec) :=
  fix go pairs :=
    match pairs with
    | [] => Some []
    | (p0, p1) :: rest =>
      match broadcast p0 p1 with
      | Some (a, b) =>
        if length a =? dim then
          match go rest with Some l => Some (linspace a b n ++ l) | None => None end
        else None
      | None => None
      end
    end.

(** [build].  lattpy/disptools.py:399-415. *)
Definition build (p : path) (n_sect : nat) : option (path * list vec) :=
  match chain (pa_points p) false with
  | None => None
  | Some pairs =>
    option_map (fun l => (mkPath (pa_dim p) (pa_labels p) (pa_points p) n_sect, l)) (build_sections (pa_dim p) n_sect pairs)
  end.

(** [get_ticks].  lattpy/disptools.py:417-427. *)
Definition get_ticks (p : path) : list nat * list string :=
  (map (fun i => i * pa_sect p) (seq 0 (length (pa_points p))), pa_labels p).

(** [edges].  lattpy/disptools.py:429-431. *)
Definition edges (p : path) : option (list (vec * vec)) := chain (pa_points p) false.

(** Number of elements of [np.arange(len(disp) / m)], which is rounded up.  lattpy/disptools.py:42, 46. *)
Definition sect_size (len m : nat) : nat := Z.to_nat (Qceiling (inject_Z (Z.of_nat len) / inject_Z (Z.of_nat m))).

(** The loop of [_scale_xaxis].  lattpy/disptools.py:44-48.  [None]: IndexError of [k[-1]] of an empty list. *)
Fixpoint scale_loop (size : nat) (scales : list Q) (k0 : Q) (k ticks : list Q) : option (list Q * list Q) :=
  match scales with
  | [] => Some (k, ticks)
  | s :: rest =>
    let k := k ++ map (fun i => k0 + inject_Z (Z.of_nat i) * s)%Q (seq 0 size) in
    match k with
    | [] => None
    | _ => let k0 := last k 0%Q in scale_loop size rest k0 k (ticks ++ [k0])
    end
  end.

(** [_scale_xaxis], with [len] the number of rows of [disp].  lattpy/disptools.py:41-49.  [None]: ZeroDivisionError,
    ValueError of [np.ones(-1)], or an empty list. *)
Definition scale_xaxis (num_points len : nat) (scales : option (list Q)) : option (list Q * list Q) :=
  if num_points <=? 1 then None
  else
    let scales := match scales with None => repeat 1%Q (num_points - 1) | Some s => s end in
    scale_loop (sect_size len (num_points - 1)) scales 0%Q [] [0%Q].

(** ** Colours *)

(** Position of a Python list index.  lattpy/plotting.py:613-614. *)
Definition py_index (n : nat) (i : Z) : option nat :=
  if ((0 <=? i) && (i <? Z.of_nat n))%Z then Some (Z.to_nat i)
  else if ((- Z.of_nat n <=? i) && (i <? 0))%Z then Some (Z.to_nat (i + Z.of_nat n)) else None.

(** [hop_colors[a1][a2] = col].  lattpy/plotting.py:613-614. *)
Definition put2 {C} (a b : nat) (c : C) (t : list (list C)) : list (list C) := set_nth a (set_nth b c (nth a t [])) t.

(** [connection_color_array].  lattpy/plotting.py:584-615.  [None]: IndexError. *)
Definition connection_color_array {C} (num_base : nat) (default : C) (colors : list (Z * Z * C)) : option (list (list C)) :=
  fold_left (fun o e =>
    match o with
    | None => None
    | Some t =>
      let '(a1, a2, c) := e in
      match py_index num_base a1, py_index num_base a2 with
      | Some i, Some j => Some (put2 j i c (put2 i j c t))
      | _, _ => None
      end
    end) colors (Some (repeat (repeat default num_base) num_base)).
