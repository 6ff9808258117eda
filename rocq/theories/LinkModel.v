(** * Model of the remaining queries of lattpy/lattice.py: nearest neighbours, iteration, connections of two lattices *)
From Coq Require Import List ZArith QArith Bool Arith.
From Verif Require Import Np LinAlg StructureModel DataModel LatticeModel.
Import ListNotations.
Open Scope nat_scope.

(** [nearest_neighbors].  lattpy/lattice.py:347.  [None]: IndexError. *)
Definition nearest_neighbors (l : lattice) (idx : nat) (uniq : bool) : option (list nat) := neighbors l idx (Some 0) uniq.

(** [iter_neighbors], all items of the iterator.  lattpy/lattice.py:369.  [None]: IndexError. *)
Definition lattice_iter_neighbors (l : lattice) (site : nat) (uniq : bool) : option (list (nat * list nat)) :=
  match lt_data l with None => None | Some d => iter_neighbors d site uniq end.

(** [compute_connections]: pairs of sites of the two lattices with their distance (squared here).
    lattpy/lattice.py:745-746.  The analysis is that of the first lattice.  [None]: [query_radius], or a lattice that is
    not analysed or not built (the empty array of positions has one axis, of which [cKDTree] raises ValueError). *)
Definition compute_connections (ball : list vec -> list vec -> Q -> list (list nat)) (l latt : lattice)
  : option (list (nat * nat * Q)) :=
  match st_analysis (lt_structure l), lt_data l, lt_data latt with
  | Some an, Some d, Some e => connection_neighbors ball an (d_positions d) (d_positions e)
  | _, _, _ => None
  end.

(** [dmap]: the map and the lattice with the cached map.  lattpy/lattice.py:1000.  [None]: not built (the index in
    lattpy/data.py:620 raises IndexError). *)
Definition dmap (argsort : list nat -> list nat) (l : lattice) : option (datamap * lattice) :=
  match lt_data l with
  | None => None
  | Some d => let (m, d') := data_map argsort d in Some (m, set_data l (Some d'))
  end.
