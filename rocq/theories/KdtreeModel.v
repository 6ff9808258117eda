(** * Model of Lattice.kdtree (lattpy/lattice.py) and of the attributes of KDTree (lattpy/spatial.py)
    scipy's cKDTree is the parameter [query]; see [correct_tree] in SpecStructure.v for what is expected of it.
    Simplified: [eps] is 0 (exact answers), [boxsize] is None and [p] is 2, the defaults. *)
From Coq Require Import List ZArith QArith Bool Arith.
From Verif Require Import Np LinAlg BasisModel SpatialModel StructureModel DataModel LatticeModel.
Import ListNotations.
Open Scope nat_scope.
Open Scope list_scope.

(** The points and the settings of a tree.  lattpy/spatial.py:319-324. *)
Record kdtree := mkTree { kt_points : list vec; kt_k : nat; kt_max : Q }.

(** [kdtree].  lattpy/lattice.py:561-566.  [None] is an exception: of [np.sum] or [np.max] before [analyze], or of
    scipy for the positions of a lattice that is not built, which are no two-dimensional array. *)
Definition lattice_kdtree (l : lattice) (positions : option (list vec)) : option kdtree :=
  match match positions with None => option_map d_positions (lt_data l) | Some x => Some x end, st_analysis (lt_structure l) with
  | Some points, Some an => option_map (mkTree points (query_count an)) (query_radius an)
  | _, _ => None
  end.

(** [KDTree.query], with the points of the tree or those given.  lattpy/spatial.py:338-368. *)
Definition tree_query (query : kd_tree) (t : kdtree) (x : option (list vec)) (include_zero compact : bool) : list qrow :=
  let r2 := Some (kt_max t * kt_max t)%Q in
  let x := match x with None => kt_points t | Some x => x end in
  kd_query (length (kt_points t)) r2 include_zero compact (map (fun p => query (kt_points t) p (kt_k t) r2) x).
