(** * Model of the ready-made hexagonal lattices of lattpy/__init__.py

    [sqrt3] is the number computed by [np.sqrt(3)], a rational near the square root of three; every theorem says how near.
    [inv] and [query] as in PresetModel.v.  An atom given by name stands for [atom_new]. *)
From Coq Require Import List String ZArith QArith Bool Arith.
From Verif Require Import Np LinAlg AtomModel BasisModel StructureModel PresetModel.
Import ListNotations.
Open Scope nat_scope.
Open Scope list_scope.

(** [hexagonal].  lattpy/basis.py:122-126. *)
Definition hexagonal (inv : mat -> mat) (sqrt3 a : Q) : basis :=
  new_basis inv (map (vscale (a / 2)) [[3; sqrt3]; [3; - sqrt3]]%Q).

(** [simple_hexagonal].  lattpy/__init__.py:222, 249-252. *)
Definition simple_hexagonal query inv (sqrt3 a : Q) (at_ : atom) (neighbors : nat) : result structure :=
  preset query (hexagonal inv sqrt3 a) [(None, at_)] neighbors.

(** Two atoms at the origin and at [(a, 0)], connected by their nearest distance.  lattpy/__init__.py:281-285, 311-315. *)
Definition two_sites_connected query inv (sqrt3 a : Q) (at1 at2 : atom) (ref1 ref2 : aref) : result structure :=
  match add_atoms query (new_structure (hexagonal inv sqrt3 a)) [(Some [0; 0]%Q, at1); (Some [a; 0]%Q, at2)] with
  | (_, Raise e) => Raise e
  | (s, Ok _) =>
    match add_connection query s ref1 ref2 1 true with
    | (_, Raise e) => Raise e
    | (s', Ok _) => Ok s'
    end
  end.

(** [honeycomb]: the same atom twice.  lattpy/__init__.py:255, 279-285. *)
Definition honeycomb query inv (sqrt3 a : Q) (at_ : atom) : result structure :=
  two_sites_connected query inv sqrt3 a at_ at_ (RIndex 0) (RIndex 1).

(** [graphene]: atoms with the names "C1" and "C2"; [count] is the value of the class counter of the atoms.
    lattpy/__init__.py:288, 309-315; the defaults of the atoms: atom.py:41-48. *)
Definition graphene query inv (sqrt3 a : Q) (count : nat) : result structure :=
  let at1 := atom_new count (Some "C1"%string) (VNum (1#5)) VNone (VNum 1) [] in
  let at2 := atom_new (S count) (Some "C2"%string) (VNum (1#5)) VNone (VNum 1) [] in
  two_sites_connected query inv sqrt3 a at1 at2 (RAtom at1) (RAtom at2).
