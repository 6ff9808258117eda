(** * Model of the constructors with keyword arguments (lattpy/structure.py, lattice.py)

    Other keyword arguments are ignored by the code.  Negative numbers of distances are not modelled.  The atoms are given
    as objects; a name stands for [atom_new] (line 251). *)
From Coq Require Import List ZArith QArith Bool Arith.
From Verif Require Import Np LinAlg AtomModel BasisModel ShapeModel StructureModel LatticeModel PresetModel.
Import ListNotations.
Open Scope nat_scope.
Open Scope list_scope.

(** The argument [cons]: a number or a dictionary of pairs.  lattpy/structure.py:130-138. *)
Inductive cons_arg := ConsNumber (num : nat) | ConsPairs (l : list ((aref * aref) * nat)).

(** The loop over the pairs.  lattpy/structure.py:136-137. *)
Fixpoint add_pairs (query : kd_tree) (s : structure) (l : list ((aref * aref) * nat)) : structure * result unit :=
  match l with
  | [] => (s, Ok tt)
  | ((a1, a2), num) :: rest =>
    match add_connection query s a1 a2 num false with
    | (s', Ok _) => add_pairs query s' rest
    | (s', Raise e) => (s', Raise e)
    end
  end.

(** The object of a call, or its exception.  lattpy/structure.py:103-138. *)
Definition finished {A} (r : A * result unit) : result A := match r with (x, Ok _) => Ok x | (_, Raise e) => Raise e end.

(** [LatticeStructure(basis, atoms=..., cons=...)].  lattpy/structure.py:103-138. *)
Definition construct (query : kd_tree) (b : basis) (atoms : option (list (option vec * atom))) (cons : option cons_arg) : result structure :=
  match add_atoms query (new_structure b) (match atoms with None => [] | Some l => l end) with
  | (_, Raise e) => Raise e
  | (s, Ok _) =>
    match cons with
    | None => Ok s
    | Some (ConsNumber num) => finished (add_connections query s num true)
    | Some (ConsPairs l) =>
      match add_pairs query s l with
      | (_, Raise e) => Raise e
      | (s', Ok _) => finished (analyze query s')
      end
    end
  end.

(** [Lattice(basis, atoms=..., cons=..., shape=..., periodic=...)].  lattpy/lattice.py:126-137. *)
Definition construct_lattice (query : kd_tree) (argsort : list dist -> list nat) (norms : vec) (b : basis)
  (atoms : option (list (option vec * atom))) (cons : option cons_arg) (shape : option shape_arg) (periodic : option axis_arg) : result lattice :=
  match construct query b atoms cons with
  | Raise e => Raise e
  | Ok s =>
    match shape with
    | None => Ok (new_lattice s)
    | Some sh => finished (build query argsort norms (new_lattice s) sh false None true None periodic None)
    end
  end.
