(** * Model of the ready-made lattices of lattpy/__init__.py

    The bases with rational lattice vectors; the hexagonal, three-dimensional hexagonal and oblique ones have irrational
    vectors and are in HoneycombModel.v (with a rational for the square root of three) and HexModel.v (over the reals).  [inv] is [np.linalg.inv], [query] and [argsort] as in LatticeModel.v, [norms] the
    lengths of the lattice vectors. *)
From Coq Require Import List ZArith QArith Bool Arith.
From Verif Require Import Np LinAlg AtomModel BasisModel ShapeModel StructureModel LatticeModel.
Import ListNotations.
Open Scope nat_scope.
Open Scope list_scope.

(** [a * np.eye(dim)]. *)
Definition scaled_eye (dim : nat) (a : Q) : mat :=
  map (fun i => map (fun j => (a * (if i =? j then 1 else 0))%Q) (seq 0 dim)) (seq 0 dim).

(** [hypercubic].  lattpy/basis.py:154-157; for dimension 2 and 3 also [square], [sc] (106-109, 136-139). *)
Definition hypercubic (inv : mat -> mat) (dim : nat) (a : Q) : basis := new_basis inv (scaled_eye dim a).

(** [chain].  lattpy/basis.py:101-104: a number becomes a 1x1 matrix (line 91). *)
Definition chain_basis (inv : mat -> mat) (a : Q) : basis := new_basis inv [[a]].

(** [rectangular].  lattpy/basis.py:111-114. *)
Definition rectangular (inv : mat -> mat) (a1 a2 : Q) : basis := new_basis inv [[a1; 0]; [0; a2]]%Q.

(** [fcc].  lattpy/basis.py:141-145. *)
Definition fcc (inv : mat -> mat) (a : Q) : basis :=
  new_basis inv (map (vscale (a / 2)) [[1; 1; 0]; [1; 0; 1]; [0; 1; 1]]%Q).

(** [bcc].  lattpy/basis.py:147-151. *)
Definition bcc (inv : mat -> mat) (a : Q) : basis :=
  new_basis inv (map (vscale (a / 2)) [[1; 1; 1]; [1; -1; 1]; [-1; 1; 1]]%Q).

(** Adding the atoms one after the other.  lattpy/__init__.py:143-144, 282-283, 387-388. *)
Fixpoint add_atoms (query : kd_tree) (s : structure) (atoms : list (option vec * atom)) : structure * result unit :=
  match atoms with
  | [] => (s, Ok tt)
  | (pos, at_) :: rest =>
    match add_atom query s pos at_ false 0 with
    | (s', Ok _) => add_atoms query s' rest
    | (s', Raise e) => (s', Raise e)
    end
  end.

(** A lattice with the given atoms in its unit cell and [neighbors] distances between all of them; the exception of
    whichever call raises first.  lattpy/__init__.py:104-107, 142-146, 181-184, 216-219, 350-353, 386-390. *)
Definition preset (query : kd_tree) (b : basis) (atoms : list (option vec * atom)) (neighbors : nat) : result structure :=
  match add_atoms query (new_structure b) atoms with
  | (_, Raise e) => Raise e
  | (s, Ok _) =>
    match add_connections query s neighbors true with
    | (_, Raise e) => Raise e
    | (s', Ok _) => Ok s'
    end
  end.

(** [simple_chain].  lattpy/__init__.py:77, 104-107. *)
Definition simple_chain query inv (a : Q) (at_ : atom) (neighbors : nat) : result structure :=
  preset query (chain_basis inv a) [(None, at_)] neighbors.

(** [alternating_chain].  lattpy/__init__.py:110, 142-146. *)
Definition alternating_chain query inv (a : Q) (atom1 atom2 : atom) (x0 : Q) (neighbors : nat) : result structure :=
  preset query (chain_basis inv a) [(Some [((0 + x0) * a)%Q], atom1); (Some [(((1#2) + x0) * a)%Q], atom2)] neighbors.

(** [simple_square].  lattpy/__init__.py:154, 181-184. *)
Definition simple_square query inv (a : Q) (at_ : atom) (neighbors : nat) : result structure :=
  preset query (hypercubic inv 2 a) [(None, at_)] neighbors.

(** [simple_rectangular].  lattpy/__init__.py:187, 216-219. *)
Definition simple_rectangular query inv (a1 a2 : Q) (at_ : atom) (neighbors : nat) : result structure :=
  preset query (rectangular inv a1 a2) [(None, at_)] neighbors.

(** [simple_cubic].  lattpy/__init__.py:323, 350-353. *)
Definition simple_cubic query inv (a : Q) (at_ : atom) (neighbors : nat) : result structure :=
  preset query (hypercubic inv 3 a) [(None, at_)] neighbors.

(** [nacl_structure].  lattpy/__init__.py:356, 386-390. *)
Definition nacl_structure query inv (a : Q) (atom1 atom2 : atom) (neighbors : nat) : result structure :=
  preset query (fcc inv a) [(Some [0; 0; 0]%Q, atom1); (Some [a / 2; a / 2; a / 2]%Q, atom2)] neighbors.

(** [finite_hypercubic] for a size or a shape object; a single number is the size [[s]].
    lattpy/__init__.py:398, 444-452.  [np.linalg.norm] of the lattice vectors is the absolute value of [a]. *)
Definition finite_hypercubic query (argsort : list dist -> list nat) inv (sh : shape_arg) (a : Q) (at_ : atom)
  (neighbors : nat) (primitive : bool) (periodic : option axis_arg) : result lattice :=
  let dim := match sh with ASize s => length s | AShape s => shape_dim s end in
  match preset query (hypercubic inv dim a) [(None, at_)] neighbors with
  | Raise e => Raise e
  | Ok s =>
    match build query argsort (repeat (Qabs.Qabs a) dim) (new_lattice s) sh primitive None true None periodic None with
    | (_, Raise e) => Raise e
    | (l, Ok _) => Ok l
    end
  end.
