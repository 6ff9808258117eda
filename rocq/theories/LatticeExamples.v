(** * Concrete lattices used as examples *)
From Coq Require Import String List ZArith QArith Bool Arith.
From Verif Require Import Np LinAlg AtomModel BasisModel SpatialModel ShapeModel StructureModel DataModel KDBrute
  StructureProofs StructureFacts PropData PropStructure LatticeModel.
Import ListNotations.
Open Scope nat_scope.
Open Scope list_scope.

(** The chain with one atom, built with five sites. *)
Definition one_atom : structure :=
  Eval vm_compute in run_calls brute ex_chain [CAddAtom (Some [0]%Q) (ex_atom "A") false 1].
Definition chain5 : lattice :=
  Eval vm_compute in fst (build brute dist_argsort [1]%Q (new_lattice one_atom) (ASize [4]%Q) false None true None None None).

(** The same chain as a ring. *)
Definition ring5 : lattice := Eval vm_compute in fst (set_periodic brute dist_argsort chain5 (AxBool true)).

(** A chain with two atoms per cell, A at 0 and B at 3/10: the distance A-A is the second one of atom A. *)
Definition two_atoms : structure :=
  Eval vm_compute in run_calls brute ex_chain
    [CAddAtom (Some [0]%Q) (ex_atom "A") false 0; CAddAtom (Some [3#10]%Q) (ex_atom "B") false 1].
Definition pairs3 : lattice :=
  Eval vm_compute in fst (build brute dist_argsort [1]%Q (new_lattice two_atoms) (ASize [2]%Q) false None true None None None).

Definition chain5_data : data := Eval vm_compute in match lt_data chain5 with Some d => d | None => mkData 0 0 [] [] [] [] [] [] [] [] 0 0 None end.
Definition ring5_data : data := Eval vm_compute in match lt_data ring5 with Some d => d | None => chain5_data end.
Definition pairs3_data : data := Eval vm_compute in match lt_data pairs3 with Some d => d | None => chain5_data end.

(** The simple cubic lattice with 27 sites, periodic along all axes. *)
Definition ex_cubic : basis := mkBasis [[1; 0; 0]; [0; 1; 0]; [0; 0; 1]]%Q [[1; 0; 0]; [0; 1; 0]; [0; 0; 1]]%Q.
Definition cubic_atom : structure :=
  Eval vm_compute in run_calls brute ex_cubic [CAddAtom (Some [0; 0; 0]%Q) (ex_atom "A") false 1].
Definition cube27 : lattice :=
  Eval vm_compute in fst (build brute dist_argsort [1; 1; 1]%Q (new_lattice cubic_atom) (ASize [2; 2; 2]%Q) false None true None (Some (AxBool true)) None).

(** A square lattice with 3 x 4 sites, periodic along both axes. *)
Definition ex_square : basis := mkBasis [[1; 0]; [0; 1]]%Q [[1; 0]; [0; 1]]%Q.
Definition square_atom : structure :=
  Eval vm_compute in run_calls brute ex_square [CAddAtom (Some [0; 0]%Q) (ex_atom "A") false 1].
Definition torus12 : lattice :=
  Eval vm_compute in fst (build brute dist_argsort [1; 1]%Q (new_lattice square_atom) (ASize [2; 3]%Q) false None true None (Some (AxBool true)) None).
