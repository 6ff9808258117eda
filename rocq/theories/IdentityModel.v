(** * Model of lattpy/lattice.py: dictionaries, hash and equality of lattices *)
From Coq Require Import String List ZArith QArith Bool Arith DecimalString Decimal.
From Verif Require Import Np LinAlg AtomModel BasisModel SpatialModel StructureModel DataModel LatticeModel.
Import ListNotations.
Open Scope nat_scope.
Open Scope list_scope.

(** [todict]: the dictionary of the structure and the extents.  lattpy/lattice.py:1105-1107. *)
Record ldict := mkLDict { ld_structure : sdict; ld_shape : option vec }.

(** [Lattice.todict].  lattpy/lattice.py:1105-1107. *)
Definition lattice_todict (l : lattice) : ldict := mkLDict (todict (lt_structure l)) (lt_shape l).

(** [Lattice.fromdict] is the method of the structure, called with the class [Lattice]: the object starts without data,
    extents and periodic axes; the entry "shape" is not read.  lattpy/structure.py:1360-1365, lattice.py:127-137. *)
Definition lattice_fromdict (query : kd_tree) (inv : mat -> mat) (d : ldict) : result lattice :=
  match fromdict query inv (ld_structure d) with
  | Ok s => Ok (new_lattice s)
  | Raise e => Raise e
  end.

(** One line of [dumps]: the key padded to 15 characters and the entries.  lattpy/lattice.py:1119-1120. *)
Definition dump_line (key : string) (values : list string) : string :=
  String.append (pad15 (String.append key ":")) (String.concat "; " values).

(** [dumps]; [show_num] is [str] of a float.  lattpy/lattice.py:1117-1121.  [None]: the TypeError for connections or
    extents that are [None] and cannot be iterated. *)
Definition lattice_dumps (p : printer) (show_num : Q -> string) (l : lattice) : option string :=
  let d := ld_structure (lattice_todict l) in
  match sd_connections d, ld_shape (lattice_todict l) with
  | Some conns, Some shape =>
    Some (String.concat (String (Ascii.ascii_of_nat 10) EmptyString)
      [dump_line "vectors" (map (show_vec p) (sd_vectors d)); dump_line "atoms" (map (show_atom p) (sd_atoms d));
       dump_line "positions" (map (show_vec p) (sd_positions d)); dump_line "connections" (map (show_row p) conns);
       dump_line "shape" (map show_num shape)])
  | _, _ => None
  end.

(** [__hash__] for the hash function [md5].  lattpy/lattice.py:1157-1158.  [None]: the TypeError of [dumps]. *)
Definition lattice_hash (p : printer) (show_num : Q -> string) (md5 : string -> Z) (l : lattice) : option Z :=
  option_map md5 (lattice_dumps p show_num l).

(** [__eq__].  lattpy/lattice.py:1161. *)
Definition lattice_eq (p : printer) (show_num : Q -> string) (md5 : string -> Z) (l m : lattice) : option bool :=
  match lattice_hash p show_num md5 l, lattice_hash p show_num md5 m with
  | Some x, Some y => Some (x =? y)%Z
  | _, _ => None
  end.

(** [bool(v)].  lattpy/atom.py:152 ([if v]). *)
Definition truthy (v : pyval) : bool :=
  match v with VNone => false | VStr s => negb (String.eqb s "") | VNum q => negb (Qeq_bool q 0) end.

(** [str(v)] in a format string.  lattpy/atom.py:152, 155. *)
Definition show_val (show_num : Q -> string) (v : pyval) : string :=
  match v with VNone => "None" | VStr s => s | VNum q => show_num q end.

(** [str] of an [int].  lattpy/atom.py:155. *)
Definition show_nat (n : nat) : string := DecimalString.NilZero.string_of_uint (Nat.to_uint n).

(** [Atom.__repr__]: name, parameters that are not empty, and the index (a parameter called "index" first).
    lattpy/atom.py:151-155. *)
Definition atom_repr (show_num : Q -> string) (a : atom) : string :=
  let params := filter (fun kv => truthy (snd kv)) (a_params a) in
  let paramstr := String.concat ", " (map (fun kv => String.append (fst kv) (String.append "=" (show_val show_num (snd kv)))) params) in
  let argstr := if String.eqb paramstr "" then a_name a else String.append (a_name a) (String.append ", " paramstr) in
  let index := match dict_get (a_params a) "index" with Some v => show_val show_num v | None => show_nat (a_index a) end in
  String.append "Atom(" (String.append argstr (String.append ", " (String.append index ")"))).
