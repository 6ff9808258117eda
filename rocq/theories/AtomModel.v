(** * Model of lattpy/atom.py *)
From Coq Require Import String Ascii List ZArith QArith Bool Arith.
Import ListNotations.
Open Scope string_scope.
Open Scope nat_scope.
Open Scope string_scope.

(** Values stored as atom parameters.  lattpy/atom.py:41-48.
    Simplified: numbers are rationals; other Python objects are not modelled. *)
Inductive pyval := VNone | VStr (s : string) | VNum (q : Q).

(** [==] between values.  lattpy/atom.py:94, 148. *)
Definition pyval_eqb (a b : pyval) : bool :=
  match a, b with
  | VNone, VNone => true
  | VStr s, VStr t => String.eqb s t
  | VNum x, VNum y => Qeq_bool x y
  | _, _ => false
  end.

(** Python [dict] with string keys, in insertion order.  lattpy/atom.py:54 ([_params]). *)
Definition pydict := list (string * pyval).

(** [d[key]] ([None] is KeyError).  lattpy/atom.py:106. *)
Fixpoint dict_get (d : pydict) (k : string) : option pyval :=
  match d with
  | [] => None
  | (k', v) :: r => if String.eqb k k' then Some v else dict_get r k
  end.

(** [key in d].  lattpy/atom.py:119, 127. *)
Definition dict_mem (d : pydict) (k : string) : bool :=
  match dict_get d k with Some _ => true | None => false end.

(** [d[key] = v]: in place, or at the end for a new key.  lattpy/atom.py:110, 128. *)
Fixpoint dict_set (d : pydict) (k : string) (v : pyval) : pydict :=
  match d with
  | [] => [(k, v)]
  | (k', v') :: r => if String.eqb k k' then (k', v) :: r else (k', v') :: dict_set r k v
  end.

(** [del d[key]] for a present key.  lattpy/atom.py:114. *)
Fixpoint dict_del (d : pydict) (k : string) : pydict :=
  match d with
  | [] => []
  | (k', v') :: r => if String.eqb k k' then r else (k', v') :: dict_del r k
  end.

(** The slots of an atom.  lattpy/atom.py:39, 50-54.  The weight is a [pyval]. *)
Record atom := mkAtom { a_index : nat; a_name : string; a_weight : pyval; a_params : pydict }.

(** [name or "A"].  lattpy/atom.py:52. *)
Definition default_name (name : option string) : string :=
  match name with
  | None => "A"
  | Some s => if String.eqb s "" then "A" else s
  end.

(** [Atom(name, radius, color, weight, **kwargs)]; [count] is the value of the class counter.
    lattpy/atom.py:41-54.  The keys of [kwargs] are distinct and different from the names of the
    other parameters (Python's calling convention). *)
Definition atom_new (count : nat) (name : option string) (radius color weight : pyval)
  (kwargs : pydict) : atom :=
  mkAtom count (default_name name) weight (("color", color) :: ("radius", radius) :: kwargs).

(** [key.startswith("_")].  lattpy/atom.py:119, 127. *)
Definition starts_underscore (k : string) : bool :=
  match k with String c _ => Ascii.eqb c "_" | EmptyString => false end.

(** [atom[key]] ([None] is KeyError).  lattpy/atom.py:104-106. *)
Definition atom_getitem (a : atom) (k : string) : option pyval := dict_get (a_params a) k.

(** [atom.key]: parameters first, then the properties of the class.  lattpy/atom.py:116-122, 61-74.
    Simplified: methods and missing attributes are [None]. *)
Definition atom_getattr (a : atom) (k : string) : option pyval :=
  if negb (starts_underscore k) && dict_mem (a_params a) k then dict_get (a_params a) k
  else if String.eqb k "name" then Some (VStr (a_name a))
  else if String.eqb k "weight" then Some (a_weight a)
  else if String.eqb k "index" then Some (VNum (inject_Z (Z.of_nat (a_index a))))
  else None.

(** The mutating operations a user can apply.  lattpy/atom.py:108-130. *)
Inductive atom_op :=
| SetItem (k : string) (v : pyval)    (* atom[k] = v    : atom.py:108-110 *)
| SetAttr (k : string) (v : pyval)    (* atom.k = v     : atom.py:124-130 *)
| DelItem (k : string).               (* del atom[k]    : atom.py:112-114 *)

(** Outcome of an operation: whether it raised.  lattpy/atom.py:108-130. *)
Inductive outcome := Done | RaisedKeyError | RaisedAttributeError.

(** One operation.  lattpy/atom.py:108-130.
    [atom.k = v] for a key that is not a parameter goes to the slots: properties have no setter and there
    is no instance dictionary, so it raises AttributeError (the underscore slots themselves are
    private and not modelled). *)
Definition atom_step (a : atom) (op : atom_op) : atom * outcome :=
  match op with
  | SetItem k v =>
    (mkAtom (a_index a) (a_name a) (a_weight a) (dict_set (a_params a) k v), Done)
  | SetAttr k v =>
    if negb (starts_underscore k) && dict_mem (a_params a) k then
      (mkAtom (a_index a) (a_name a) (a_weight a) (dict_set (a_params a) k v), Done)
    else (a, RaisedAttributeError)
  | DelItem k =>
    if dict_mem (a_params a) k then
      (mkAtom (a_index a) (a_name a) (a_weight a) (dict_del (a_params a) k), Done)
    else (a, RaisedKeyError)
  end.

(** A sequence of operations; exceptions are caught by the caller.  lattpy/atom.py:104-130. *)
Definition atom_run (a : atom) (ops : list atom_op) : atom :=
  fold_left (fun s op => fst (atom_step s op)) ops a.

(** [len(atom)].  lattpy/atom.py:96-98. *)
Definition atom_len (a : atom) : nat := List.length (a_params a).

(** [list(atom)].  lattpy/atom.py:100-102. *)
Definition atom_keys (a : atom) : list string := map fst (a_params a).

(** [atom.get(key, default)].  lattpy/atom.py:86-90. *)
Definition atom_get (a : atom) (k : string) (default : pyval) : pyval :=
  match atom_getitem a k with Some v => v | None => default end.

(** [atom.dict()].  lattpy/atom.py:76-80. *)
Definition atom_dict (a : atom) : pydict :=
  fold_left (fun d kv => dict_set d (fst kv) (snd kv)) (a_params a)
    [("index", VNum (inject_Z (Z.of_nat (a_index a)))); ("name", VStr (a_name a))].

(** [a == b] for two atoms: the stored name of the left against the attribute of the right.
    lattpy/atom.py:92-94, 144-146. *)
Definition atom_eq (a b : atom) : bool :=
  match atom_getattr b "name" with
  | Some v => pyval_eqb (VStr (a_name a)) v
  | None => false
  end.

(** [a == s] for a string.  lattpy/atom.py:147-148. *)
Definition atom_eq_str (a : atom) (s : string) : bool := String.eqb (a_name a) s.

(** [hash(a)], for Python's string hash [h].  lattpy/atom.py:132-134. *)
Definition atom_hash (h : string -> Z) (a : atom) : Z := h (a_name a).

(** [a.copy()]; [None] is TypeError.  lattpy/atom.py:82-84.
    The call passes [name] positionally, [weight] by keyword, and all parameters by keyword, so a stored parameter called
    "name", "weight" or "self" is passed twice; a parameter called "copy" hides the method.
    Deleted [color]/[radius] come back with their defaults (None, 0.2).  lattpy/atom.py:44-45. *)
Definition atom_copy (count : nat) (a : atom) : option atom :=
  if dict_mem (a_params a) "copy" then None
  else if dict_mem (a_params a) "name" || dict_mem (a_params a) "weight"
       || dict_mem (a_params a) "self" then None
  else
    let p := a_params a in
    let dflt k v := match dict_get p k with Some x => x | None => v end in
    Some (atom_new count (Some (a_name a)) (dflt "radius" (VNum (1#5)))
            (dflt "color" VNone) (a_weight a)
            (filter (fun kv => negb (String.eqb (fst kv) "radius" || String.eqb (fst kv) "color")) p)).

(** ** Positions by atom *)

(** Python [dict] with atoms as keys, in insertion order; positions have the type [P].  lattpy/structure.py:907. *)
Definition atom_map (P : Type) := list (atom * list P).

(** Look-up of an atom: the first entry with its hash and an equal key.  lattpy/structure.py:913, with [__hash__] and
    [__eq__] of lattpy/atom.py:132-148; the comparison is [stored == atom].  Simplified: the identity of objects, which
    Python tests before [==], is not used; it makes no difference as long as no parameter is called "name". *)
Definition is_key (h : string -> Z) (a k : atom) : bool := Z.eqb (atom_hash h k) (atom_hash h a) && atom_eq k a.

(** [name in d.keys()]: the hash of the string, then [stored == name].  lattpy/structure.py:912, atom.py:147-148.
    [name] is the attribute, so it need not be a string ([hv] is Python's hash of any value). *)
Definition name_in_keys {P} (h : string -> Z) (hv : pyval -> Z) (name : pyval) (d : atom_map P) : bool :=
  existsb (fun e => Z.eqb (atom_hash h (fst e)) (hv name) && pyval_eqb (VStr (a_name (fst e))) name) d.

(** [d[atom].append(pos)]; [None] is KeyError.  lattpy/structure.py:913. *)
Fixpoint append_to {P} (h : string -> Z) (a : atom) (pos : P) (d : atom_map P) : option (atom_map P) :=
  match d with
  | [] => None
  | (k, l) :: r =>
    if is_key h a k then Some ((k, l ++ [pos]) :: r)%list
    else option_map (cons (k, l)) (append_to h a pos r)
  end.

(** [d[atom] = [pos]]: replaces the value of an equal key.  lattpy/structure.py:915. *)
Fixpoint put_new {P} (h : string -> Z) (a : atom) (pos : P) (d : atom_map P) : atom_map P :=
  match d with
  | [] => [(a, [pos])]
  | (k, l) :: r => if is_key h a k then (k, [pos]) :: r else (k, l) :: put_new h a pos r
  end.

(** One turn of the loop.  lattpy/structure.py:908-915.  [pad] is the conversion of the position in line 910;
    [None] is its ValueError (an array of one number beside a number), or the KeyError. *)
Definition atom_dict_step {P} (h : string -> Z) (hv : pyval -> Z) (pad : P -> option P) (d : option (atom_map P)) (ap : atom * P) : option (atom_map P) :=
  match d, pad (snd ap) with
  | Some d, Some pos =>
    match atom_getattr (fst ap) "name" with
    | Some name => if name_in_keys h hv name d then append_to h (fst ap) pos d else Some (put_new h (fst ap) pos d)
    | None => None
    end
  | _, _ => None
  end.

(** [get_base_atom_dict].  lattpy/structure.py:880-916.  In one dimension with [atleast2d], [np.array([pos, 0])] of a
    position array of length one raises ValueError; otherwise positions are stored as they are. *)
Definition get_base_atom_dict {P} (h : string -> Z) (hv : pyval -> Z) (dim : nat) (atleast2d : bool) (atoms : list atom) (positions : list P) : option (atom_map P) :=
  let pad := if atleast2d && Nat.eqb dim 1 then fun _ => None else fun p => Some p in
  fold_left (atom_dict_step h hv pad) (combine atoms positions) (Some []).
