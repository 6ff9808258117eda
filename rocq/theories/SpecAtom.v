(** * Specification vocabulary for atoms: what a history of assignments means. *)
From Coq Require Import String List Bool.
From Verif Require Import AtomModel.
Import ListNotations.

(** The value a reader expects under [q] after a history (most recent operation first), when the
    atom started with [init]: item assignment sets, deletion clears, attribute assignment changes a
    public key that exists at that moment. *)
Fixpoint replay (init : string -> option pyval) (hist : list atom_op) (q : string)
  : option pyval :=
  match hist with
  | [] => init q
  | SetItem k v :: older => if string_dec q k then Some v else replay init older q
  | DelItem k :: older => if string_dec q k then None else replay init older q
  | SetAttr k v :: older =>
    if string_dec q k then
      match prefix "_" k, replay init older k with
      | false, Some _ => Some v
      | _, old => old
      end
    else replay init older q
  end.

(** [hist] leaves the key [q] alone. *)
Definition untouched (q : string) (ops : list atom_op) : Prop :=
  Forall (fun op => match op with SetItem k _ | SetAttr k _ | DelItem k => k <> q end) ops.

(** The constructor arguments are acceptable to Python: keyword names distinct and not bound
    already. *)
Definition good_kwargs (kw : list (string * pyval)) : Prop :=
  NoDup (map fst kw) /\
  forall k, In k (map fst kw) -> ~ In k ["self"; "name"; "radius"; "color"; "weight"]%string.
