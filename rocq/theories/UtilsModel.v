(** * Model of lattpy/utils.py *)
From Coq Require Import String List ZArith QArith Qround Qabs Bool Arith.
From Verif Require Import Np.
Import ListNotations.
Open Scope Z_scope.

(** ** numpy integer types *)

(** The integer dtypes numpy chooses from; [OBJ] is the fallback [dtype('O')].
    lattpy/utils.py:169 ([np.min_scalar_type]). *)
Inductive ndtype := U8 | U16 | U32 | U64 | I8 | I16 | I32 | I64 | OBJ.

(** Is the type signed?  lattpy/utils.py:146 (argument [signed]). *)
Definition dt_signed (t : ndtype) : bool :=
  match t with I8 | I16 | I32 | I64 => true | _ => false end.

(** Width in bits ([OBJ]: counted as 128, wider than every machine type).  lattpy/utils.py:169. *)
Definition dt_bits (t : ndtype) : Z :=
  match t with
  | U8 | I8 => 8 | U16 | I16 => 16 | U32 | I32 => 32 | U64 | I64 => 64 | OBJ => 128
  end.

(** [np.min_scalar_type(z)] for a Python integer.  lattpy/utils.py:169, data.py:622. *)
Definition min_scalar_type (z : Z) : ndtype :=
  if 0 <=? z then
    if z <? 2^8 then U8 else if z <? 2^16 then U16 else if z <? 2^32 then U32
    else if z <? 2^64 then U64 else OBJ
  else
    if -2^7 <=? z then I8 else if -2^15 <=? z then I16 else if -2^31 <=? z then I32
    else if -2^63 <=? z then I64 else OBJ.

(** [np.max] of a non-empty integer array (an empty one raises ValueError, here [None]).
    lattpy/utils.py:162, 164. *)
Fixpoint np_max (a : list Z) : option Z :=
  match a with
  | [] => None
  | x :: xs => match np_max xs with None => Some x | Some m => Some (Z.max x m) end
  end.

(** [np.min], likewise.  lattpy/utils.py:164. *)
Fixpoint np_min (a : list Z) : option Z :=
  match a with
  | [] => None
  | x :: xs => match np_min xs with None => Some x | Some m => Some (Z.min x m) end
  end.

(** [min_dtype].  lattpy/utils.py:143-169.
    Simplified: [a] is a flat list of integers (the callers pass integers only). *)
Definition min_dtype (a : list Z) (signed : bool) : option ndtype :=
  if signed then
    match np_max (map Z.abs a) with
    | None => None
    | Some m => Some (min_scalar_type (- m - 1))
    end
  else
    match np_min a, np_max a with
    | Some amin, Some amax =>
      if amin <? 0 then
        if Z.abs amin <=? amax then Some (min_scalar_type (- amax - 1))
        else Some (min_scalar_type amin)
      else Some (min_scalar_type amax)
    | _, _ => None
    end.

(** Two's complement wrap-around of a value stored in a signed type of [b] bits, as done by
    [np.arange(n, dtype)] inside [np.indices] (spatial.py:157), by [int8] assignment
    (structure.py:600-602, lattice.py:1089) and [astype(np.int8)] (data.py:620). *)
Definition wrap_signed (b z : Z) : Z := (z + 2^(b-1)) mod 2^b - 2^(b-1).

(** Wrap-around in an unsigned type of [b] bits (utils.py:136-139: [uint8] indices). *)
Definition wrap_unsigned (b z : Z) : Z := z mod 2^b.

Open Scope nat_scope.

(** ** Lookup table *)

(** Body of the loop of [create_lookup_table]: [indices[array == x] = i].  lattpy/utils.py:137-139.
    The stored index [i] is reduced modulo 256 because the index array is [uint8]. *)
Definition lookup_step {A} (eqb : A -> A -> bool) (array : list A) (ind : list nat)
  (ix : nat * A) : list nat :=
  let (i, x) := ix in
  assign_mask (map (fun a => eqb a x) array) (i mod 256) ind.

(** [create_lookup_table].  lattpy/utils.py:115-140 with the default [dtype=np.uint8]; [eqb]/[leb] are
    the comparison of array entries.  The array is flat; [create_lookup_table2] handles the
    two-dimensional arrays the library passes. *)
Definition create_lookup_table {A} (leb eqb : A -> A -> bool) (array : list A)
  : list A * list nat :=
  let values := unique leb array in
  let zeros := map (fun _ => 0) array in
  (values, fold_left (lookup_step eqb array) (enumerate values) zeros).

(** Cut a flat array into rows of length [cols] (C order reshape).
    lattpy/utils.py:136 ([np.zeros_like(array)] has the shape of [array]). *)
Fixpoint reshape {A} (rows cols : nat) (l : list A) : list (list A) :=
  match rows with
  | O => []
  | S r => firstn cols l :: reshape r cols (skipn cols l)
  end.

(** [create_lookup_table] on a two-dimensional array with [cols] columns.  lattpy/utils.py:115-140. *)
Definition create_lookup_table2 {A} (leb eqb : A -> A -> bool) (array : list (list A))
  : list A * list (list nat) :=
  let cols := match array with [] => 0 | r :: _ => length r end in
  let (values, ind) := create_lookup_table leb eqb (concat array) in
  (values, reshape (length array) cols ind).

(** ** chain *)

(** [chain].  lattpy/utils.py:172-200; [None] is the IndexError of [items[-1]] on an empty sequence. *)
Definition chain {A} (items : list A) (cycle : bool) : option (list (A * A)) :=
  let n := length items in
  let result :=
    flat_map (fun i =>
      match nth_error items i, nth_error items (i + 1) with
      | Some a, Some b => [(a, b)]
      | _, _ => []
      end) (seq 0 (n - 1)) in
  if cycle then
    match nth_error items (n - 1), nth_error items 0 with
    | Some l, Some f => Some (result ++ [(l, f)])
    | _, _ => None
    end
  else Some result.

(** ** Number formatting *)

(** The loop of [frmt_num] over the prefixes.  lattpy/utils.py:221-225.
    Returns the scaled number and the prefix instead of the assembled string. *)
Fixpoint frmt_num_loop (prefixes : list string) (num div : Q) : Q * string :=
  match prefixes with
  | [] => (num, "Y"%string)
  | p :: ps =>
    if negb (Qle_bool div (Qabs num)) then (num, p)
    else frmt_num_loop ps (num / div)%Q div
  end.

(** The prefix list.  lattpy/utils.py:221. *)
Definition frmt_prefixes : list string :=
  (["" ; "k" ; "M" ; "G" ; "T" ; "P" ; "E" ; "Z"]%string)%list.

(** [frmt_num].  lattpy/utils.py:203-225: (digits, prefix) where digits is the printed number in
    units of 10^-dec (fixed-point formatting rounds half to even on the exact value). *)
Definition frmt_num (num : Q) (dec : nat) (div : Q) : Z * string :=
  let (v, p) := frmt_num_loop frmt_prefixes num div in
  (Qrint (v * inject_Z (10 ^ Z.of_nat dec))%Q, p).

(** [frmt_bytes].  lattpy/utils.py:228-230. *)
Definition frmt_bytes (num : Q) (dec : nat) : Z * string := frmt_num num dec (1024#1).

(** The strings produced by [frmt_time], as the numbers printed in their fields.
    Numbers printed with one decimal are given in tenths.  lattpy/utils.py:249-277. *)
Inductive time_str :=
| TZero                       (* "00:00" *)
| THourMin (h m : Z)          (* "hh:mmh" *)
| TMinSec (m s : Z)           (* "mm:ss" *)
| TMicro (us : Z)             (* "..us" *)
| TMilli (tenths : Z)         (* "..ms" *)
| TSec (tenths : Z)           (* "..s" *)
| TFullMin (m stenths : Z)    (* "m:ss.smin" *)
| TFullHour (h m s : Z).      (* "h:mm:ssh" *)

(** [divmod(x, 60)] on floats: quotient (an integer) and remainder in [0, 60).  lattpy/utils.py:254, 256, 272, 276. *)
Definition divmod60 (x : Q) : Z * Q :=
  let n := Qfloor (x / (60#1)) in (n, (x - inject_Z n * (60#1))%Q).

(** [frmt_time] (without the padding of lines 279-280).  lattpy/utils.py:233-281. *)
Definition frmt_time (seconds : Q) (short : bool) : time_str :=
  if short then
    if negb (Qle_bool seconds 0) then
      let (mins, secs) := divmod60 seconds in
      if (60 <? mins)%Z then
        let (hours, mins') := divmod60 (inject_Z mins) in
        THourMin hours (Qrint mins')
      else TMinSec mins (Qrint secs)
    else TZero
  else
    if negb (Qle_bool (1#1000) seconds) then TMicro (Qrint ((1000000#1) * seconds))
    else if negb (Qle_bool 1 seconds) then TMilli (Qrint ((10#1) * ((1000#1) * seconds)))
    else if negb (Qle_bool (60#1) seconds) then TSec (Qrint ((10#1) * seconds))
    else
      let (mins, secs) := divmod60 seconds in
      if (mins <? 60)%Z then TFullMin mins (Qrint ((10#1) * secs))
      else
        let (hours, mins') := divmod60 (inject_Z mins) in
        TFullHour hours (Qrint mins') (Qrint secs).

(** ** Exceptions *)

(** The library's exception classes.  lattpy/utils.py:74-112. *)
Inductive lib_error :=
| SiteOccupiedError (atom pos : string)
| NoAtomsError
| NotAnalyzedError
| NoConnectionsError
| NotBuiltError.

(** [self.args] after construction.  lattpy/utils.py:75-112. *)
Definition err_args (e : lib_error) : list string :=
  match e with
  | SiteOccupiedError atom pos =>
    [("Can't add " ++ atom ++ " to lattice, position " ++ pos ++ " already occupied!")%string]
  | NoAtomsError =>
    ["lattice doesn't contain any atoms use 'add_atom' to add an 'Atom'-object"%string]
  | NotAnalyzedError =>
    ["lattice not analyzed";
     "call 'analyze' after adding atoms and connections or use the 'analyze' keyword of 'add_connection'"]%string
  | NoConnectionsError =>
    ["base neighbors not configured";
     "call 'add_connection' after adding atoms or use the 'neighbors' keyword of 'add_atom'"]%string
  | NotBuiltError =>
    ["lattice has not been built";
     "use the 'build' method to construct a finite size lattice model"]%string
  end.

(** [ConfigurationError.__str__]: unpacking [msg, hint = self.args] raises ValueError ([None]) unless
    there are exactly two arguments.  lattpy/utils.py:67-71. *)
Definition err_str (e : lib_error) : option string :=
  match err_args e with
  | [msg; hint] =>
    Some (if String.eqb hint "" then msg else msg ++ " (" ++ hint ++ ")")%string
  | _ => None
  end.

(** [ConfigurationError.msg].  lattpy/utils.py:60-61. *)
Definition err_msg (e : lib_error) : option string := nth_error (err_args e) 0.

(** [ConfigurationError.hint]; IndexError is [None].  lattpy/utils.py:64-65. *)
Definition err_hint (e : lib_error) : option string := nth_error (err_args e) 1.
