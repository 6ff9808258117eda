(** * Specification vocabulary for the lattice data: what the tables mean.

    Only the record of the model is used, none of its operations. *)
From Coq Require Import List ZArith QArith Bool Arith Permutation Sorting.Sorted.
From Verif Require Import Np LinAlg SpecUtils DataModel.
Import ListNotations.
Open Scope nat_scope.

(** A table with [n] rows of length [m]. *)
Definition rect {A} (n m : nat) (t : list (list A)) : Prop := length t = n /\ forall r, In r t -> length r = m.

(** Entry of a table. *)
Definition cell {A} (x : A) (t : list (list A)) (i c : nat) : A := nth c (nth i t []) x.

Definition nb (d : data) i c : nat := cell 0 (d_neighbors d) i c.
Definition di (d : data) i c : nat := cell 0 (d_distances d) i c.
Definition pm (d : data) i c : bool := cell false (d_pmask d) i c.

(** The slot [c] of site [i] holds a neighbour (and is not padding). *)
Definition valid (d : data) i c : bool := di d i c <? d_invalid_distidx d.

Definition valid_slots (d : data) i : list nat := filter (valid d i) (seq 0 (d_cols d)).

(** What the data says about site [i]: the list of neighbours with their distance... *)
Definition link_at (d : data) i c : nat * dist := (nb d i c, nth (di d i c) (d_distvals d) Inf).
Definition links (d : data) i : list (nat * dist) := map (link_at d i) (valid_slots d i).

(** ... and together with the periodic data. *)
Record slot := mkSlot { s_nbr : nat; s_dist : dist; s_per : bool; s_nvec : list Z; s_axes : list nat }.

Definition slot_at (d : data) i c : slot :=
  mkSlot (nb d i c) (nth (di d i c) (d_distvals d) Inf) (pm d i c)
    (cell [] (d_pnvecs d) i c) (cell [] (d_paxes d) i c).

Definition slots (d : data) i : list slot := map (slot_at d i) (valid_slots d i).

(** Number of sites. *)
Definition nsites (d : data) : nat := length (d_indices d).

(** Well-formed site, neighbour and distance tables. *)
Record wf_core (d : data) : Prop := {
  wf_indices : rect (nsites d) (S (d_dim d)) (d_indices d);
  wf_positions : rect (nsites d) (d_dim d) (d_positions d);
  wf_neighbors : rect (nsites d) (d_cols d) (d_neighbors d);
  wf_distances : rect (nsites d) (d_cols d) (d_distances d);
  wf_invalid_idx : d_invalid_idx d = nsites d;
  wf_distvals : increasing dleb (d_distvals d);
  wf_invalid : nth_error (d_distvals d) (d_invalid_distidx d) = Some Inf;
  wf_di : forall i c, i < nsites d -> c < d_cols d -> di d i c < length (d_distvals d);
  wf_nb : forall i c, i < nsites d -> c < d_cols d -> valid d i c = true -> nb d i c < nsites d }.

(** Well-formed periodic tables as well. *)
Record wf (d : data) : Prop := {
  wf_c :> wf_core d;
  wf_pmask : rect (nsites d) (d_cols d) (d_pmask d);
  wf_pnvecs : rect (nsites d) (d_cols d) (d_pnvecs d);
  wf_paxes : rect (nsites d) (d_cols d) (d_paxes d);
  wf_nvec : forall i c, i < nsites d -> c < d_cols d -> length (cell [] (d_pnvecs d) i c) = d_dim d;
  wf_ax : forall i c, i < nsites d -> c < d_cols d -> length (cell [] (d_paxes d) i c) = d_dim d;
  wf_pm : forall i c, i < nsites d -> c < d_cols d -> pm d i c = true -> valid d i c = true }.

(** Padding slots hold the number of sites. *)
Definition padded (d : data) : Prop :=
  forall i c, i < nsites d -> c < d_cols d -> valid d i c = false -> nb d i c = nsites d.

(** Links of the regular neighbours. *)
Definition regular_links (d : data) i : list (nat * dist) :=
  map (fun s => (s_nbr s, s_dist s)) (filter (fun s => negb (s_per s)) (slots d i)).

(** The slots of site [i] are packed: first the valid ones, then the padding. *)
Definition packed_row (d : data) i : Prop :=
  exists m, m <= d_cols d /\ forall c, c < d_cols d -> valid d i c = (c <? m).
Definition packed (d : data) : Prop := forall i, i < nsites d -> packed_row d i.

(** Regular neighbours first, then periodic ones, then padding. *)
Definition layered_row (d : data) i : Prop :=
  exists r m, r <= m /\ m <= d_cols d /\
    forall c, c < d_cols d -> valid d i c = (c <? m) /\ pm d i c = (r <=? c) && (c <? m).
Definition layered (d : data) : Prop := forall i, i < nsites d -> layered_row d i.

(** [p] sorts [keys]: what [np.argsort] guarantees (ties in any order). *)
Definition sorts {A} (leb : A -> A -> bool) (keys : list A) (p : list nat) : Prop :=
  Permutation p (seq 0 (length keys)) /\
  forall x, StronglySorted (fun i j => leb (nth i keys x) (nth j keys x) = true) p.

Definition is_argsort {A} (leb : A -> A -> bool) (argsort : list A -> list nat) : Prop :=
  forall keys, sorts leb keys (argsort keys).
