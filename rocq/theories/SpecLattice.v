(** * Specification vocabulary for built lattices *)
From Coq Require Import List ZArith QArith Qabs Bool Arith Sorting.Sorted Permutation.
From Verif Require Import Np SpecUtils SpecBasis SpecSpatial SpecStructure DataModel SpecData.
Import ListNotations.
Open Scope nat_scope.
Open Scope list_scope.

(** The entries of a row that are neighbours. *)
Definition finite_entries (row : list (nat * dist)) : list (nat * dist) :=
  filter (fun e => match snd e with Fin _ => true | Inf => false end) row.

(** Number of neighbours of site [i]. *)
Definition degree (T : list (list (nat * dist))) (i : nat) : nat := length (finite_entries (nth i T [])).

(** A table of neighbours of [N] sites: neighbours are sites, the rest is padding. *)
Definition table_ok (N : nat) (T : list (list (nat * dist))) : Prop :=
  length T = N /\
  forall row e, In row T -> In e row -> (snd e <> Inf -> fst e < N) /\ (snd e = Inf -> fst e = N).

(** Site [i] lists [j] as a neighbour with the distance index [k]. *)
Definition listed (d : data) (i j k : nat) : Prop :=
  i < nsites d /\ exists c, c < d_cols d /\ nb d i c = j /\ di d i c = k /\ k < d_invalid_distidx d.

(** Every component differs by less than [tol]. *)
Definition close (tol : Q) (p q : list Q) : Prop := Forall2 (fun x y => Qabs (x - y) < tol)%Q p q.

(** The first number with a property. *)
Definition first (A : nat -> Prop) (i : nat) : Prop := A i /\ forall k, k < i -> ~ A k.

(** The greatest number with a property. *)
Definition greatest (A : nat -> Prop) (i : nat) : Prop := A i /\ forall k, A k -> k <= i.

(** Every site lists a neighbour once; the neighbour relation is symmetric. *)
Definition once (d : data) : Prop := forall i, i < nsites d -> NoDup (map fst (links d i)).
Definition symmetric (d : data) : Prop := forall i j k, listed d i j k -> listed d j i k.

(** The sites occupy [e] layers of cells along axis [a]. *)
Definition extent (indices : list (list Z)) (a : nat) (e : Z) : Prop :=
  exists lo hi, e = (hi - lo + 1)%Z /\
    (exists i, In i indices /\ nth a i 0%Z = lo) /\ (exists i, In i indices /\ nth a i 0%Z = hi) /\
    forall i, In i indices -> (lo <= nth a i 0 <= hi)%Z.

(** [v] moves the sites by their extent along the given axes. *)
Definition wraps (d : nat) (indices : list (list Z)) (axes : list nat) (v : list Z) : Prop :=
  length v = d /\
  forall a, a < d -> (In a axes -> extent indices a (nth a v 0%Z)) /\ (~ In a axes -> nth a v 0%Z = 0%Z).

(** A basis of orthogonal vectors along the coordinate axes. *)
Definition axis_aligned (d : nat) (V : list (list Q)) : Prop :=
  square d V /\ forall i j, i < d -> j < d -> if i =? j then (0 < entry V i j)%Q else (entry V i j == 0)%Q.

(** Site [i] translated by [n] has the distance [x] from site [j], which is allowed for their atoms. *)
Definition image_sites (d : nat) (V : list (list Q)) (allowed : nat -> nat -> dist -> Prop) (I : list (list Z))
  (P : list (list Q)) (n : list Z) (i j : nat) (x : dist) : Prop :=
  exists p q z, nth_error P i = Some p /\ nth_error P j = Some q /\ x = Fin z /\
    rounds_to_micro (sqdist (lattice_point d V p n) q) z /\
    allowed (Z.to_nat (last (nth i I []) 0%Z)) (Z.to_nat (last (nth j I []) 0%Z)) x.

(** [n] or its negative is one of the translations, belonging to the axes [ax]. *)
Definition translation_of (items : list (list nat * list Z)) (ax : list nat) (n : list Z) : Prop :=
  In (ax, n) items \/ In (ax, map Z.opp n) items.
