(** * Specification vocabulary: waves on a periodic block of cells *)
From Coq Require Import List ZArith QArith Qreals Reals.
From Verif Require Import Np LinAlg SpecUtils SpecBasis SpecSpatial SpecStructure SpecNeighbors DataModel SpecData SpecJoin SpecBlock RealModel MatrixModel.
Import ListNotations.
Open Scope nat_scope.

(** Product, zero and sums of complex numbers. *)
Definition cmul (x y : cplx) : cplx := (fst x * fst y - snd x * snd y, fst x * snd y + snd x * fst y)%R.
Definition c0 : cplx := (0, 0)%R.
Fixpoint csum (l : list cplx) : cplx := match l with [] => c0 | x :: xs => cadd x (csum xs) end.

(** Element [i] of the product of the matrix and the vector [psi]. *)
Definition row_product (M : matrix cplx) (psi : nat -> cplx) (i : nat) : cplx :=
  csum (map (fun j => cmul (m_entry M i j) (psi j)) (seq 0 (m_cols M))).

(** A point with real coordinates. *)
Definition rpoint (p : list Q) : list R := map Q2R p.

(** The plane wave exp(i q.p) at the point [p]. *)
Definition wave (q : list R) (p : list Q) : cplx := cexp_i (rdot q (rpoint p)).

Section Waves.
  (** Dimension, lattice vectors (the columns), atoms, numbers of cells. *)
  Variables (d : nat) (V A : list (list Q)) (L : list Z).

  (** The lattice vector [k]. *)
  Definition lattice_column (k : nat) : list Q := map (fun j => entry V j k) (seq 0 d).

  (** The wave vector fits the block: over the block, it turns by whole turns along every axis. *)
  Definition fitting_wave (q : list R) : Prop :=
    length q = d /\ forall k, k < d -> exists z, (IZR (nth k L 0%Z) * rdot q (rpoint (lattice_column k)) = 2 * PI * IZR z)%R.

  (** The vector from atom [a] of the cell 0 to atom [b] of the cell [m]. *)
  Definition bond_vector (a b : nat) (m : list Z) : list Q :=
    map (fun j => (nth j (lattice_point d V (nth b A []) m) 0 - nth j (nth a A []) 0)%Q) (seq 0 d).
End Waves.

(** [dt] describes all atoms of a block of cells at the points of the lattice, with all axes periodic; the bonds are
    shorter than half of the block. *)
Record full_torus (d : nat) (V A : list (list Q)) (allowed : nat -> nat -> dist -> Prop) (o L : list Z) (axes : list nat)
  (dt : data) : Prop := {
  ft_torus : torus_block d V A allowed L axes dt;
  ft_axes : forall k, k < d -> In k axes;
  ft_cells : forall k, k < d -> (1 <= nth k L 0)%Z;
  ft_once : NoDup (d_indices dt);
  ft_sites : forall s, In s (d_indices dt) <->
    exists n a, s = n ++ [Z.of_nat a] /\ length n = d /\ box d o L n /\ a < length A;
  ft_atoms : forall r, In r A -> length r = d;
  ft_positions : forall i, i < nsites dt ->
    same (nth i (d_positions dt) []) (lattice_point d V (nth (atom_of (d_indices dt) i) A []) (nth i (d_indices dt) []));
  ft_short : forall a b m x, bond d V A allowed a b m x -> short L axes m }.
