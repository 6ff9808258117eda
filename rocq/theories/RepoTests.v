(** * The expectations of the project's own tests (lattpy/tests), evaluated in the model

    No property rests on this file.  It is evidence that the model computes what the authors of lattpy expect of the
    code: every example states the result that the cited test asserts, for the inputs of that test.  [brute] is the
    search tree that sorts all points, [brute_ball] its search in a ball, [dist_argsort] and [nat_argsort] are stable
    sorts and [keep] converts nothing.  Lists are sorted before they are compared where the test sorts them or compares
    them as sets.  The longer evaluations are done when the file is compiled and leave no proof behind (the [Check]s). *)
From Coq Require Import String List ZArith QArith Bool Arith.
From Verif Require Import Np LinAlg AtomModel BasisModel SpatialModel ShapeModel UtilsModel StructureModel DataModel KDBrute
  StructureProofs StructureFacts PropData PropStructure LatticeModel PresetModel PropPrimitive PropDataMap PropRepeat VoronoiModel MatrixModel.
Import ListNotations.
Open Scope nat_scope.
Open Scope list_scope.

(** ** Helpers *)

Definition no_structure : structure := new_structure (mkBasis [] []).
Definition no_data : data := mkData 0 0 [] [] [] [] [] [] [] [] 0 0 None.
Definition got (x : result structure) : structure := match x with Ok s => s | Raise _ => no_structure end.
Definition have (x : option lattice) : lattice := match x with Some l => l | None => new_lattice no_structure end.
Definition data_of (l : lattice) : data := match lt_data l with Some d => d | None => no_data end.

Definition atomA := ex_atom "A".
Definition atomB := ex_atom "B".

(** [latt.build(size, pos=pos, primitive=primitive)]. *)
Definition built_at (s : structure) (norms : vec) (size : vec) (primitive : bool) (pos : option vec) : lattice :=
  fst (build brute dist_argsort norms (new_lattice s) (ASize size) primitive pos true None None None).
Definition built (s : structure) (norms : vec) (size : vec) : lattice := built_at s norms size false None.

(** [latt.set_periodic(axes)]. *)
Definition periodic (l : lattice) (axes : list nat) : lattice := fst (set_periodic brute dist_argsort l (AxList axes)).

Definition sorted (l : list nat) : list nat := map (fun i => nth i l 0) (nat_argsort l).
Definition nearest (l : lattice) (site : nat) : option (list nat) := option_map sorted (neighbors l site (Some 0) false).
Definition nbs (l : lattice) (site : nat) (distidx : option nat) : option (list nat) := option_map sorted (neighbors l site distidx false).
Definition red (l : list vec) : list vec := map (map Qred) l.

(** [lp.simple_chain(neighbors=n)], [lp.simple_square(neighbors=n)], [lp.simple_cubic(neighbors=n)]. *)
Definition chain (n : nat) : structure := got (simple_chain brute diagonal_inverse 1 atomA n).
Definition square (n : nat) : structure := got (simple_square brute diagonal_inverse 1 atomA n).
Definition cubic (n : nat) : structure := got (simple_cubic brute diagonal_inverse 1 atomA n).
Definition chain_of (n : nat) (size : Q) : lattice := built (chain n) [1]%Q [size].
Definition square_of (n : nat) (a b : Q) : lattice := built (square n) [1; 1]%Q [a; b].
Definition cubic_of (n : nat) (a : Q) : lattice := built (cubic n) [1; 1; 1]%Q [a; a; a].

(** ** tests/test_lattice.py: ready-made lattices *)

(** lattpy/tests/test_lattice.py:862-897. *)
Example test_simple_chain :
  let l := chain_of 1 3 in
  lt_num_sites l = 4 /\ red (lt_positions l) = [[0]; [1]; [2]; [3]]%Q /\
  nearest l 0 = Some [1] /\ nearest l 1 = Some [0; 2] /\ nearest (periodic l [0]) 0 = Some [1; 3] /\
  let m := chain_of 2 6 in nbs m 1 None = Some [0; 2; 3] /\ nbs m 2 None = Some [0; 1; 3; 4].
Proof. vm_compute. repeat split. Qed.

(** lattpy/tests/test_lattice.py:901-933. *)
Example test_simple_square :
  let l := square_of 1 2 2 in
  lt_num_sites l = 9 /\ nearest l 4 = Some [1; 3; 5; 7] /\
  nearest (periodic l [0]) 0 = Some [1; 3; 6] /\ nearest (periodic l [0]) 1 = Some [0; 2; 4; 7] /\
  nearest (periodic (periodic l [0]) [1]) 0 = Some [1; 2; 3] /\
  nbs (square_of 2 2 2) 4 (Some 1) = Some [0; 2; 6; 8].
Proof. vm_compute. repeat split. Qed.

(** lattpy/tests/test_lattice.py:937-984. *)
Definition test_simple_cubic : Prop :=
  let l := cubic_of 1 2 in
  lt_num_sites l = 27 /\ nearest l 13 = Some [4; 10; 12; 14; 16; 22] /\ nearest l 0 = Some [1; 3; 9] /\
  let p0 := periodic l [0] in let p1 := periodic p0 [1] in let p2 := periodic p1 [2] in
  let p01 := periodic p2 [0; 1] in let p12 := periodic p01 [1; 2] in
  nearest p0 0 = Some [1; 3; 9; 18] /\ nearest p1 0 = Some [1; 3; 6; 9] /\ nearest p2 0 = Some [1; 2; 3; 9] /\
  nearest p01 0 = Some [1; 3; 6; 9; 18] /\ nearest p12 0 = Some [1; 2; 3; 6; 9] /\
  nbs (cubic_of 2 2) 13 (Some 1) = Some [1; 3; 5; 7; 9; 11; 15; 17; 19; 21; 23; 25].
Check (ltac:(vm_compute; repeat split) : test_simple_cubic).

(** ** tests/test_lattice.py: periodic lattices *)

Definition square25 (n : nat) : lattice := square_of n 4 4.

(** lattpy/tests/test_lattice.py:582-610.  The helper of the tests compares the numbers of elements only; the lists
    [1; 5; 20; 24] for site 0 and [3; 9; 20; 24] for site 4 in the last block pass although the sites differ. *)
Example test_periodic_nearest :
  let c := periodic (chain_of 1 9) [0] in nearest c 0 = Some [1; 9] /\
  let l := square25 1 in
  let p := periodic l [0] in let q := periodic p [1] in let r := periodic q [0; 1] in
  map (nearest p) (seq 0 5) = [Some [1; 5; 20]; Some [0; 2; 6; 21]; Some [1; 3; 7; 22]; Some [2; 4; 8; 23]; Some [3; 9; 24]] /\
  map (nearest q) [0; 5; 10; 15; 20] =
    [Some [1; 4; 5]; Some [0; 6; 9; 10]; Some [5; 11; 14; 15]; Some [10; 16; 19; 20]; Some [15; 21; 24]] /\
  map (nearest r) [0; 4; 20; 24] = [Some [1; 4; 5; 20]; Some [0; 3; 9; 24]; Some [0; 15; 21; 24]; Some [4; 19; 20; 23]].
Proof. vm_compute. repeat split. Qed.

(** lattpy/tests/test_lattice.py:630-655.  The list [0; 3; 15; 18] of the test for site 23 passes because only the
    numbers of elements are compared. *)
Example test_periodic_next_nearest :
  nbs (periodic (chain_of 2 9) [0]) 0 (Some 1) = Some [2; 8] /\
  let l := square25 2 in
  let p := periodic l [0] in let q := periodic p [1] in let r := periodic q [0; 1] in
  map (fun i => nbs p i (Some 1)) (seq 0 5) = [Some [6; 21]; Some [5; 7; 20; 22]; Some [6; 8; 21; 23]; Some [7; 9; 22; 24]; Some [8; 23]] /\
  map (fun i => nbs q i (Some 1)) [0; 5; 10; 15; 20] =
    [Some [6; 9]; Some [1; 4; 11; 14]; Some [6; 9; 16; 19]; Some [11; 14; 21; 24]; Some [16; 19]] /\
  map (fun i => nbs r i (Some 1)) [0; 4; 20; 23] = [Some [6; 9; 21; 24]; Some [5; 8; 20; 23]; Some [1; 4; 16; 19]; Some [2; 4; 17; 19]].
Proof. vm_compute. repeat split. Qed.

(** lattpy/tests/test_lattice.py:658-664: two neighbours each. *)
Example test_periodic_small :
  let l := fst (set_periodic brute dist_argsort (built_at (square 1) [1; 1]%Q [2; 2]%Q true None) (AxBool true)) in
  nbs l 0 None = Some [1; 2] /\ nbs l 1 None = Some [0; 3].
Proof. vm_compute. repeat split. Qed.

(** lattpy/tests/test_lattice.py:667-670. *)
Example test_periodic_notbuilt :
  snd (set_periodic brute dist_argsort (new_lattice (square 1)) (AxBool true)) = Raise NotBuiltError.
Proof. reflexivity. Qed.

(** lattpy/tests/test_lattice.py:673-678. *)
Example test_remove_periodic :
  nbs (fst (set_periodic brute dist_argsort (periodic (chain_of 1 9) [0]) AxNone)) 0 None = Some [1].
Proof. vm_compute. reflexivity. Qed.

(** ** tests/test_lattice.py: minimum distances *)

(** The squares of the minimum distances. *)
Definition min2 (l : lattice) (site : nat) : option vec := option_map (map Qred) (minimum_distances2 l site).

(** lattpy/tests/test_lattice.py:681-694. *)
Example test_minimum_distances_chain :
  let l := chain_of 1 4 in let p := periodic l [0] in
  map (min2 l) (seq 0 5) =
    [Some [0; 1; 4; 9; 16]; Some [1; 0; 1; 4; 9]; Some [4; 1; 0; 1; 4]; Some [9; 4; 1; 0; 1]; Some [16; 9; 4; 1; 0]]%Q /\
  map (min2 p) (seq 0 5) =
    [Some [0; 1; 4; 4; 1]; Some [1; 0; 1; 4; 4]; Some [4; 1; 0; 1; 4]; Some [4; 4; 1; 0; 1]; Some [1; 4; 4; 1; 0]]%Q.
Proof. vm_compute. repeat split. Qed.

(** lattpy/tests/test_lattice.py:697-735. *)
Example test_minimum_distances_square :
  let l := square_of 1 2 2 in let p := periodic l [0] in
  map (min2 l) [0; 2; 4; 8] =
    [Some [0; 1; 4; 1; 2; 5; 4; 5; 8]; Some [4; 1; 0; 5; 2; 1; 8; 5; 4]; Some [2; 1; 2; 1; 0; 1; 2; 1; 2];
     Some [8; 5; 4; 5; 2; 1; 4; 1; 0]]%Q /\
  map (min2 p) [0; 2; 4; 6; 8] =
    [Some [0; 1; 4; 1; 2; 5; 1; 2; 5]; Some [4; 1; 0; 5; 2; 1; 5; 2; 1]; Some [2; 1; 2; 1; 0; 1; 2; 1; 2];
     Some [1; 2; 5; 1; 2; 5; 0; 1; 4]; Some [5; 2; 1; 5; 2; 1; 4; 1; 0]]%Q /\
  min2 l 6 = Some [4; 5; 8; 1; 2; 5; 0; 1; 4]%Q.
Proof. vm_compute. repeat split. Qed.

(** ** tests/test_lattice.py: joining lattices *)

(** lattpy/tests/test_lattice.py:738-750. *)
Example test_append :
  map (nearest (have (append_lattice brute_ball dist_argsort keep (square25 1) (square25 1) 0 1 None false))) (seq 20 5) =
    [Some [15; 21; 25]; Some [16; 20; 22; 26]; Some [17; 21; 23; 27]; Some [18; 22; 24; 28]; Some [19; 23; 29]].
Proof. vm_compute. reflexivity. Qed.

Definition shape_of (l : lattice) : option vec := option_map (map Qred) (lt_shape l).

(** lattpy/tests/test_lattice.py:753-769. *)
Example test_extend :
  lt_num_sites (have (extend brute brute_ball dist_argsort [1]%Q keep (chain_of 1 4) 2 0 1 None false)) = 8 /\
  shape_of (have (extend brute brute_ball dist_argsort [1; 1]%Q keep (square25 1) 2 0 1 None false)) = Some [7; 4]%Q /\
  shape_of (have (extend brute brute_ball dist_argsort [1; 1]%Q keep (square25 1) 2 1 1 None false)) = Some [4; 7]%Q.
Proof. vm_compute. repeat split. Qed.

(** lattpy/tests/test_lattice.py:772-787. *)
Example test_repeat :
  lt_num_sites (have (repeat_lattice brute_ball dist_argsort [keep] (chain_of 1 4) 0 1 None false)) = 10 /\
  shape_of (have (repeat_lattice brute_ball dist_argsort [keep] (square25 1) 0 1 None false)) = Some [9; 4]%Q /\
  shape_of (have (repeat_lattice brute_ball dist_argsort [keep] (square25 1) 1 1 None false)) = Some [4; 9]%Q.
Proof. vm_compute. repeat split. Qed.

(** lattpy/tests/test_lattice.py:558-579. *)
Example test_compute_connections :
  let l := square25 1 in
  let m := built_at (square 1) [1; 1]%Q [4; 4]%Q false (Some [5; 0]%Q) in
  let n := built_at (square 1) [1; 1]%Q [4; 4]%Q false (Some [5; 1]%Q) in
  let pairs o := match st_analysis (lt_structure l) with
                 | Some an => option_map (map (fun p => (fst p, Qred (snd p)))) (connection_neighbors brute_ball an (lt_positions l) (lt_positions o))
                 | None => None
                 end in
  pairs m = Some [(20, 0, 1%Q); (21, 1, 1%Q); (22, 2, 1%Q); (23, 3, 1%Q); (24, 4, 1%Q)] /\
  pairs n = Some [(21, 0, 1%Q); (22, 1, 1%Q); (23, 2, 1%Q); (24, 3, 1%Q)].
Proof. vm_compute. repeat split. Qed.

(** ** tests/test_lattice.py: sites *)

(** [Lattice(np.eye(2))] with the atoms A at (0, 0) and B at (0.5, 0.5), and connections A-A and A-B. *)
Definition eye2 : basis := hypercubic diagonal_inverse 2 1.
Definition two : structure :=
  run_calls brute eye2
    [CAddAtom (Some [0; 0]%Q) atomA false 0; CAddAtom (Some [1#2; 1#2]%Q) atomB false 0;
     CAddConnection (RName "A") (RName "A") 1 false; CAddConnection (RName "A") (RName "B") 1 false; CAnalyze].
Definition two_built : lattice := built two [1; 1]%Q [4; 4]%Q.

(** lattpy/tests/test_lattice.py:380-385. *)
Example test_volume : option_map Qred (volume (square25 1)) = Some 25%Q.
Proof. vm_compute. reflexivity. Qed.

(** lattpy/tests/test_lattice.py:388-432. *)
Example test_alpha_atom_position :
  let l := two_built in
  map (lt_alpha l) (seq 0 4) = [Some 0; Some 1; Some 0; Some 1]%Z /\
  map (lt_atom l) (seq 0 4) = [Some atomA; Some atomB; Some atomA; Some atomB] /\
  red (firstn 4 (lt_positions l)) = [[0; 0]; [1#2; 1#2]; [0; 1]; [1#2; 3#2]]%Q.
Proof. vm_compute. repeat split. Qed.

Definition qv (x : option vec) : option vec := option_map (map Qred) x.

(** lattpy/tests/test_lattice.py:435-456. *)
Definition test_center : Prop :=
  map (fun l => qv (LatticeModel.center l)) [square_of 1 10 10; square_of 1 3 3; square_of 1 6 3] =
    [Some [5; 5]; Some [3#2; 3#2]; Some [3; 3#2]]%Q /\
  map (fun l => qv (center_of_gravity l)) [square_of 1 10 10; square_of 1 3 3; square_of 1 6 3] =
    [Some [5; 5]; Some [3#2; 3#2]; Some [3; 3#2]]%Q.
Check (ltac:(vm_compute; repeat split) : test_center).

(** lattpy/tests/test_lattice.py:459-477. *)
Example test_superindex :
  let l := square25 1 in
  map (fun p => superindex_from_pos l p (1#10000)) (lt_positions l) = map (@Some nat) (seq 0 25) /\
  map (superindex_from_index l) (lt_indices l) = map (@Some nat) (seq 0 25).
Proof. vm_compute. repeat split. Qed.

(** lattpy/tests/test_lattice.py:497-503. *)
Definition test_build_min_neighbors : Prop :=
  let l := fst (build brute dist_argsort [1; 1]%Q (new_lattice (square 1)) (AShape (SCircle [0; 0]%Q 5)) false None true (Some 2) None None) in
  map (fun p => (Qred (fst p), Qred (snd p))) (get_limits (data_of l)) = [(-4, 4); (-4, 4)]%Q.
Check (ltac:(vm_compute; reflexivity) : test_build_min_neighbors).

(** lattpy/tests/test_lattice.py:506-519. *)
Example test_build_exceptions :
  let try s size := snd (build brute dist_argsort [1; 1]%Q (new_lattice s) (ASize size) false None true None None None) in
  let one := run_calls brute eye2 [CAddAtom None atomA false 0] in
  let connected := run_calls brute eye2 [CAddAtom None atomA false 0; CAddConnections 1 false] in
  let analyzed := run_calls brute eye2 [CAddAtom None atomA false 0; CAddConnections 1 false; CAnalyze] in
  try one [5; 5]%Q = Raise NoConnectionsError /\ try connected [5; 5]%Q = Raise NotAnalyzedError /\
  try analyzed [5; 5; 5]%Q = Raise ValueError.
Proof. vm_compute. repeat split. Qed.

(** ** tests/test_structure.py (and the same tests in test_lattice.py) *)

(** lattpy/tests/test_structure.py:24-34. *)
Example test_add_atom :
  Forall (fun dim =>
    let b := hypercubic diagonal_inverse dim 1 in
    let (s, r) := add_atom brute (new_structure b) None atomA false 0 in
    r = Ok tt /\ st_positions s = [repeat 0%Q dim] /\
    snd (add_atom brute s None atomA false 0) = Raise SiteOccupiedError /\
    snd (add_atom brute s (Some [0; 0; 0; 0]%Q) atomA false 0) = Raise ValueError) [1; 2; 3].
Proof. repeat constructor. Qed.

(** lattpy/tests/test_structure.py:37-62. *)
Example test_get_alpha :
  let s := run_calls brute eye2 [CAddAtom (Some [0; 0]%Q) atomA false 0; CAddAtom (Some [1#2; 1#2]%Q) atomB false 0] in
  let t := run_calls brute eye2 [CAddAtom (Some [0; 0]%Q) atomA false 0; CAddAtom (Some [1#2; 1#2]%Q) atomA false 0] in
  get_alpha s (RName "A") = Ok (Many [0]%Z) /\ get_alpha s (RAtom atomA) = Ok (One 0%Z) /\
  get_alpha s (RName "B") = Ok (Many [1]%Z) /\ get_alpha s (RAtom atomB) = Ok (One 1%Z) /\
  get_alpha t (RName "A") = Ok (Many [0; 1]%Z) /\
  get_atom s (RName "A") = Ok atomA /\ get_atom s (RIndex 0) = Ok atomA /\
  get_atom s (RName "B") = Ok atomB /\ get_atom s (RIndex 1) = Ok atomB.
Proof. vm_compute. repeat split. Qed.

(** lattpy/tests/test_structure.py:65-78. *)
Example test_add_connection :
  let atoms alpha distidx := match StructureModel.get_neighbors two [0; 0]%Z alpha distidx with
                             | Ok l => map site_atom l | Raise _ => [] end in
  atoms 0 0 = [1; 1; 1; 1] /\ atoms 0 1 = [0; 0; 0; 0] /\ atoms 1 0 = [0; 0; 0; 0].
Proof. vm_compute. repeat split. Qed.

(** lattpy/tests/test_structure.py:81-88. *)
Example test_analyze_exceptions :
  snd (analyze brute (new_structure eye2)) = Raise NoAtomsError /\
  snd (analyze brute (run_calls brute eye2 [CAddAtom None atomA false 0])) = Raise NoConnectionsError.
Proof. vm_compute. repeat split. Qed.

(** lattpy/tests/test_structure.py:116-144. *)
Example test_estimate_index :
  let rect := new_structure (rectangular diagonal_inverse 2 1) in
  map (estimate_index (new_structure eye2)) [[2; 0]; [0; 2]; [1; 2]]%Q = [[2; 0]; [0; 2]; [1; 2]]%Z /\
  map (estimate_index rect) [[2; 0]; [0; 2]; [2; 1]]%Q = [[1; 0]; [0; 2]; [1; 1]]%Z.
Proof. vm_compute. repeat split. Qed.

Definition same_elements {T} (eqb : T -> T -> bool) (l m : list T) : bool :=
  (length l =? length m) && forallb (fun x => existsb (eqb x) m) l && forallb (fun x => existsb (eqb x) l) m.
Definition sites_are (r : result (list site)) (l : list site) : bool :=
  match r with Ok s => same_elements (fun a b => if list_eq_dec Z.eq_dec a b then true else false) s l | Raise _ => false end.
Definition vectors_are (r : result (list vec)) (l : list vec) : bool :=
  match r with Ok s => same_elements veqb s l | Raise _ => false end.

(** lattpy/tests/test_structure.py:147-223. *)
Example test_get_neighbors :
  sites_are (StructureModel.get_neighbors (chain 2) [0]%Z 0 0) [[1; 0]; [-1; 0]]%Z = true /\
  sites_are (StructureModel.get_neighbors (chain 2) [0]%Z 0 1) [[-2; 0]; [2; 0]]%Z = true /\
  sites_are (StructureModel.get_neighbors (square 2) [0; 0]%Z 0 0) [[1; 0; 0]; [0; -1; 0]; [0; 1; 0]; [-1; 0; 0]]%Z = true /\
  sites_are (StructureModel.get_neighbors (square 2) [0; 0]%Z 0 1) [[1; -1; 0]; [-1; -1; 0]; [-1; 1; 0]; [1; 1; 0]]%Z = true /\
  vectors_are (get_neighbor_positions (chain 2) [0]%Z 0 0) [[1]; [-1]]%Q = true /\
  vectors_are (get_neighbor_positions (chain 2) [0]%Z 0 1) [[-2]; [2]]%Q = true /\
  vectors_are (get_neighbor_positions (square 2) [0; 0]%Z 0 0) [[1; 0]; [0; -1]; [0; 1]; [-1; 0]]%Q = true /\
  vectors_are (get_neighbor_positions (square 2) [0; 0]%Z 0 1) [[1; -1]; [-1; -1]; [-1; 1]; [1; 1]]%Q = true /\
  vectors_are (get_neighbor_vectors (chain 2) 0 0 false) [[1]; [-1]]%Q = true /\
  vectors_are (get_neighbor_vectors (chain 2) 0 1 false) [[-2]; [2]]%Q = true /\
  vectors_are (get_neighbor_vectors (square 2) 0 0 false) [[1; 0]; [0; -1]; [0; 1]; [-1; 0]]%Q = true /\
  vectors_are (get_neighbor_vectors (square 2) 0 1 false) [[1; -1]; [-1; -1]; [-1; 1]; [1; 1]]%Q = true.
Proof. vm_compute. repeat split. Qed.

(** lattpy/tests/test_structure.py:226-235.  The hash of a name does not matter if the names are different; here it is
    the length of the name plus the code of its first character. *)
Definition some_hash (s : string) : Z :=
  match s with EmptyString => 0 | String a _ => Z.of_nat (Ascii.nat_of_ascii a + String.length s) end%Z.
Example test_get_base_atom_dict :
  match get_base_atom_dict some_hash (fun v => match v with VStr s => some_hash s | _ => 0%Z end) 2 true [atomA; atomB; atomB] [[0; 0]; [1#2; 0]; [1#2; 1#2]]%Q with
  | Some d => d = [(atomA, [[0; 0]]); (atomB, [[1#2; 0]; [1#2; 1#2]])]%Q
  | None => False
  end.
Proof. vm_compute. reflexivity. Qed.

(** ** tests/test_data.py *)

(** lattpy/tests/test_data.py:49-53. *)
Example test_num_distances :
  num_distances (data_of (chain_of 1 10)) = 2 /\ num_distances (data_of (square_of 1 5 5)) = 2.
Proof. vm_compute. repeat split. Qed.

(** lattpy/tests/test_data.py:56-60. *)
Example test_copy :
  option_map num_sites (remove (data_of (chain_of 1 10)) [0]) = Some 10 /\
  option_map num_sites (remove (data_of (square_of 1 5 5)) [0]) = Some 35.
Proof. vm_compute. repeat split. Qed.

(** lattpy/tests/test_data.py:63-85 for all sites the test admits. *)
Definition test_remove : Prop :=
  let l := square_of 1 10 10 in let d := data_of l in
  forallb (fun site =>
    let nb s e := match DataModel.get_neighbors e s (Some 0) None false with Some n => n | None => [] end in
    match filter (fun i => i <? site) (nb site d) with
    | i :: _ => (i =? 0) || match remove d [site] with
                            | Some e => S (length (nb i e)) =? length (nb i d)
                            | None => false
                            end
    | [] => true
    end) (seq 2 98) = true.
Check (ltac:(vm_compute; reflexivity) : test_remove).

(** lattpy/tests/test_data.py:88-95. *)
Definition max_step (col : nat) (rows : list (list Z)) : Z :=
  fold_right Z.max (-1000)%Z (map2 (fun a b => (nth col b 0 - nth col a 0)%Z) (removelast rows) (tl rows)).
Example test_sort :
  let d := data_of (square_of 1 5 5) in
  max_step 0 (d_indices d) = 1%Z /\ option_map (fun e => max_step 1 (d_indices e)) (sort d (Some 1) None false) = Some 1%Z.
Proof. vm_compute. repeat split. Qed.

(** lattpy/tests/test_data.py:98-110. *)
Example test_data_append :
  let d := data_of (square25 1) in
  let e := data_of (built_at (square 1) [1; 1]%Q [5; 4]%Q false (Some [5; 0]%Q)) in
  option_map (fun f => skipn 25 (d_positions f)) (append_data dist_argsort (fun n => n) (fun n => n) (fun n => n) d e) = Some (d_positions e).
Proof. vm_compute. reflexivity. Qed.

(** lattpy/tests/test_data.py:113-138. *)
Example test_datamap :
  let m := fst (data_map nat_argsort (data_of (chain_of 1 5))) in
  dm_size m = 16 /\
  dm_onsite m (Some 0%Z) = [true; false; true; false; false; true; false; false; true; false; false; true; false; false; true; false] /\
  dm_hopping m (Some 0%Z) = [false; true; false; true; true; false; true; true; false; true; true; false; true; true; false; true].
Proof. vm_compute. repeat split. Qed.

Definition bits (l : list bool) : list nat := map (fun b : bool => if b then 1 else 0) l.

(** lattpy/tests/test_data.py:194-203. *)
Example test_site_mask :
  let d := data_of (square25 1) in
  bits (site_mask d (Some [Some 1; Some 0]%Q) None false) = [0; 0; 0; 0; 0; 1; 1; 1; 1; 1; 1; 1; 1; 1; 1; 1; 1; 1; 1; 1; 1; 1; 1; 1; 1] /\
  bits (site_mask d (Some [Some 0; Some 1]%Q) None false) = [0; 1; 1; 1; 1; 0; 1; 1; 1; 1; 0; 1; 1; 1; 1; 0; 1; 1; 1; 1; 0; 1; 1; 1; 1].
Proof. vm_compute. repeat split. Qed.

(** lattpy/tests/test_data.py:206-216. *)
Example test_find_sites :
  let d := data_of (square25 1) in
  find_sites d (Some [Some 1; Some 1]%Q) (Some [Some 3; Some 3]%Q) false = [6; 7; 8; 11; 12; 13; 16; 17; 18] /\
  find_sites d (Some [Some 1; Some 1]%Q) (Some [Some 3; Some 3]%Q) true = [0; 1; 2; 3; 4; 5; 9; 10; 14; 15; 19; 20; 21; 22; 23; 24].
Proof. vm_compute. repeat split. Qed.

(** lattpy/tests/test_data.py:219-229. *)
Example test_find_outer_sites :
  let d := data_of (square25 1) in
  find_outer_sites d 0 1 = Some [0; 1; 2; 3; 4; 20; 21; 22; 23; 24] /\
  find_outer_sites d 1 1 = Some [0; 4; 5; 9; 10; 14; 15; 19; 20; 24].
Proof. vm_compute. repeat split. Qed.

(** ** tests/test_basis.py *)

(** lattpy/tests/test_basis.py:80-104. *)
Example test_translate :
  let sq := hypercubic diagonal_inverse 2 1 in let rect := rectangular diagonal_inverse 2 1 in
  red (map (fun n => translate sq n [0; 0]%Q) [[2; 0]; [0; 2]; [1; 2]]%Z) = [[2; 0]; [0; 2]; [1; 2]]%Q /\
  red (map (fun n => translate rect n [0; 0]%Q) [[2; 0]; [0; 2]; [1; 2]]%Z) = [[4; 0]; [0; 2]; [2; 2]]%Q.
Proof. vm_compute. repeat split. Qed.

(** lattpy/tests/test_basis.py:107-133. *)
Example test_itranslate :
  let sq := hypercubic diagonal_inverse 2 1 in let rect := rectangular diagonal_inverse 2 1 in
  let it b x := (fst (itranslate b x), map Qred (snd (itranslate b x))) in
  map (it sq) [[2; 0]; [0; 2]; [1; 2]]%Q = [([2; 0]%Z, [0; 0]%Q); ([0; 2]%Z, [0; 0]%Q); ([1; 2]%Z, [0; 0]%Q)] /\
  map (it rect) [[2; 0]; [0; 2]; [2; 1]]%Q = [([1; 0]%Z, [0; 0]%Q); ([0; 2]%Z, [0; 0]%Q); ([1; 1]%Z, [0; 0]%Q)].
Proof. vm_compute. repeat split. Qed.

(** lattpy/tests/test_basis.py:148-163. *)
Definition test_index_superindex_conversion : Prop :=
  Forall (fun shape : list Z => forallb (fun i => Z.eqb (get_cell_superindex (length shape) (get_cell_index (length shape) i shape) shape) i)
            (zrange 0 (zprod shape)) = true) [[10]; [10; 20]; [10; 20; 30]]%Z.
Check (ltac:(apply Forall_forall; intros x [<-|[<-|[<-|[]]]]; vm_compute; reflexivity) : test_index_superindex_conversion).

(** ** tests/test_spatial.py *)

Definition weave {T} (arrays : list (list T)) (zero : T) : option (list T) :=
  interweave arrays (repeat zero (length (concat arrays))).

(** lattpy/tests/test_spatial.py:54-63. *)
Example test_interweave :
  weave [[1; 3]; [2; 4]] 0 = Some [1; 2; 3; 4] /\ weave [[1; 4]; [2; 5]; [3; 6]] 0 = Some [1; 2; 3; 4; 5; 6] /\
  weave [[[1; 1]; [3; 3]]; [[2; 2]; [4; 4]]] [] = Some [[1; 1]; [2; 2]; [3; 3]; [4; 4]].
Proof. vm_compute. repeat split. Qed.

(** lattpy/tests/test_spatial.py:66-78. *)
Example test_vindices :
  vindices [(0, 1)]%Z (Some 0) = Some [[0]]%Z /\ vindices [(0, 1); (0, 1)]%Z (Some 0) = Some [[0; 0]]%Z /\
  vindices [(0, 2)]%Z (Some 0) = Some [[0]; [1]]%Z /\ vindices [(0, 2); (0, 1)]%Z (Some 0) = Some [[0; 0]; [1; 0]]%Z /\
  vindices [(0, 2); (0, 2)]%Z (Some 0) = Some [[0; 0]; [0; 1]; [1; 0]; [1; 1]]%Z /\
  vindices [(0, 3); (0, 2)]%Z (Some 0) = Some [[0; 0]; [0; 1]; [1; 0]; [1; 1]; [2; 0]; [2; 1]]%Z.
Proof. vm_compute. repeat split. Qed.

Definition range (r : option (list vec)) : option (list vec) := option_map red r.

(** lattpy/tests/test_spatial.py:81-105. *)
Example test_vrange :
  range (vrange_call (Same 1%Q) [] None (Some 0)) = Some [[0]]%Q /\ range (vrange_call (Same 3%Q) [] None (Some 0)) = Some [[0]; [1]; [2]]%Q /\
  range (vrange_call (Each [3; 2]%Q) [] None (Some 0)) = Some [[0; 0]; [0; 1]; [1; 0]; [1; 1]; [2; 0]; [2; 1]]%Q /\
  range (vrange_call (Same 0%Q) [Some (Same 1%Q)] None (Some 0)) = Some [[0]]%Q /\
  range (vrange_call (Same 0%Q) [Some (Same 3%Q)] None (Some 0)) = Some [[0]; [1]; [2]]%Q /\
  range (vrange_call (Same 1%Q) [Some (Same 3%Q)] None (Some 0)) = Some [[1]; [2]]%Q /\
  range (vrange_call (Each [0; 0]%Q) [Some (Each [3; 2]%Q)] None (Some 0)) = Some [[0; 0]; [0; 1]; [1; 0]; [1; 1]; [2; 0]; [2; 1]]%Q /\
  range (vrange_call (Each [1; 0]%Q) [Some (Each [3; 2]%Q)] None (Some 0)) = Some [[1; 0]; [1; 1]; [2; 0]; [2; 1]]%Q.
Proof. vm_compute. repeat split. Qed.

(** lattpy/tests/test_spatial.py:108-119. *)
Example test_cell_size :
  red (map cell_size [[[1; 0]; [0; 1]]; [[2; 0]; [0; 1]]; [[2; 0]; [1; 1]]; [[2; 0]; [-1; 1]]; [[2; 0; 0]; [0; 2; 0]; [0; 0; 2]]]%Q) =
    [[1; 1]; [2; 1]; [2; 1]; [3; 1]; [2; 2; 2]]%Q.
Proof. vm_compute. reflexivity. Qed.

(** lattpy/tests/test_spatial.py:122-132. *)
Example test_cell_volume :
  map (fun v => option_map Qred (cell_volume v)) [[[1; 0]; [0; 1]]; [[2; 0]; [0; 1]]; [[2; 0]; [0; 2]]; [[2; 0; 0]; [0; 2; 0]; [0; 0; 2]]]%Q =
    [Some 1; Some 2; Some 4; Some 8]%Q.
Proof. vm_compute. reflexivity. Qed.

(** ** tests/test_utils.py *)

(** lattpy/tests/test_utils.py:16-33. *)
Example test_min_dtype :
  min_dtype [127]%Z false = Some U8 /\ min_dtype [-127]%Z false = Some I8 /\ min_dtype [127]%Z true = Some I8 /\
  min_dtype [128]%Z false = Some U8 /\ min_dtype [-128]%Z false = Some I8 /\ min_dtype [128]%Z true = Some I16 /\
  min_dtype [-128; 127]%Z false = Some I8 /\ min_dtype [-128; 128]%Z false = Some I16 /\
  min_dtype [-129; 127]%Z false = Some I16 /\ min_dtype [30; 127]%Z false = Some U8.
Proof. vm_compute. repeat split. Qed.

(** lattpy/tests/test_utils.py:36-46. *)
Example test_chain :
  UtilsModel.chain [0; 1; 2] false = Some [(0, 1); (1, 2)] /\ UtilsModel.chain [0; 1; 2] true = Some [(0, 1); (1, 2); (2, 0)] /\
  UtilsModel.chain ["0"; "1"; "2"]%string true = Some [("0", "1"); ("1", "2"); ("2", "0")]%string.
Proof. vm_compute. repeat split. Qed.

(** ** tests/test_atom.py *)

Definition new_atom (name : string) (kwargs : pydict) : atom :=
  atom_new 0 (Some name) (VNum (1#5)) VNone (VNum 1) kwargs.

(** lattpy/tests/test_atom.py:13-22, 76-86. *)
Example test_atoms_equal :
  atom_eq (new_atom "A" []) (new_atom "A" []) = true /\ atom_eq (new_atom "A" []) (new_atom "B" []) = false /\
  atom_eq (new_atom "A" [("energy", VNum 1)]%string) (new_atom "B" []) = false /\
  atom_eq (new_atom "B" []) (new_atom "B" [("energy", VNum 1)]%string) = true /\
  atom_eq_str (new_atom "A" []) "A" = true /\ atom_eq_str (new_atom "A" []) "B" = false.
Proof. vm_compute. repeat split. Qed.

(** lattpy/tests/test_atom.py:25-47. *)
Example test_atom_params :
  let a := atom_new 0 (Some "A"%string) (VNum (1#5)) (VStr "r") (VNum 1) [("energy", VNum 1)]%string in
  atom_getattr a "color" = Some (VStr "r") /\ atom_getitem a "color" = Some (VStr "r") /\
  atom_getattr a "energy" = Some (VNum 1) /\ atom_getitem a "energy" = Some (VNum 1) /\
  let b := fst (atom_step a (SetItem "spin" (VNum 1))) in
  atom_getattr b "spin" = Some (VNum 1) /\ atom_getitem b "spin" = Some (VNum 1) /\
  let c := fst (atom_step b (SetAttr "spin" (VNum 1))) in
  atom_getattr c "spin" = Some (VNum 1) /\ atom_getitem c "spin" = Some (VNum 1) /\ atom_get c "spin" VNone = VNum 1 /\
  atom_get (fst (atom_step c (DelItem "spin"))) "spin" VNone = VNone.
Proof. vm_compute. repeat split. Qed.

(** lattpy/tests/test_atom.py:60-73. *)
Example test_atom_dict :
  let a := new_atom "A" [("energy", VNum 1)]%string in
  dict_del (atom_dict a) "index" = [("name", VStr "A"); ("color", VNone); ("radius", VNum (1#5)); ("energy", VNum 1)]%string /\
  atom_len a = 3 /\ atom_keys a = ["color"; "radius"; "energy"]%string.
Proof. vm_compute. repeat split. Qed.

(** ** Examples in docstrings *)

(** lattpy/lattice.py:873-888, 928-939, 972-980. *)
Example doc_append_extend_repeat :
  let l := square_of 1 5 2 in
  shape_of l = Some [5; 2]%Q /\ shape_of (square_of 1 2 2) = Some [2; 2]%Q /\
  shape_of (have (append_lattice brute_ball dist_argsort keep l (square_of 1 2 2) 0 1 None false)) = Some [8; 2]%Q /\
  let m := have (extend brute brute_ball dist_argsort [1; 1]%Q keep l 2 0 1 None false) in
  shape_of m = Some [8; 2]%Q /\
  shape_of (have (extend brute brute_ball dist_argsort [1; 1]%Q keep m 2 1 1 None false)) = Some [8; 5]%Q /\
  shape_of (have (repeat_lattice brute_ball dist_argsort [keep] l 0 1 None false)) = Some [11; 2]%Q.
Proof. vm_compute. repeat split. Qed.

(** lattpy/lattice.py:982-986 says 35 for three repetitions of the lattice of length 11, and 35 x 5 after one more along
    the other axis.  The loop in line 993 appends three further copies, which gives length 47. *)
Definition doc_repeat_three : Prop :=
  let l := have (repeat_lattice brute_ball dist_argsort [keep] (square_of 1 5 2) 0 1 None false) in
  let m := have (repeat_lattice brute_ball dist_argsort [keep; keep; keep] l 0 1 None false) in
  shape_of l = Some [11; 2]%Q /\ shape_of m = Some [47; 2]%Q /\
  shape_of (have (repeat_lattice brute_ball dist_argsort [keep] m 1 1 None false)) = Some [47; 5]%Q.
Check (ltac:(vm_compute; repeat split) : doc_repeat_three).

(** lattpy/lattice.py:1019-1040, 1075-1084 for a chain of four sites.  The calls in the docstrings build a chain of
    length 5, which has six sites. *)
Example doc_neighbor_pairs :
  let d := data_of (chain_of 1 3) in
  same_elements (fun p q => (fst p =? fst q) && (snd p =? snd q)) (fst (neighbor_pairs d false)) [(0, 1); (1, 2); (1, 0); (2, 3); (2, 1); (3, 2)] = true /\
  snd (neighbor_pairs d false) = [0; 0; 0; 0; 0; 0] /\ fst (neighbor_pairs d true) = [(0, 1); (1, 2); (2, 3)] /\
  match adjacency_matrix d with
  | Some m => sp_shape m = (4, 4) /\
      map (fun i => map (sp_entry m i) (seq 0 4)) (seq 0 4) = [[0; 1; 0; 0]; [1; 0; 1; 0]; [0; 1; 0; 1]; [0; 0; 1; 0]]%Z
  | None => False
  end /\
  lt_num_sites (chain_of 1 5) = 6.
Proof. vm_compute. repeat split. Qed.

(** lattpy/structure.py:641-645, 667-675, 695-700, 731-739. *)
Example doc_structure :
  let s := square 1 in
  StructureModel.get_position s (Some [1; 0]%Z) 0 = Ok [1; 0]%Q /\
  red (StructureModel.get_positions eye2 (st_positions s) [[0; 0; 0]; [1; 0; 0]; [1; 1; 0]]%Z) = [[0; 0]; [1; 0]; [1; 1]]%Q /\
  estimate_index s [12#10; 2#10]%Q = [1; 0]%Z /\
  sites_are (StructureModel.get_neighbors s [0; 0]%Z 0 0) [[1; 0; 0]; [0; -1; 0]; [-1; 0; 0]; [0; 1; 0]]%Z = true.
Proof. vm_compute. repeat split. Qed.

(** lattpy/structure.py:289-303. *)
Example doc_get_alpha :
  let s := run_calls brute eye2 [CAddAtom (Some [0; 0]%Q) atomA false 0; CAddAtom (Some [1#2; 0]%Q) atomB false 0;
                                 CAddAtom (Some [1#2; 1#2]%Q) atomB false 0] in
  get_alpha s (RName "A") = Ok (Many [0]%Z) /\ get_alpha s (RName "B") = Ok (Many [1; 2]%Z).
Proof. vm_compute. repeat split. Qed.

(** lattpy/structure.py:949-954, 1021-1032. *)
Example doc_check_points :
  check_points eye2 [1; 1]%Q [[0; 0]; [2; 2]; [3; 2]]%Q (ASize [2; 2]%Q) false None (1#1000) = Ok [true; true; false] /\
  build_translation_vectors eye2 [1; 1]%Q (ASize [2; 2]%Q) false None true 0 =
    Ok [[0; 0]; [0; 1]; [0; 2]; [1; 0]; [1; 1]; [1; 2]; [2; 0]; [2; 1]; [2; 2]]%Z.
Proof. vm_compute. repeat split. Qed.

(** lattpy/structure.py:1134-1162. *)
Example doc_build_indices :
  match build_indices eye2 [1; 1]%Q [[0; 0]; [1#2; 1#2]]%Q (ASize [2; 1]%Q) false None true None with
  | Ok (indices, positions) =>
    indices = [[0; 0; 0]; [0; 0; 1]; [0; 1; 0]; [1; 0; 0]; [1; 0; 1]; [1; 1; 0]; [2; 0; 0]; [2; 1; 0]]%Z /\
    red positions = [[0; 0]; [1#2; 1#2]; [0; 1]; [1; 0]; [3#2; 1#2]; [1; 1]; [2; 0]; [2; 1]]%Q
  | Raise _ => False
  end.
Proof. vm_compute. repeat split. Qed.

(** lattpy/structure.py:1280-1304; the order of equal distances within a row is that of the sort. *)
Example doc_compute_neighbors :
  match build_indices (st_basis (chain 1)) [1]%Q (st_positions (chain 1)) (ASize [3]%Q) false None true None, st_analysis (chain 1) with
  | Ok (indices, positions), Some an =>
    red positions = [[0]; [1]; [2]; [3]]%Q /\
    option_map (map (fun row => (sorted (map fst row), map snd row))) (compute_neighbors brute dist_argsort an indices positions) =
      Some [([1; 4], [Fin 1000000; Inf]); ([0; 2], [Fin 1000000; Fin 1000000]); ([1; 3], [Fin 1000000; Fin 1000000]);
            ([2; 4], [Fin 1000000; Inf])]
  | _, _ => False
  end.
Proof. vm_compute. repeat split. Qed.

(** lattpy/basis.py:214-226, 252-264, 299-321, 346-352. *)
Example doc_basis :
  let b := new_basis diagonal_inverse [[2; 0]; [0; 1]]%Q in
  red (map (itransform b) [[2; 0]; [4; 0]; [0; 1]]%Q) = [[1; 0]; [2; 0]; [0; 1]]%Q /\
  red (map (transform b) [[1; 0]; [2; 0]; [0; 1]]%Q) = [[2; 0]; [4; 0]; [0; 1]]%Q /\
  map Qred (translate b [1; 0]%Z [0; 0]%Q) = [2; 0]%Q /\
  red (map (fun n => translate b n [1#2; 1#2]%Q) [[0; 0]; [1; 0]; [2; 0]]%Z) = [[1#2; 1#2]; [5#2; 1#2]; [9#2; 1#2]]%Q /\
  (fst (itranslate b [2; 0]%Q), map Qred (snd (itranslate b [2; 0]%Q))) = ([1; 0]%Z, [0; 0]%Q) /\
  (fst (itranslate b [5#2; 1#2]%Q), map Qred (snd (itranslate b [5#2; 1#2]%Q))) = ([1; 0]%Z, [1#2; 1#2]%Q).
Proof. vm_compute. repeat split. Qed.

(** lattpy/basis.py:510-516. *)
Example doc_get_neighbor_cells :
  get_neighbor_cells eye2 0 false isclose2 = Some [[-1; 0]; [0; -1]; [0; 1]; [1; 0]]%Z.
Proof. vm_compute. reflexivity. Qed.

(** lattpy/shape.py:57-60, 72-75, 167-170, 212-215, 268-271, with [basis.T] for the skew box. *)
Example doc_shape_limits :
  let lim s := map (fun p => (Qred (fst p), Qred (snd p))) (shape_limits s) in
  lim (SBox [2; 2]%Q [0; 0]%Q) = [(0, 2); (0, 2)]%Q /\
  lim (SBoxBasis [2; 2]%Q [0; 0]%Q [[1; 0]; [1#5; 1]]%Q []) = [(0, 2); (0, 12#5)]%Q /\
  lim (SCircle [0; 0]%Q 2) = [(-2, 2); (-2, 2)]%Q /\ lim (SDonut [0; 0]%Q 2 1) = [(-2, 2); (-2, 2)]%Q /\
  lim (SHull [[0; 0]; [2; 0]; [2; 1]; [1; 2]; [0; 2]]%Q []) = [(0, 2); (0, 2)]%Q /\
  lim (SHull [[0; 0]; [2; 0]; [2; 1]; [1; 1]]%Q []) = [(0, 2); (0, 1)]%Q.
Proof. vm_compute. repeat split. Qed.


(** ** tests/test_lattice.py: hexagonal lattices

    The number 1.732050807568877 stands for the floating point value of the square root of three. *)

Definition s3 : Q := 1732050807568877 # 1000000000000000.

Definition inverse2 (m : mat) : mat :=
  match m with
  | [[a; b]; [c; d]] => let det := (a * d - b * c)%Q in map (map Qred) [[d / det; - b / det]; [- c / det; a / det]]%Q
  | _ => []
  end.

(** lattpy/basis.py:122-126. *)
Definition hex_basis : basis := Eval vm_compute in new_basis inverse2 [[3#2; s3 / 2]; [3#2; - s3 / 2]]%Q.
Definition hexagonal (n : nat) : structure := got (preset brute hex_basis [(None, atomA)] n).
Definition hex9 (n : nat) : lattice := built_at (hexagonal n) [s3; s3] [2; 2]%Q true None.

(** lattpy/tests/test_lattice.py:989-1025. *)
Definition test_hexagonal_nearest_neighbors : Prop :=
  let l := hex9 1 in
  lt_num_sites l = 9 /\
  map (nearest l) (seq 0 9) =
    [Some [1; 3]; Some [0; 2; 3; 4]; Some [1; 4; 5]; Some [0; 1; 4; 6]; Some [1; 2; 3; 5; 6; 7]; Some [2; 4; 7; 8];
     Some [3; 4; 7]; Some [4; 5; 6; 8]; Some [5; 7]].
Check (ltac:(vm_compute; repeat split) : test_hexagonal_nearest_neighbors).

Definition periodic_nbs (l : lattice) (site : nat) : option (list nat) :=
  option_map sorted (DataModel.get_neighbors (data_of l) site (Some 0) (Some true) false).

(** lattpy/tests/test_lattice.py:1028-1087. *)
Definition test_hexagonal_periodic_nearest_neighbors : Prop :=
  let p := periodic (hex9 1) [0] in let q := periodic p [1] in
  map (periodic_nbs p) [0; 1; 2; 6; 7; 8] = [Some [6; 7]; Some [7; 8]; Some [8]; Some [0]; Some [0; 1]; Some [1; 2]] /\
  map (periodic_nbs q) [0; 3; 6; 2; 5; 8] = [Some [2; 5]; Some [5; 8]; Some [8]; Some [0]; Some [0; 3]; Some [3; 6]].
Check (ltac:(vm_compute; repeat split) : test_hexagonal_periodic_nearest_neighbors).

(** lattpy/tests/test_lattice.py:1090-1141. *)
Definition test_hexagonal_next_nearest_neighbors : Prop :=
  let l := hex9 2 in
  lt_num_sites l = 9 /\
  map (fun i => nbs l i (Some 0)) (seq 0 9) =
    [Some [1; 3]; Some [0; 2; 3; 4]; Some [1; 4; 5]; Some [0; 1; 4; 6]; Some [1; 2; 3; 5; 6; 7]; Some [2; 4; 7; 8];
     Some [3; 4; 7]; Some [4; 5; 6; 8]; Some [5; 7]] /\
  map (fun i => nbs l i (Some 1)) (seq 0 9) =
    [Some [4]; Some [5; 6]; Some [3; 7]; Some [2; 7]; Some [0; 8]; Some [1; 6]; Some [1; 5]; Some [2; 3]; Some [4]].
Check (ltac:(vm_compute; repeat split) : test_hexagonal_next_nearest_neighbors).

(** [lp.graphene()].  lattpy/__init__.py:309-315. *)
Definition graphene : structure :=
  run_calls brute hex_basis
    [CAddAtom (Some [0; 0]%Q) (ex_atom "C1") false 0; CAddAtom (Some [1; 0]%Q) (ex_atom "C2") false 0;
     CAddConnection (RAtom (ex_atom "C1")) (RAtom (ex_atom "C2")) 1 true].
Definition graphene24 : lattice := Eval vm_compute in built graphene [s3; s3] [55#10; 45#10]%Q.

(** lattpy/tests/test_lattice.py:612-627. *)
Definition test_periodic_nearest_graphene : Prop :=
  let p := periodic graphene24 [0] in let q := periodic p [1] in let r := periodic q [0; 1] in
  map (nearest p) [0; 2; 8] = [Some [1; 15]; Some [3; 15; 21]; Some [9; 21; 23]] /\
  map (nearest q) [1; 6; 7] = [Some [0; 4; 16]; Some [5; 7; 17]; Some [6; 14; 22]] /\
  map (nearest r) [0; 8] = [Some [1; 15; 23]; Some [9; 21; 23]].
Check (ltac:(vm_compute; repeat split) : test_periodic_nearest_graphene).

(** ** Matrices.  lattpy/tests/test_data.py:134-185, README.md:200-243 *)

Definition eye (n : nat) (k : Z) : list (list Z) :=
  map (fun i => map (fun j => if (Z.of_nat j =? Z.of_nat i + k)%Z then 1%Z else 0%Z) (seq 0 n)) (seq 0 n).
Definition plus (A B : list (list Z)) : list (list Z) := map2 (map2 Z.add) A B.
Definition times (c : Z) (A : list (list Z)) : list (list Z) := map (map (Z.mul c)) A.

Example test_dmap_zeros :
  let m := fst (data_map nat_argsort (data_of (chain_of 1 5))) in
  length (dm_zeros 0%Z m) = 16 /\
  map (map (@length Z)) (dm_zeros_orbitals 0%Z m 1) = repeat [1] 16 /\
  map (map (@length Z)) (dm_zeros_orbitals 0%Z m 2) = repeat [2; 2] 16.
Proof. vm_compute. auto. Qed.

Example test_dmap_csr_hamiltonian :
  let m := fst (data_map nat_argsort (data_of (chain_of 1 5))) in
  option_map toarray (build_csr Z.add 0%Z m (assign_all m (dm_zeros 0%Z m) [Onsite None 2; Hopping None 1]%Z) None) =
  Some (plus (times 2 (eye 6 0)) (plus (eye 6 1) (eye 6 (-1)))).
Proof. vm_compute. reflexivity. Qed.

Example test_dmap_bsr_hamiltonian :
  let m := fst (data_map nat_argsort (data_of (chain_of 1 5))) in
  option_map toarray (build_bsr Z.add 0%Z 2 m
    (assign_all m (dm_zeros_orbitals 0%Z m 2) [Onsite None (times 2 (eye 2 0)); Hopping None (eye 2 0)])) =
  Some (plus (times 2 (eye 12 0)) (plus (eye 12 2) (eye 12 (-2)))).
Proof. vm_compute. reflexivity. Qed.

(** README: the loop and the map give the same matrix for [eps = 0], [t = 1] and the chain of length 4. *)
Example readme_hamiltonian :
  let d := data_of (chain_of 1 4) in
  let m := fst (data_map nat_argsort d) in
  option_map toarray (loop_matrix 0%Z d 0%Z 1%Z) = Some (plus (eye 5 1) (eye 5 (-1))) /\
  option_map toarray (build_csr Z.add 0%Z m (assign_all m (dm_zeros 0%Z m) [Onsite (Some 0) 0; Hopping (Some 0) 1]%Z) None) =
    Some (plus (eye 5 1) (eye 5 (-1))).
Proof. vm_compute. auto. Qed.
