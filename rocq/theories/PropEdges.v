(** * Further examples at the edges of the claims

    Each example is an input on which a realistic wrong program (seeded/LOG.jsonl) gives another result; the theorems are in
    the files named. *)
From Coq Require Import List String ZArith QArith Bool Arith.
From Verif Require Import Np LinAlg AtomModel BasisModel UtilsModel SpatialModel ShapeModel DataModel SpecData PropData.
Import ListNotations.
Open Scope nat_scope.

(** All links of a table. *)
Definition all_links (o : option data) : option (list (list (nat * dist))) := option_map (fun d => map (links d) (seq 0 (nsites d))) o.

Definition on_data (o : option data) (f : data -> option data) : option data := match o with Some d => f d | None => None end.

(** An open chain of seven sites with two distances. *)
Definition chain7 : option data :=
  data_set (map (fun k => [k; 0]%Z) [0; 1; 2; 3; 4; 5; 6]%Z) [[0]; [1]; [3]; [4]; [6]; [7]; [9]]%Q
    [[1; 7]; [2; 0]; [3; 1]; [4; 2]; [5; 3]; [6; 4]; [5; 7]]
    [[Fin 10; Inf]; [Fin 20; Fin 10]; [Fin 10; Fin 20]; [Fin 20; Fin 10]; [Fin 10; Fin 20]; [Fin 20; Fin 10]; [Fin 20; Inf]].

(** One site that is its own neighbour. *)
Definition loop1 : data :=
  mkData 1 2 [[0; 0]]%Z [[0]]%Q [[0; 0]] [[0; 0]] [Fin 10; Inf] [[true; true]] [[[1%Z]; [-1]%Z]] [[[0]; [0]]] 1 1 None.

(** The site itself is not among the neighbours with a larger number (PropData.v). *)
Example C40_edge_example : get_neighbors loop1 0 None None true = Some [] /\ get_neighbors loop1 0 None None false = Some [0; 0].
Proof. vm_compute. auto. Qed.

(** Sites to remove in any order (PropData.v). *)
Example C41_edge_example :
  all_links (on_data chain7 (fun d => remove d [5; 4; 2])) =
    Some [[(1, Fin 10)]; [(0, Fin 10)]; []; []] /\
  all_links (on_data chain7 (fun d => remove d [1; 0])) =
    Some [[(1, Fin 10)]; [(2, Fin 20); (0, Fin 10)]; [(3, Fin 10); (1, Fin 20)]; [(4, Fin 20); (2, Fin 10)]; [(3, Fin 20)]].
Proof. vm_compute. auto. Qed.

(** Distances are moved with the sites (PropData.v). *)
Example C42_edge_example :
  all_links (on_data chain7 (fun d => sort d None (Some [1; 0; 2; 3; 4; 6; 5]) false)) =
    Some [[(2, Fin 20); (1, Fin 10)]; [(0, Fin 10)]; [(3, Fin 10); (0, Fin 20)]; [(4, Fin 20); (2, Fin 10)];
          [(6, Fin 10); (3, Fin 20)]; [(6, Fin 20)]; [(5, Fin 20); (4, Fin 10)]].
Proof. vm_compute. auto. Qed.

(** Distances are moved with the neighbours (PropData.v). *)
Example C43_edge_example :
  all_links (option_map (sort_neighbors dist_argsort) chain7) =
    Some [[(1, Fin 10)]; [(0, Fin 10); (2, Fin 20)]; [(3, Fin 10); (1, Fin 20)]; [(2, Fin 10); (4, Fin 20)];
          [(5, Fin 10); (3, Fin 20)]; [(4, Fin 10); (6, Fin 20)]; [(5, Fin 20)]].
Proof. vm_compute. auto. Qed.

(** Unused places of both tables hold the new number of sites (PropData.v). *)
Example C45_edge_example :
  option_map d_neighbors (on_data chain7 (fun d => append_data dist_argsort uint8 uint8 uint8 chain3 d)) =
    Some [[1; 10]; [0; 2]; [1; 10]; [4; 10]; [3; 5]; [6; 4]; [5; 7]; [8; 6]; [7; 9]; [8; 10]].
Proof. vm_compute. auto. Qed.

(** Removing periodic neighbours restores the unused places (PropDataMap.v). *)
Example C46_edge_example :
  option_map d_neighbors (set_periodic chain3 ring3_entries) = Some [[1; 2]; [0; 2]; [1; 0]] /\
  option_map (fun d => d_neighbors (remove_periodic d)) (set_periodic chain3 ring3_entries) = Some (d_neighbors chain3).
Proof. vm_compute. auto. Qed.

(** Sites on both faces of the box are found (PropDataMap.v). *)
Example C47_edge_example : option_map (fun d => find_sites d (Some [Some 1%Q]) (Some [Some 4%Q]) false) chain7 = Some [1; 2; 3].
Proof. vm_compute. auto. Qed.

(** A copy has the weight of its original (PropAtom.v). *)
Example C08_edge_example :
  option_map a_weight (atom_copy 7 (atom_new 0 (Some "B"%string) (VNum (1#5)) VNone (VNum 2) [])) = Some (VNum 2).
Proof. vm_compute. auto. Qed.

(** A corner of a box that is not at the origin (PropShape.v). *)
Example C23_edge_example : box_contains [1; 1]%Q [2; 3]%Q [3; 4]%Q 0 = true /\ box_contains [1; 1]%Q [2; 3]%Q [4; 4]%Q 0 = false.
Proof. vm_compute. auto. Qed.

(** A point just outside of a circle and one on a large circle (PropShape.v). *)
Example C24_edge_example :
  shape_contains (SCircle [0; 0]%Q 5) [5; 1]%Q 0 = false /\ shape_contains (SDonut [0; 0]%Q 9 5) [3; 3]%Q 0 = false /\
  shape_contains (SDonut [0; 0]%Q 9 5) [3; 4]%Q 0 = true.
Proof. vm_compute. auto. Qed.

(** Three orthogonal vectors (PropBasis.v). *)
Example C12_edge_example :
  option_map (map (map Qred)) (reciprocal_vectors 6 (1#100) false
    (mkBasis [[1; 0; 0]; [0; 2; 0]; [0; 0; 3]] [[1; 0; 0]; [0; 1#2; 0]; [0; 0; 1#3]])%Q) = Some [[6; 0; 0]; [0; 3; 0]; [0; 0; 2]]%Q.
Proof. vm_compute. auto. Qed.

(** A left-handed pair of vectors (PropBasis.v). *)
Example C18_edge_example : cell_volume [[0; 2]; [3; 1]]%Q = Some 6%Q.
Proof. vm_compute. auto. Qed.

(** A point at exactly the maximal distance is kept, the next one is replaced (PropSpatial.v). *)
Example C19_edge_example :
  kd_query 3 (Some 1%Q) true false [[(0, Some 0%Q); (1, Some 1%Q); (2, Some 4%Q)]] = [[(0, Some 0%Q); (1, Some 1%Q); (3, None)]].
Proof. vm_compute. auto. Qed.

(** Numbers of equal size and both signs, and zero (PropUtils.v). *)
Example C02_edge_example :
  min_dtype [-128; 128]%Z false = Some I16 /\ min_dtype [-5; 5]%Z true = Some I8 /\ min_dtype [0]%Z false = Some U8.
Proof. vm_compute. auto. Qed.

(** A negative number and one at the limit of a prefix (PropUtils.v). *)
Example C04_edge_example : frmt_num (-1234567#1) 2 1000 = ((-123)%Z, "M"%string) /\ frmt_num 1000 1 1000 = (10%Z, "k"%string).
Proof. vm_compute. auto. Qed.
