(** * Specification vocabulary: lattice data as a graph of numbered sites *)
From Coq Require Import List ZArith QArith Bool Arith Permutation.
From Verif Require Import Np DataModel SpecData.
Import ListNotations.
Open Scope nat_scope.

(** A connection of a site: to which site, at which distance, and whether it is periodic. *)
Record edge := mkEdge { e_to : nat; e_dist : dist; e_per : bool }.
(** A site. *)
Record node := mkNode { n_index : list Z; n_pos : list Q; n_edges : list edge }.
(** The sites have the numbers 0, 1, ... *)
Definition graph := list node.

Definition no_node : node := mkNode [] [] [].

(** Equal up to the order of the connections of a site. *)
Definition same_node (x y : node) : Prop := n_index x = n_index y /\ n_pos x = n_pos y /\ Permutation (n_edges x) (n_edges y).
Definition same_graph (g h : graph) : Prop := Forall2 same_node g h.

Definition change_edges (f : list edge -> list edge) (x : node) : node := mkNode (n_index x) (n_pos x) (f (n_edges x)).

(** The first position of [j] in [l]. *)
Fixpoint place (l : list nat) (j : nat) : option nat :=
  match l with
  | [] => None
  | x :: t => if x =? j then Some 0 else option_map S (place t j)
  end.

(** The graph of the sites [l], renumbered in that order, with the connections between them. *)
Definition among (l : list nat) (es : list edge) : list edge :=
  flat_map (fun e => match place l (e_to e) with Some k => [mkEdge k (e_dist e) (e_per e)] | None => [] end) es.
Definition g_select (l : list nat) (g : graph) : graph := map (fun q => change_edges (among l) (nth q g no_node)) l.

(** Both graphs side by side; nothing is periodic. *)
Definition plain (e : edge) : edge := mkEdge (e_to e) (e_dist e) false.
Definition shift (n : nat) (e : edge) : edge := mkEdge (n + e_to e) (e_dist e) (e_per e).
Definition g_plain (g : graph) : graph := map (change_edges (map plain)) g.
Definition g_union (g h : graph) : graph := g_plain g ++ map (change_edges (map (shift (length g)))) (g_plain h).

(** Change the connections of every site, depending on its number. *)
Definition g_at (f : nat -> list edge -> list edge) (g : graph) : graph := map (fun k => change_edges (f k) (nth k g no_node)) (seq 0 (length g)).

(** One more connection, from the site [i] to the site [j]. *)
Definition g_add (i j : nat) (x : dist) : graph -> graph := g_at (fun k es => if k =? i then es ++ [mkEdge j x false] else es).

(** The periodic connections removed, and replaced by others. *)
Definition regular (es : list edge) : list edge := filter (fun e => negb (e_per e)) es.
Definition g_regular : graph -> graph := g_at (fun _ es => regular es).
Definition g_periodic (entries : list (nat * list pneighbor)) : graph -> graph :=
  g_at (fun k es => regular es ++ map (fun p => mkEdge (pn_idx p) (pn_dist p) true) (flat_map (fun e => if fst e =? k then snd e else []) entries)).

(** Connections go both ways. *)
Definition undirected (g : graph) : Prop :=
  forall i j x p, In (mkEdge j x p) (n_edges (nth i g no_node)) -> In (mkEdge i x p) (n_edges (nth j g no_node)).

(** The graph that the data stores. *)
Definition edge_of (s : slot) : edge := mkEdge (s_nbr s) (s_dist s) (s_per s).
Definition graph_of (d : data) : graph :=
  map (fun i => mkNode (nth i (d_indices d) []) (nth i (d_positions d) []) (map edge_of (slots d i))) (seq 0 (nsites d)).

(** The graph given by four tables: entries at a finite distance are connections. *)
Definition graph_of_tables (indices : list (list Z)) (positions : list (list Q)) (neighbors : list (list nat)) (distances : list (list dist)) : graph :=
  map (fun i => mkNode (nth i indices []) (nth i positions [])
      (map (fun l => mkEdge (fst l) (snd l) false) (filter (fun l => match snd l with Inf => false | _ => true end) (combine (nth i neighbors []) (nth i distances [])))))
    (seq 0 (length indices)).
