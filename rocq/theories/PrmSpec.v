(** Vocabulary for the roadmap planner (C49-C53). *)
From Verif Require Import Base Effect GraphModel GraphSpec SearchModel SearchSpec KnnSpec PrmModel ParallelismModel.
From Coq Require Import Permutation.
Local Open Scope Z_scope.

Section S.
Context {V C : Type}.
Implicit Types (g : list (GraphNode V C)) (dist : V -> V -> C) (valid : V -> V -> bool).

(** State of node number [i]; [dflt] when there is none. *)
Definition state_of g (dflt : V) (i : Z) : V := nth (Z.to_nat i) (map value g) dflt.

(** Distance between a state of the roadmap and the new state in a direction. *)
Definition distance_towards dist (dir : direction) (state node : V) : C :=
  match dir with RoadmapToNewState => dist node state | NewStateToRoadmap => dist state node end.

(** A provider of nearest neighbors tells the truth: it returns distinct existing
    nodes with their distances in the direction asked for. *)
Definition knn_truthful (knn : knn_provider) dist : Prop :=
  forall g state K dir max l, knn (as_graph_like g) state K dir max = Ok l ->
    NoDup (map fst l) /\
    forall i d, In (i, d) l -> exists n, node_at g i n /\ d = distance_towards dist dir state (value n).

(** The symmetry the caller promises. *)
Definition symmetric_functions dist valid : Prop :=
  forall a b, dist a b = dist b a /\ valid a b = valid b a.

(** Each parallel loop runs each of its items once. *)
Definition each_once (order : Z -> Z -> list Z) : Prop :=
  forall size n, 0 <= n -> Permutation (order size n) (seqZ 0 n).

(** The edge joins two nodes, was found valid in its direction and has the
    distance in that direction as weight. *)
Definition good_edge dist valid g (e : GraphEdge C) : Prop :=
  exists a b, node_at g (from_index e) a /\ node_at g (to_index e) b /\
    valid (value a) (value b) = true /\ weight e = dist (value a) (value b).

(** [g'] has the nodes of [g] with their states and edges, and possibly more
    nodes and more edges; the new edges have [P]. *)
Definition grows_with (P : GraphEdge C -> Prop) g g' : Prop :=
  (forall i n, node_at g i n -> exists n' ins outs, node_at g' i n' /\ value n' = value n /\
     in_edges n' = in_edges n ++ ins /\ out_edges n' = out_edges n ++ outs /\ Forall P ins /\ Forall P outs) /\
  (forall i n', node_at g' i n' -> Size g <= i -> Forall P (in_edges n') /\ Forall P (out_edges n')).

(** Exactly the given edges were added, in order, at both of their ends. *)
Definition plus_edges g (edges : list (GraphEdge C)) g' : Prop :=
  Size g' = Size g /\
  forall i n, node_at g i n ->
    node_at g' i (mkNode (value n) (in_edges n ++ filter (fun e => to_index e =? i) edges)
                                   (out_edges n ++ filter (fun e => from_index e =? i) edges)).

(** Edges between the new node [new] and its neighbors: each one that is valid
    and whose distance is not negative, in both directions. *)
Definition edge_if valid dist (ops : cost_ops C) (from to : V) (i j : Z) : list (GraphEdge C) :=
  if valid from to && cgeb ops (dist from to) (czero ops) then [mkEdge i j (dist from to) 0%N] else [].
Definition offered_edges (ops : cost_ops C) valid dist g (state : V) (new : Z) (neighbors : list Z) : list (GraphEdge C) :=
  flat_map (fun i => edge_if valid dist ops (state_of g state i) state i new ++
                     edge_if valid dist ops state (state_of g state i) new i) neighbors.

(** Every edge of the graph is a good one. *)
Definition good_graph dist valid g : Prop :=
  forall i n e, node_at g i n -> In e (in_edges n) \/ In e (out_edges n) -> good_edge dist valid g e.

(** A search for the K nearest items answers correctly (C23). *)
Definition search_contract (ops : cost_ops C) {Item} (search : list Item -> (Item -> C) -> Z -> outcome (list (Z * C))) : Prop :=
  forall items d K, 0 <= K -> exists sel, search items d K = Ok sel /\
    k_nearest (cltb ops) items d 0 (Z.of_nat (length items)) K sel.

(** Callbacks never break [ok], and say true only of states with [accepted]. *)
Definition accepts {W} (accepted : V -> Prop) (state_valid : V -> eff W bool) : Prop :=
  forall v w w', state_valid v w = (Ok true, w') -> accepted v.

(** Same graph with other weights. *)
Definition reweighted (weight_of : V -> V -> C) g g' : Prop :=
  Size g' = Size g /\
  let rw e := match nth_error g (Z.to_nat (from_index e)), nth_error g (Z.to_nat (to_index e)) with
              | Some a, Some b => mkEdge (from_index e) (to_index e) (weight_of (value a) (value b)) (scratchpad e)
              | _, _ => e
              end in
  forall i n, node_at g i n ->
    node_at g' i (mkNode (value n) (map rw (in_edges n)) (map rw (out_edges n))).
End S.

(** A path answered to a query: consecutive states are joined by valid edges. *)
Definition valid_steps {V} (valid : V -> V -> bool) (path : list V) : Prop :=
  forall l1 a b l2, path = l1 ++ a :: b :: l2 -> valid a b = true.
(** Cost of a list of states, added from the front. *)
Fixpoint states_cost {V C} (ops : cost_ops C) (dist : V -> V -> C) (c : C) (path : list V) : C :=
  match path with
  | a :: ((b :: _) as r) => states_cost ops dist (cadd ops c (dist a b)) r
  | _ => c
  end.
(** The state stands for a state asked for: it is that state or, when duplicates
    are not added, one at zero distance in the direction of travel. *)
Definition stands_for_start {V C} (ops : cost_ops C) (dist : V -> V -> C) (dups : bool) (start v : V) : Prop :=
  v = start \/ (dups = false /\ is_zero ops (dist start v) = true).
Definition stands_for_goal {V C} (ops : cost_ops C) (dist : V -> V -> C) (dups : bool) (goal v : V) : Prop :=
  v = goal \/ (dups = false /\ is_zero ops (dist v goal) = true).
