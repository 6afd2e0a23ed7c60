(** C17-C22: Dijkstra and A*. *)
From Verif Require Import Base GraphModel GraphSpec GraphProof SearchModel SearchSpec SearchProof SearchProof2
  SearchProof3 SearchProof4 Double SearchDouble.
Local Open Scope Z_scope.

(** The laws hold of doubles (non-negative, not NaN) and of exact integers. *)
Theorem C17_C22_costs_double : cost_laws double_cost.
Proof. exact double_laws. Qed.
Theorem C17_C22_costs_exact : cost_laws exact_cost.
Proof. exact exact_laws. Qed.

(** C17.  [b] is a graph or an overlay that reads as the nodes [g].  Reported
    distances are least over all walks; a finite one is the cost of a walk along
    the previous-node map; an infinite one means that no walk has finite cost;
    the call returns (the iteration bound is the number of edges plus one). *)
Theorem C17_dijkstra :
  forall (V C : Type) (ops : cost_ops C) (g : list (GraphNode V C)) (b : graph_like V C) start pick fuel,
  cost_laws ops -> behaves_like b g ->
  (forall i n e, node_at g i n -> In e (in_edges n) -> 0 <= from_index e < Size g) ->
  (forall i n e, node_at g i n -> In e (in_edges n) -> cle ops (czero ops) (weight e)) ->
  0 <= start < Size g -> valid_pick ops snd pick -> (1 + total_in_edges g <= fuel)%nat ->
  exists prev dist, PerformDijkstrasAlgorithm ops b pick fuel start = Ok (prev, dist) /\
    length prev = length g /\ length dist = length g /\
    forall v, 0 <= v < Size g -> exists d, entry dist v d /\
      (forall l c, walk ops (back_step g) start (czero ops) l v c -> cle ops d c) /\
      (clt ops d (cinf ops) -> exists l c, walk ops (back_step g) start (czero ops) l v c /\
         cle ops c d /\ cle ops d c /\ follows prev l).
Proof. intros V C ops g b start pick fuel L BL E N S VP F. exact (dijkstra_spec ops L g b start BL E N S pick fuel VP F). Qed.

Theorem C17_out_of_range :
  forall (V C : Type) (ops : cost_ops C) (g : list (GraphNode V C)) (b : graph_like V C) start pick fuel,
  behaves_like b g -> ~ (0 <= start < Size g) ->
  PerformDijkstrasAlgorithm ops b pick fuel start = Throw InvalidArgument.
Proof. exact @dijkstra_reject. Qed.

Example C17_example :
  (forall i n e, node_at dij_graph i n -> In e (in_edges n) ->
    0 <= from_index e < Size dij_graph /\ cle exact_cost (Some 0) (weight e)) /\
  valid_pick exact_cost snd dij_pick /\
  PerformDijkstrasAlgorithm exact_cost (as_graph_like dij_graph) dij_pick 10 1
    = Ok ([2; 1; 1; -1], [Some 2; Some 0; Some 1; None]).
Proof. split; [exact (proj1 dij_ok)|]. split; [exact (first_min_valid exact_cost exact_laws snd)|exact dij_result]. Qed.

(** C18 in full is false on doubles: an inadmissible heuristic can make a
    rounding tie return a path cheaper than the cost it reports. *)
Theorem C18_real_cost_refuted :
  ~ (forall (starts : list (Z * cost)) goal children heuristic limit pick fuel path c,
     costs_ok double_cost children starts -> valid_pick double_cost (@el_value Z cost) pick ->
     PerformAstarSearch double_cost Z.eqb starts goal children heuristic limit pick fuel = Ok (path, c) ->
     path <> [] ->
     exists d, route double_cost children starts goal path d /\ cle double_cost d c /\ cle double_cost c d).
Proof. exact tie_refutes. Qed.

(** What always holds: the path is real, its cost is at most the reported one,
    the reported cost is finite and is the cost of some real route. *)
Theorem C18_real_path_partial :
  forall (T C : Type) (ops : cost_ops C) eqb (starts : list (T * C)) goal children heuristic limit pick fuel path c,
  cost_laws ops -> (forall a b, eqb a b = true <-> a = b) ->
  costs_ok ops children starts -> valid_pick ops (@el_value T C) pick ->
  PerformAstarSearch ops eqb starts goal children heuristic limit pick fuel = Ok (path, c) ->
  (path = [] /\ c = cinf ops) \/
  (path <> [] /\ clt ops c (cinf ops) /\
   (exists d, route ops children starts goal path d /\ cle ops d c) /\
   (exists path', route ops children starts goal path' c)).
Proof.
  intros T C ops eqb starts goal children heuristic limit pick fuel path c L EQ CO VP.
  exact (astar_real ops eqb EQ L starts goal children heuristic limit CO pick VP fuel path c).
Qed.

Example C18_example :
  costs_ok exact_cost diamond_children [(0, Some 0)] /\
  PerformAstarSearch exact_cost Z.eqb [(0, Some 0)] (Z.eqb 3) diamond_children (fun _ => Some 0) true exact_pick 20
  = Ok ([0; 1; 3], Some 2).
Proof. split; [exact diamond_costs_ok|exact diamond_result]. Qed.

(** C19: starts of equal cost; the reported cost is the cost of the returned
    path and no route is cheaper; an empty path means there is no route. *)
Theorem C19_optimal :
  forall (T C : Type) (ops : cost_ops C) eqb (starts : list (T * C)) goal children heuristic limit pick fuel path c,
  cost_laws ops -> (forall a b, eqb a b = true <-> a = b) ->
  costs_ok ops children starts -> valid_pick ops (@el_value T C) pick ->
  admissible ops children goal heuristic ->
  (forall s c s' c', In (s, c) starts -> In (s', c') starts -> cle ops c c') ->
  PerformAstarSearch ops eqb starts goal children heuristic limit pick fuel = Ok (path, c) ->
  (path <> [] -> exists d, route ops children starts goal path d /\ cle ops d c /\ cle ops c d) /\
  (forall path' d', route ops children starts goal path' d' -> path <> [] /\ cle ops c d').
Proof.
  intros T C ops eqb starts goal children heuristic limit pick fuel path c L EQ CO VP.
  exact (astar_optimal_equal ops eqb EQ L starts goal children heuristic limit CO pick VP fuel path c).
Qed.

(** With exact costs the textbook admissibility condition suffices. *)
Theorem C19_admissible_exact :
  forall (T : Type) (children : T -> outcome (list (T * option Z))) goal (h : T -> option Z),
  (forall n l g d, goal g = true -> walk exact_cost (child_of children) n (Some 0) l g d -> cle exact_cost (h n) d) ->
  (forall g, goal g = true -> cle exact_cost (Some 0) (h g)) ->
  admissible exact_cost children goal h.
Proof. exact @admissible_exact. Qed.

Example C19_example :
  admissible exact_cost diamond_children (Z.eqb 3) (fun _ => Some 0) /\
  valid_pick exact_cost (@el_value Z (option Z)) exact_pick.
Proof. split; [exact diamond_admissible|exact (first_min_valid exact_cost exact_laws _)]. Qed.

(** C20 in full is false: a start that is itself a goal ends the search. *)
Theorem C20_optimal_refuted :
  ~ (forall (starts : list (Z * option Z)) goal children heuristic limit pick fuel path c,
     costs_ok exact_cost children starts -> valid_pick exact_cost (@el_value Z (option Z)) pick ->
     admissible exact_cost children goal heuristic ->
     PerformAstarSearch exact_cost Z.eqb starts goal children heuristic limit pick fuel = Ok (path, c) ->
     forall path' d', route exact_cost children starts goal path' d' -> cle exact_cost c d').
Proof. exact early_refutes. Qed.

(** C20 when no start is itself a goal (any start costs). *)
Theorem C20_optimal_partial :
  forall (T C : Type) (ops : cost_ops C) eqb (starts : list (T * C)) goal children heuristic limit pick fuel path c,
  cost_laws ops -> (forall a b, eqb a b = true <-> a = b) ->
  costs_ok ops children starts -> valid_pick ops (@el_value T C) pick ->
  admissible ops children goal heuristic ->
  (forall s c, In (s, c) starts -> goal s = false) ->
  PerformAstarSearch ops eqb starts goal children heuristic limit pick fuel = Ok (path, c) ->
  (path <> [] -> exists d, route ops children starts goal path d /\ cle ops d c /\ cle ops c d) /\
  (forall path' d', route ops children starts goal path' d' -> path <> [] /\ cle ops c d').
Proof.
  intros T C ops eqb starts goal children heuristic limit pick fuel path c L EQ CO VP.
  exact (astar_optimal ops eqb EQ L starts goal children heuristic limit CO pick VP fuel path c).
Qed.

Example C20_example : costs_ok exact_cost diamond_children [(0, Some 0); (2, Some 5)] /\
  PerformAstarSearch exact_cost Z.eqb [(0, Some 0); (2, Some 5)] (Z.eqb 3) diamond_children
    (fun _ => Some 0) true exact_pick 20 = Ok ([0; 1; 3], Some 2).
Proof. exact diamond_two. Qed.

(** C21: a bound on the iterations, for any heuristic. *)
Theorem C21_terminates :
  forall (T C : Type) (ops : cost_ops C) eqb (starts : list (T * C)) goal children heuristic limit pick
    space branching fuel,
  cost_laws ops -> (forall a b, eqb a b = true <-> a = b) ->
  costs_ok ops children starts -> valid_pick ops (@el_value T C) pick ->
  finite_space children starts space ->
  (forall s cs, In s space -> children s = Ok cs -> (length cs <= branching)%nat) ->
  (forall s, In s space -> children s <> Diverge) ->
  (length starts * (branching + 1) ^ length space <= fuel)%nat ->
  PerformAstarSearch ops eqb starts goal children heuristic limit pick fuel <> Diverge.
Proof.
  intros T C ops eqb starts goal children heuristic limit pick space branching fuel L EQ CO VP.
  exact (astar_terminates ops eqb EQ L starts goal children heuristic limit CO pick VP space branching fuel).
Qed.

(** C21: with child generators that do not throw and finite accumulated costs a
    path is returned exactly when a goal can be reached. *)
Theorem C21_complete :
  forall (T C : Type) (ops : cost_ops C) eqb (starts : list (T * C)) goal children heuristic limit pick
    space branching fuel,
  cost_laws ops -> (forall a b, eqb a b = true <-> a = b) ->
  costs_ok ops children starts -> valid_pick ops (@el_value T C) pick ->
  starts <> [] -> finite_space children starts space ->
  (forall s, In s space -> exists cs, children s = Ok cs /\ (length cs <= branching)%nat) ->
  (forall s c l t d, In (s, c) starts -> walk ops (child_of children) s c l t d -> clt ops d (cinf ops)) ->
  (length starts * (branching + 1) ^ length space <= fuel)%nat ->
  exists path c,
    PerformAstarSearch ops eqb starts goal children heuristic limit pick fuel = Ok (path, c) /\
    (path <> [] <-> exists path' d', route ops children starts goal path' d').
Proof.
  intros T C ops eqb starts goal children heuristic limit pick space branching fuel L EQ CO VP.
  exact (astar_complete ops eqb EQ L starts goal children heuristic limit CO pick VP space branching fuel).
Qed.

Example C21_example : finite_space diamond_children [(0, Some 0)] [0; 1; 2; 3] /\
  (forall s, In s [0; 1; 2; 3] -> exists cs, diamond_children s = Ok cs /\ (length cs <= 2)%nat) /\
  (forall s c l t d, In (s, c) [(0, Some 0)] ->
     walk exact_cost (child_of diamond_children) s c l t d -> clt exact_cost d None).
Proof. exact diamond_finite. Qed.

(** C22: graph A* (on a graph or an overlay). *)
Theorem C22_rejects :
  forall (V C : Type) (ops : cost_ops C) (g : list (GraphNode V C)) (b : graph_like V C)
    valid distance heuristic starts goals limit pick fuel,
  behaves_like b g ->
  starts = [] \/ ~ (forall i, In i (starts ++ goals) -> 0 <= i < Size g) ->
  PerformLazyAstarSearch ops b starts goals valid distance heuristic limit pick fuel = Throw InvalidArgument.
Proof. exact @lazy_rejects. Qed.

Theorem C22_real_path :
  forall (V C : Type) (ops : cost_ops C) (g : list (GraphNode V C)) (b : graph_like V C)
    valid distance heuristic starts goals limit pick fuel path c,
  cost_laws ops -> behaves_like b g -> valid_pick ops (@el_value Z C) pick ->
  (forall i n e, node_at g i n -> In e (out_edges n) -> valid e = true -> cle ops (czero ops) (distance e)) ->
  PerformLazyAstarSearch ops b starts goals valid distance heuristic limit pick fuel = Ok (path, c) ->
  (forall i, In i (starts ++ goals) -> 0 <= i < Size g) /\
  ((path = [] /\ c = cinf ops) \/
   (path <> [] /\ clt ops c (cinf ops) /\
    (exists d, graph_route ops g valid distance starts goals path d /\ cle ops d c) /\
    (exists path', graph_route ops g valid distance starts goals path' c))).
Proof.
  intros V C ops g b valid distance heuristic starts goals limit pick fuel path c L BL VP NN.
  exact (lazy_real ops L g b BL valid distance heuristic starts goals limit pick VP NN fuel path c).
Qed.

Theorem C22_optimal :
  forall (V C : Type) (ops : cost_ops C) (g : list (GraphNode V C)) (b : graph_like V C)
    valid distance heuristic starts goals limit pick fuel path c,
  cost_laws ops -> behaves_like b g -> valid_pick ops (@el_value Z C) pick ->
  (forall i n e, node_at g i n -> In e (out_edges n) -> valid e = true -> cle ops (czero ops) (distance e)) ->
  (forall i t c l d, cle ops (czero ops) c -> In t goals ->
     walk ops (allowed_step g valid distance) i c l t d -> cle ops (cadd ops c (heuristic i t)) d) ->
  (forall i t, In t goals -> cle ops (czero ops) (heuristic i t)) ->
  PerformLazyAstarSearch ops b starts goals valid distance heuristic limit pick fuel = Ok (path, c) ->
  (path <> [] -> exists d, graph_route ops g valid distance starts goals path d /\ cle ops d c /\ cle ops c d) /\
  (forall path' d', graph_route ops g valid distance starts goals path' d' -> path <> [] /\ cle ops c d').
Proof.
  intros V C ops g b valid distance heuristic starts goals limit pick fuel path c L BL VP NN A1 A2.
  exact (lazy_optimal ops L g b BL valid distance heuristic starts goals limit pick VP NN fuel path c (conj A1 A2)).
Qed.

Theorem C22_total :
  forall (V C : Type) (ops : cost_ops C) (g : list (GraphNode V C)) (b : graph_like V C)
    valid distance heuristic starts goals limit pick fuel B,
  cost_laws ops -> behaves_like b g -> valid_pick ops (@el_value Z C) pick ->
  (forall i n e, node_at g i n -> In e (out_edges n) -> valid e = true -> cle ops (czero ops) (distance e)) ->
  (forall i, In i (starts ++ goals) -> 0 <= i < Size g) -> starts <> [] ->
  (forall i n e, node_at g i n -> In e (out_edges n) -> 0 <= to_index e < Size g) ->
  (forall i n, node_at g i n -> (length (out_edges n) <= B)%nat) ->
  (forall s l t d, In s starts -> walk ops (allowed_step g valid distance) s (czero ops) l t d -> clt ops d (cinf ops)) ->
  (length starts * (B + 1) ^ length g <= fuel)%nat ->
  exists path c,
    PerformLazyAstarSearch ops b starts goals valid distance heuristic limit pick fuel = Ok (path, c) /\
    (path <> [] <-> exists path' d', graph_route ops g valid distance starts goals path' d').
Proof.
  intros V C ops g b valid distance heuristic starts goals limit pick fuel B L BL VP NN.
  exact (lazy_total ops L g b BL valid distance heuristic starts goals limit pick VP NN fuel B).
Qed.

(** The entry point that uses edge weights: steps are the out edges of finite weight. *)
Theorem C22_weighted :
  forall (V C : Type) (ops : cost_ops C) (g : list (GraphNode V C)) (b : graph_like V C) (v0 : V)
    heuristic starts goals limit pick fuel path c,
  cost_laws ops -> behaves_like b g -> valid_pick ops (@el_value Z C) pick ->
  (forall i n e, node_at g i n -> In e (out_edges n) -> cle ops (czero ops) (weight e)) ->
  let usable := fun e : GraphEdge C => cltb ops (weight e) (cinf ops) in
  (forall i t ni nt c l d, cle ops (czero ops) c -> In t goals -> node_at g i ni -> node_at g t nt ->
     walk ops (allowed_step g usable (@weight C)) i c l t d ->
     cle ops (cadd ops c (heuristic (value ni) (value nt))) d) ->
  (forall x y, cle ops (czero ops) (heuristic x y)) ->
  (forall i n e, node_at g i n -> In e (out_edges n) -> 0 <= to_index e < Size g) ->
  PerformGraphAstarSearch ops v0 b starts goals heuristic limit pick fuel = Ok (path, c) ->
  (path <> [] -> exists d, graph_route ops g usable (@weight C) starts goals path d /\ cle ops d c /\ cle ops c d) /\
  (forall path' d', graph_route ops g usable (@weight C) starts goals path' d' -> path <> [] /\ cle ops c d').
Proof. exact @weighted_optimal. Qed.

Example C22_example :
  (forall i n e, node_at dij_graph i n -> In e (out_edges n) ->
    0 <= to_index e < Size dij_graph /\ cle exact_cost (Some 0) (weight e)) /\
  PerformGraphAstarSearch exact_cost 0 (as_graph_like dij_graph) [0; 3] [1]
    (fun _ _ => Some 0) true exact_pick 1000 = Ok ([0; 2; 1], Some 2).
Proof. split; [exact (proj2 dij_ok)|exact dij_astar]. Qed.

Print Assumptions C17_C22_costs_double.
Print Assumptions C17_dijkstra.
Print Assumptions C18_real_cost_refuted.
Print Assumptions C18_real_path_partial.
Print Assumptions C19_optimal.
Print Assumptions C20_optimal_refuted.
Print Assumptions C20_optimal_partial.
Print Assumptions C21_terminates.
Print Assumptions C21_complete.
Print Assumptions C22_optimal.
Print Assumptions C22_total.
Print Assumptions C22_weighted.
