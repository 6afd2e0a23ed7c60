(** Model of simple_astar_search.hpp and simple_graph_search.hpp.

    Costs are an abstract type with the operations the code applies to double
    ([cost_ops]); it is instantiated with integers and with IEEE binary64.
    Callbacks are functions of their arguments (no internal state); the child
    generator may throw.  std::unordered_map / unordered_set are association
    lists (hash and equality functions are assumed to implement equality).
    std::priority_queue is a list; top()/pop() take the element that the oracle
    [pick] selects, theorems quantify over every oracle that always selects an
    element no other element compares below. *)
From Verif Require Import Base GraphModel.
Local Open Scope Z_scope.

(** Operations on double used by the searches: 0.0, infinity, +, <, >=, isinf. *)
Record cost_ops (C : Type) : Type := mkCost {
  czero : C; cinf : C; cadd : C -> C -> C;
  cltb : C -> C -> bool; cgeb : C -> C -> bool; cisinf : C -> bool }.
Arguments mkCost {C} _ _ _ _ _ _. Arguments czero {C} _. Arguments cinf {C} _.
Arguments cadd {C} _ _ _. Arguments cltb {C} _ _ _. Arguments cgeb {C} _ _ _.
Arguments cisinf {C} _ _.

(** Which queue entry leaves next, given the iteration number and the queue. *)
Definition picker (E : Type) : Type := nat -> list E -> nat.

Fixpoint remove_at {A} (i : nat) (l : list A) : list A :=
  match l, i with
  | [], _ => []
  | _ :: r, O => r
  | x :: r, S j => x :: remove_at j r
  end.

(** queue.top(); queue.pop(); *)
Definition pq_pop {E} (pick : picker E) (k : nat) (q : list E) : outcome (E * list E) :=
  do e <- raw_get q (pick k q); Ok (e, remove_at (pick k q) q).

(** unordered_map::find *)
Fixpoint map_find {T A} (eqb : T -> T -> bool) (t : T) (m : list (T * A)) : option A :=
  match m with
  | [] => None
  | (t', a) :: r => if eqb t t' then Some a else map_find eqb t r
  end.
(** unordered_map::erase(key) *)
Definition map_erase {T A} (eqb : T -> T -> bool) (t : T) (m : list (T * A)) : list (T * A) :=
  filter (fun p => negb (eqb t (fst p))) m.
(** map[key] = value; the newest binding of a key is found first. *)
Definition map_put {T A} (t : T) (a : A) (m : list (T * A)) : list (T * A) := (t, a) :: m.

Section Dijkstra.
Context {V C : Type} (ops : cost_ops C).

(** DijkstrasResult, simple_graph_search.hpp:28-118: previous_index_map_,
    node_distances_. IndexAndDistance (120-135) is a pair. *)
Record dijkstra_state : Type := mkDij {
  d_prev : list Z; d_dist : list C; d_queue : list (Z * C); d_explored : list Z }.

(** std::vector::at with an int64_t index cast to size_t. *)
Definition at_index {A} (l : list A) (i : Z) : outcome A :=
  if i <? 0 then Throw OutOfRange else at_get l (Z.to_nat i).
Definition set_index {A} (l : list A) (i : Z) (a : A) : outcome (list A) :=
  if i <? 0 then Throw OutOfRange else at_set l (Z.to_nat i) a.

(** Body of the loop over neighbor edges, simple_graph_search.hpp:185-217. *)
Definition dijkstra_edge (top : Z * C) (s : dijkstra_state) (e : GraphEdge C)
    : outcome dijkstra_state :=
  let neighbor := from_index e in
  let new_distance := cadd ops (snd top) (weight e) in
  do stored <- at_index (d_dist s) neighbor;
  if cltb ops new_distance stored then
    let queue := if existsb (Z.eqb neighbor) (d_explored s) then d_queue s
                 else d_queue s ++ [(neighbor, new_distance)] in
    do prev <- set_index (d_prev s) neighbor (fst top);
    do dist <- set_index (d_dist s) neighbor new_distance;
    Ok (mkDij prev dist queue (d_explored s))
  else Ok s.

(** Search loop, simple_graph_search.hpp:168-218; [fuel] bounds the iterations. *)
Fixpoint dijkstra_loop (g : graph_like V C) (pick : picker (Z * C)) (fuel : nat) (k : nat)
    (s : dijkstra_state) : outcome dijkstra_state :=
  match d_queue s with
  | [] => Ok s
  | _ =>
    match fuel with
    | O => Diverge
    | S fuel' =>
      do (top, rest) <- pq_pop pick k (d_queue s);
      if existsb (Z.eqb (fst top)) (d_explored s)
      then dijkstra_loop g pick fuel' (S k) (mkDij (d_prev s) (d_dist s) rest (d_explored s))
      else
        do n <- gl_get g (fst top);
        do s' <- mfold (dijkstra_edge top)
                   (mkDij (d_prev s) (d_dist s) rest (fst top :: d_explored s)) (in_edges n);
        dijkstra_loop g pick fuel' (S k) s'
    end
  end.

(** PerformDijkstrasAlgorithm, simple_graph_search.hpp:147-220. *)
Definition PerformDijkstrasAlgorithm (g : graph_like V C) (pick : picker (Z * C)) (fuel : nat)
    (start : Z) : outcome (list Z * list C) :=
  if negb (IndexInRange (gl_size g) start) then Throw InvalidArgument
  else
    let n := Z.to_nat (gl_size g) in
    do prev <- set_index (repeat (-1) n) start start;
    do dist <- set_index (repeat (cinf ops) n) start (czero ops);
    do s <- dijkstra_loop g pick fuel 0 (mkDij prev dist [(start, czero ops)] []);
    Ok (d_prev s, d_dist s).

End Dijkstra.

Section Astar.
Context {T C : Type} (ops : cost_ops C) (eqb : T -> T -> bool).

(** AstarPQueueElement, simple_astar_search.hpp:25-57. *)
Record pq_elem : Type := mkElem {
  el_state : T; el_cost : C; el_value : C; el_back : option T }.

(** ExploredList: state -> (cost-to-come, back pointer),
    simple_astar_search.hpp:100-133. *)
Definition explored_list : Type := list (T * (C * option T)).

(** is_explored_better, simple_astar_search.hpp:316-330. *)
Definition is_explored_better (explored : explored_list) (s : T) (cost : C) : bool :=
  match map_find eqb s explored with
  | Some (c, _) => cgeb ops cost c
  | None => false
  end.

(** is_queue_better, simple_astar_search.hpp:287-309. *)
Definition is_queue_better (limit : bool) (members : list (T * C)) (s : T) (cost : C) : bool :=
  if limit then
    match map_find eqb s members with Some c => cgeb ops cost c | None => false end
  else false.

(** Initialization loop, simple_astar_search.hpp:332-348. *)
Definition push_start (limit : bool) (heuristic : T -> C)
    (st : list pq_elem * list (T * C)) (start : T * C) : list pq_elem * list (T * C) :=
  let (queue, members) := st in
  if is_queue_better limit members (fst start) (snd start) then st
  else (queue ++ [mkElem (fst start) (snd start) (heuristic (fst start)) None],
        if limit then map_put (fst start) (snd start) members else members).

(** Body of the loop over the children, simple_astar_search.hpp:386-420. *)
Definition push_child (limit : bool) (heuristic : T -> C) (explored : explored_list) (top : pq_elem)
    (st : list pq_elem * list (T * C)) (child : T * C) : list pq_elem * list (T * C) :=
  let (queue, members) := st in
  let cost := cadd ops (el_cost top) (snd child) in
  if is_explored_better explored (fst child) cost then st
  else if is_queue_better limit members (fst child) cost then st
  else (queue ++ [mkElem (fst child) cost (cadd ops cost (heuristic (fst child)))
                         (Some (el_state top))],
        if limit then map_put (fst child) cost members else members).

(** Search loop, simple_astar_search.hpp:353-422. *)
Fixpoint astar_loop (goal : T -> bool) (children : T -> outcome (list (T * C)))
    (heuristic : T -> C) (limit : bool) (pick : picker pq_elem) (fuel k : nat)
    (queue : list pq_elem) (members : list (T * C)) (explored : explored_list)
    : outcome (option T * explored_list) :=
  match queue with
  | [] => Ok (None, explored)
  | _ =>
    match fuel with
    | O => Diverge
    | S fuel' =>
      do (top, rest) <- pq_pop pick k queue;
      let members := if limit then map_erase eqb (el_state top) members else members in
      if is_explored_better explored (el_state top) (el_cost top)
      then astar_loop goal children heuristic limit pick fuel' (S k) rest members explored
      else
        let explored := map_put (el_state top) (el_cost top, el_back top) explored in
        if goal (el_state top) then Ok (Some (el_state top), explored)
        else
          do cs <- children (el_state top);
          let (queue', members') :=
            fold_left (push_child limit heuristic explored top) cs (rest, members) in
          astar_loop goal children heuristic limit pick fuel' (S k) queue' members' explored
    end
  end.

(** AstarResult(path, cost), simple_astar_search.hpp:75-98; the default result
    is the empty path with infinite cost. *)
Definition MakeAstarResult (path : list T) (cost : C) : outcome (list T * C) :=
  match path with
  | [] => Ok (path, cost)
  | _ => if cisinf ops cost then Throw InvalidArgument else Ok (path, cost)
  end.

(** Back pointer loop of ExtractAstarResult, simple_astar_search.hpp:155-166;
    [path] is solution_path (newest last). *)
Fixpoint back_track (explored : explored_list) (fuel : nat) (path : list T) (back : option T)
    : outcome (list T) :=
  match back with
  | None => Ok path
  | Some b =>
    match fuel with
    | O => Diverge
    | S fuel' =>
      match map_find eqb b explored with
      | None => Throw OutOfRange
      | Some (_, b') => back_track explored fuel' (path ++ [b]) b'
      end
    end
  end.

(** ExtractAstarResult, simple_astar_search.hpp:134-176. *)
Definition ExtractAstarResult (explored : explored_list) (fuel : nat) (goal : T)
    : outcome (list T * C) :=
  match map_find eqb goal explored with
  | None => Ok ([], cinf ops)
  | Some (c, back) =>
    do path <- back_track explored fuel [goal] back;
    MakeAstarResult (rev path) c
  end.

(** Search for a start that meets the goal, simple_astar_search.hpp:243-259. *)
Definition best_goal_start (goal : T -> bool) (starts : list (T * C)) : option (T * C) :=
  snd (fold_left (fun (best : C * option (T * C)) s =>
         if goal (fst s) && cltb ops (snd s) (fst best) then (snd s, Some s) else best)
       starts (cinf ops, None)).

(** From the queue setup to the result, simple_astar_search.hpp:273-434. *)
Definition astar_search (starts : list (T * C)) (goal : T -> bool)
    (children : T -> outcome (list (T * C))) (heuristic : T -> C) (limit : bool)
    (pick : picker pq_elem) (fuel : nat) : outcome (list T * C) :=
  let (queue, members) := fold_left (push_start limit heuristic) starts ([], []) in
  do (found, explored) <- astar_loop goal children heuristic limit pick fuel 0 queue members [];
  match found with
  | Some g => ExtractAstarResult explored (S (length explored)) g
  | None => Ok ([], cinf ops)
  end.

(** PerformAstarSearch, simple_astar_search.hpp:225-434. *)
Definition PerformAstarSearch (starts : list (T * C)) (goal : T -> bool)
    (children : T -> outcome (list (T * C))) (heuristic : T -> C) (limit : bool)
    (pick : picker pq_elem) (fuel : nat) : outcome (list T * C) :=
  match starts with
  | [] => Throw InvalidArgument
  | _ =>
    match best_goal_start goal starts with
    | Some (s, c) => MakeAstarResult [s] c
    | None => astar_search starts goal children heuristic limit pick fuel
    end
  end.

(** StateWithCost(state, cost), simple_astar_search.hpp:193-200. *)
Definition MakeStateWithCost (s : T) (c : C) : outcome (T * C) :=
  if cltb ops c (czero ops) then Throw InvalidArgument else Ok (s, c).

(** valid_child_state_function, simple_astar_search.hpp:469-489. *)
Fixpoint valid_children (valid : T -> T -> bool) (distance : T -> T -> C) (parent : T)
    (candidates : list T) : outcome (list (T * C)) :=
  match candidates with
  | [] => Ok []
  | c :: r =>
    if valid parent c then
      do x <- MakeStateWithCost c (distance parent c);
      do xs <- valid_children valid distance parent r; Ok (x :: xs)
    else valid_children valid distance parent r
  end.

(** PerformAstarSearch with separate children, validity and distance functions,
    simple_astar_search.hpp:454-494. *)
Definition PerformAstarSearchEdges (starts : list (T * C)) (goal : T -> bool)
    (children : T -> list T) (valid : T -> T -> bool) (distance : T -> T -> C) (heuristic : T -> C)
    (limit : bool) (pick : picker pq_elem) (fuel : nat) : outcome (list T * C) :=
  PerformAstarSearch starts goal (fun s => valid_children valid distance s (children s))
    heuristic limit pick fuel.

(** PerformAstarSearch from one start state to one goal state,
    simple_astar_search.hpp:513-545. *)
Definition PerformAstarSearchPair (start goal : T)
    (children : T -> list T) (valid : T -> T -> bool) (distance heuristic : T -> T -> C)
    (limit : bool) (pick : picker pq_elem) (fuel : nat) : outcome (list T * C) :=
  PerformAstarSearchEdges [(start, czero ops)] (fun s => eqb s goal) children valid distance
    (fun s => heuristic s goal) limit pick fuel.

End Astar.
Arguments pq_elem : clear implicits. Arguments explored_list : clear implicits.

Section GraphAstar.
Context {V C : Type} (ops : cost_ops C).

(** Children of a node in the lazy search: out edges that pass the validity
    check, with their distances, simple_graph_search.hpp:383-399. *)
Definition graph_children (g : graph_like V C) (valid : GraphEdge C -> bool)
    (distance : GraphEdge C -> C) (i : Z) : outcome (list (Z * C)) :=
  do n <- gl_get g i;
  Ok (map (fun e => (to_index e, distance e)) (filter valid (out_edges n))).

(** PerformLazyAstarSearch with start costs and goal function,
    simple_graph_search.hpp:231-441.  The search loop is the one of
    simple_astar_search.hpp:273-434, repeated there for graph indices; the early
    return tests the start index itself against 0. *)
Definition PerformLazyAstarSearchFn (g : graph_like V C) (starts : list (Z * C)) (goal : Z -> bool)
    (valid : GraphEdge C -> bool) (distance : GraphEdge C -> C) (heuristic : Z -> C) (limit : bool)
    (pick : picker (pq_elem Z C)) (fuel : nat) : outcome (list Z * C) :=
  match starts with
  | [] => Throw InvalidArgument
  | _ =>
    match best_goal_start ops goal starts with
    | Some (s, c) =>
      if 0 <=? s then MakeAstarResult ops [s] c
      else astar_search ops Z.eqb starts goal (graph_children g valid distance) heuristic limit pick fuel
    | None => astar_search ops Z.eqb starts goal (graph_children g valid distance) heuristic limit pick fuel
    end
  end.

(** PerformLazyAstarSearch with start and goal indices,
    simple_graph_search.hpp:443-518. *)
Definition PerformLazyAstarSearch (g : graph_like V C) (starts goals : list Z)
    (valid : GraphEdge C -> bool) (distance : GraphEdge C -> C) (heuristic : Z -> Z -> C)
    (limit : bool) (pick : picker (pq_elem Z C)) (fuel : nat) : outcome (list Z * C) :=
  if negb (forallb (IndexInRange (gl_size g)) starts) then Throw InvalidArgument
  else if negb (forallb (IndexInRange (gl_size g)) goals) then Throw InvalidArgument
  else
    PerformLazyAstarSearchFn g (map (fun s => (s, czero ops)) starts)
      (fun i => existsb (Z.eqb i) goals) valid distance
      (fun i => fold_left (fun best t => if cltb ops (heuristic i t) best then heuristic i t else best)
                          goals (cinf ops))
      limit pick fuel.

(** Value of a node, as the wrappers read it (at() in range); [d] is never used
    for indices in range. *)
Definition node_value (g : graph_like V C) (d : V) (i : Z) : V :=
  match gl_get g i with Ok n => value n | _ => d end.

(** PerformLazyAstarSearch on node values, simple_graph_search.hpp:520-564. *)
Definition PerformLazyAstarSearchValues (d : V) (g : graph_like V C) (starts goals : list Z)
    (valid : V -> V -> bool) (distance heuristic : V -> V -> C) (limit : bool)
    (pick : picker (pq_elem Z C)) (fuel : nat) : outcome (list Z * C) :=
  PerformLazyAstarSearch g starts goals
    (fun e => valid (node_value g d (from_index e)) (node_value g d (to_index e)))
    (fun e => distance (node_value g d (from_index e)) (node_value g d (to_index e)))
    (fun i j => heuristic (node_value g d i) (node_value g d j)) limit pick fuel.

(** PerformAstarSearch on a graph, simple_graph_search.hpp:566-607: edges of
    infinite weight are not used. *)
Definition PerformGraphAstarSearch (d : V) (g : graph_like V C) (starts goals : list Z)
    (heuristic : V -> V -> C) (limit : bool) (pick : picker (pq_elem Z C)) (fuel : nat)
    : outcome (list Z * C) :=
  PerformLazyAstarSearch g starts goals
    (fun e => cltb ops (weight e) (cinf ops)) (@weight C)
    (fun i j => heuristic (node_value g d i) (node_value g d j)) limit pick fuel.

End GraphAstar.
