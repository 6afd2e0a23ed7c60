(** Model of include/common_robotics_utilities/simple_prm_planner.hpp.

    The distance function and the edge validity function are functions of the two
    states (the thread number they also receive is not used by the model); the
    state sampler, the state validity check and the termination check are
    stateful and may throw.  Costs are an abstract type with the operations of
    double ([cost_ops] of SearchModel.v).  The -1.0 that marks an infeasible edge
    is [None] here (it is only compared with >= 0.0, which is false).
    StaticParallelForIndexLoop runs each index exactly once (C09), in an order
    given by an oracle; items write different elements.  The time entry of the
    statistics is not modelled, and the four counters are integers (the doubles
    count exactly below 2^53). *)
From Verif Require Import Base Effect ParallelismModel GraphModel SearchModel.
Local Open Scope Z_scope.

(** enum class NNDistanceDirection, simple_prm_planner.hpp:28. *)
Inductive direction : Type := RoadmapToNewState | NewStateToRoadmap.

(** A for loop whose body changes state. *)
Fixpoint for_each {S A} (body : A -> eff S unit) (l : list A) : eff S unit :=
  match l with
  | [] => ret tt
  | x :: r => run _ <- body x; for_each body r
  end.

(** A mutating member function that either succeeds or leaves the object alone. *)
Definition modify {G} (f : G -> outcome G) : eff G unit :=
  fun g => match f g with
           | Ok g' => (Ok tt, g')
           | Throw e => (Throw e, g)
           | UB => (UB, g)
           | Diverge => (Diverge, g)
           end.

Section Prm.
Context {V C : Type} (ops : cost_ops C).

(** Distance() == 0.0, Distance() >= 0.0 and Distance() > 0.0. *)
Definition is_zero (d : C) : bool := cgeb ops d (czero ops) && cgeb ops (czero ops) d.
Definition not_negative (d : C) : bool := cgeb ops d (czero ops).
Definition positive (d : C) : bool := cltb ops (czero ops) d.

(** What the planner uses of GraphType (Graph or NonOwningGraphOverlay): reading,
    AddNode(value), AddEdgeBetweenNodes. *)
Record roadmap_type (G : Type) : Type := mkRoadmap {
  rm_view : G -> graph_like V C;
  rm_add : G -> V -> Z * G;
  rm_edge : G -> Z -> Z -> C -> outcome G }.
Arguments mkRoadmap {G}. Arguments rm_view {G}. Arguments rm_add {G}. Arguments rm_edge {G}.

(** simple_graph::Graph<T>. *)
Definition graph_roadmap : roadmap_type (list (GraphNode V C)) :=
  mkRoadmap (fun g => as_graph_like g) (fun g v => AddNodeValue g v)
    (fun g a b w => AddEdgeBetweenNodes g a b w).
(** simple_graph::NonOwningGraphOverlay<T, Graph<T>>; AddNode(value) at
    simple_graph.hpp:858-863 wraps the value. *)
Definition overlay_roadmap : roadmap_type (GraphOverlay V C) :=
  mkRoadmap (fun o => overlay_graph_like o) (fun o v => OverlayAddNode o (mkNode v [] []))
    (fun o a b w => OverlayAddEdge o a b w).

(** DoGetKNearestNeighbors of a GraphKNNProvider, simple_prm_planner.hpp:97-108:
    roadmap, state, K, direction, max_node_index_for_knn. *)
Definition knn_provider : Type := graph_like V C -> V -> Z -> direction -> Z -> outcome (list (Z * C)).

(** GraphKNNProvider::GetKNearestNeighbors and SanityCheckKNNResults,
    simple_prm_planner.hpp:42-79, 111-126. *)
Definition GetKNearestNeighbors (knn : knn_provider) (g : graph_like V C) (state : V) (K : Z)
    (dir : direction) (max : Z) : outcome (list (Z * C)) :=
  do l <- knn g state K dir max;
  if existsb (fun nb => (gl_size g <=? fst nb) || (max <=? fst nb)) l
  then Throw RuntimeError else Ok l.

(** All elements of a GraphKNNAdapter, simple_graph.hpp:304-333. *)
Fixpoint read_nodes (g : graph_like V C) (l : list Z) : outcome (list (GraphNode V C)) :=
  match l with
  | [] => Ok []
  | i :: r => do n <- gl_get g i; do ns <- read_nodes g r; Ok (n :: ns)
  end.

(** LinearGraphKNNProvider, simple_prm_planner.hpp:130-205; [search] is
    simple_knearest_neighbors::GetKNearestNeighbors (KnnModel.v). *)
Definition LinearGraphKNN (search : list (GraphNode V C) -> (GraphNode V C -> C) -> Z -> outcome (list (Z * C)))
    (dist : V -> V -> C) : knn_provider :=
  fun g state K dir max =>
    if gl_size g <? max then Throw InvalidArgument
    else if max <? 0 then Throw InvalidArgument
    else
      do nodes <- read_nodes g (seqZ 0 max);
      search nodes (fun n => match dir with
                             | RoadmapToNewState => dist (value n) state
                             | NewStateToRoadmap => dist state (value n)
                             end) K.

Section Add.
Variable knn : knn_provider.
Variable dist : V -> V -> C.
Variable valid : V -> V -> bool.
(** Order in which the items of the parallel loop run, for a roadmap of the given
    size and the given number of items. *)
Variable order : Z -> Z -> list Z.

(** per_item_work of AddNodeToRoadmap, simple_prm_planner.hpp:271-320. *)
Definition connection_distances (g : graph_like V C) (state : V) (dir : direction) (symmetric : bool)
    (neighbors : list (Z * C)) (distances : list (option C * option C)) (index : Z)
    : outcome (list (option C * option C)) :=
  let idx := Z.to_nat index in
  do nb <- at_get neighbors idx;
  do n <- gl_get g (fst nb);
  let g2n := snd nb in
  let g2n_valid := valid (value n) state in
  if g2n_valid && symmetric then at_set distances idx (Some g2n, Some g2n)
  else if negb symmetric then
    let n2g_valid := valid state (value n) in
    let n2g := dist state (value n) in
    let real_g2n := if g2n_valid then Some g2n else None in
    let real_n2g := if n2g_valid then Some n2g else None in
    match dir with
    | RoadmapToNewState => at_set distances idx (real_g2n, real_n2g)
    | NewStateToRoadmap => at_set distances idx (real_n2g, real_g2n)
    end
  else at_set distances idx (None, None).

(** Body of the serial loop that adds the edges, simple_prm_planner.hpp:326-346. *)
Definition add_connection {G} (rt : roadmap_type G) (neighbors : list (Z * C))
    (distances : list (option C * option C)) (new_node : Z) (idx : nat) : eff G unit :=
  run nb <- lift (at_get neighbors idx);
  run p <- lift (at_get distances idx);
  run _ <- match fst p with
           | Some d => if not_negative d then modify (fun g => rm_edge rt g (fst nb) new_node d) else ret tt
           | None => ret tt
           end;
  match snd p with
  | Some d => if not_negative d then modify (fun g => rm_edge rt g new_node (fst nb) d) else ret tt
  | None => ret tt
  end.

(** AddNodeToRoadmap, simple_prm_planner.hpp:233-349. *)
Definition AddNodeToRoadmap {G} (rt : roadmap_type G) (state : V) (dir : direction) (K max : Z)
    (symmetric add_duplicates : bool) : eff G Z :=
  run g <- get;
  run neighbors <- lift (GetKNearestNeighbors knn (rm_view rt g) state K dir max);
  match (if add_duplicates then None else find (fun nb => is_zero (snd nb)) neighbors) with
  | Some nb => ret (fst nb)
  | None =>
    let (new_node, g1) := rm_add rt g state in
    run _ <- put g1;
    run distances <- lift
      (mfold (connection_distances (rm_view rt g1) state dir symmetric neighbors)
         (repeat (Some (czero ops), Some (czero ops)) (length neighbors))
         (order (gl_size (rm_view rt g1)) (Z.of_nat (length neighbors))));
    run _ <- for_each (add_connection rt neighbors distances new_node) (seq 0 (length neighbors));
    ret new_node
  end.

(** Statistics of GrowRoadMap, simple_prm_planner.hpp:393-397. *)
Record grow_statistics : Type := mkStats {
  total_samples : Z; successful_samples : Z; duplicate_samples : Z; failed_samples : Z }.

Section Grow.
Context {G W : Type} (rt : roadmap_type G).
Variable sampling : eff W V.
Variable state_valid : V -> eff W bool.
Variable terminate : Z -> eff W bool.

(** The while loop of GrowRoadMap, simple_prm_planner.hpp:401-426. *)
Fixpoint grow_loop (K : Z) (symmetric add_duplicates : bool) (fuel : nat) (st : grow_statistics)
    : eff (G * W) grow_statistics :=
  run s0 <- get;
  run finished <- on_snd (terminate (gl_size (rm_view rt (fst s0))));
  if (finished : bool) then ret st
  else match fuel with
  | O => lift Diverge
  | S fuel' =>
    run sample <- on_snd sampling;
    run ok <- on_snd (state_valid sample);
    if (ok : bool) then
      run s1 <- get;
      let pre_size := gl_size (rm_view rt (fst s1)) in
      run _ <- on_fst (AddNodeToRoadmap rt sample RoadmapToNewState K pre_size symmetric add_duplicates);
      run s2 <- get;
      let post_size := gl_size (rm_view rt (fst s2)) in
      if pre_size <? post_size
      then grow_loop K symmetric add_duplicates fuel'
             (mkStats (total_samples st + 1) (successful_samples st + 1) (duplicate_samples st) (failed_samples st))
      else grow_loop K symmetric add_duplicates fuel'
             (mkStats (total_samples st + 1) (successful_samples st) (duplicate_samples st + 1) (failed_samples st))
    else grow_loop K symmetric add_duplicates fuel'
           (mkStats (total_samples st + 1) (successful_samples st) (duplicate_samples st) (failed_samples st + 1))
  end.

(** GrowRoadMap, simple_prm_planner.hpp:379-432; [fuel] bounds the iterations. *)
Definition GrowRoadMap (K : Z) (symmetric add_duplicates : bool) (fuel : nat) : eff (G * W) grow_statistics :=
  grow_loop K symmetric add_duplicates fuel (mkStats 0 0 0 0).
End Grow.

Section Query.
Context {G : Type} (rt : roadmap_type G).
Variable pick : picker (pq_elem Z C).

(** The loops that add the start nodes and the goal nodes,
    simple_prm_planner.hpp:814-835 and 905-926. *)
Fixpoint add_states (dir : direction) (K max : Z) (symmetric add_duplicates : bool) (states : list V)
    : eff G (list Z) :=
  match states with
  | [] => ret []
  | s :: r =>
    run i <- AddNodeToRoadmap rt s dir K max symmetric add_duplicates;
    run is <- add_states dir K max symmetric add_duplicates r;
    ret (i :: is)
  end.

(** Values of the nodes of the path, simple_prm_planner.hpp:743-751. *)
Fixpoint path_states (g : graph_like V C) (path : list Z) : outcome (list V) :=
  match path with
  | [] => Ok []
  | i :: r => do n <- gl_get g i; do vs <- path_states g r; Ok (value n :: vs)
  end.

(** ExtractSolution, simple_prm_planner.hpp:738-754. *)
Definition ExtractSolution (g : graph_like V C) (result : list Z * C) : outcome (list V * C) :=
  do path <- path_states g (fst result);
  MakeAstarResult ops path (snd result).

(** LazyQueryPathAndAddNodes, simple_prm_planner.hpp:788-851 (when [lazy]) and
    QueryPathAndAddNodes, simple_prm_planner.hpp:879-936: they differ in the search they call. *)
Definition QueryPathAndAddNodes (lazy : bool) (starts goals : list V) (K : Z)
    (symmetric add_duplicates limit : bool) (fuel : nat) : eff G (list V * C) :=
  match starts, goals with
  | [], _ => lift (Throw RuntimeError)
  | _, [] => lift (Throw RuntimeError)
  | d :: _, _ =>
    run g0 <- get;
    run start_indices <- add_states NewStateToRoadmap K (gl_size (rm_view rt g0)) symmetric add_duplicates starts;
    run g1 <- get;
    run goal_indices <- add_states RoadmapToNewState K (gl_size (rm_view rt g1)) symmetric add_duplicates goals;
    run g2 <- get;
    run result <- lift
      (if lazy
       then PerformLazyAstarSearchValues ops d (rm_view rt g2) start_indices goal_indices valid dist dist limit pick fuel
       else PerformGraphAstarSearch ops d (rm_view rt g2) start_indices goal_indices dist limit pick fuel);
    lift (ExtractSolution (rm_view rt g2) result)
  end.
End Query.

(** LazyQueryPath, simple_prm_planner.hpp:969-1004, and QueryPath, 1031-1066: with
    use_roadmap_overlay the nodes are added to an overlay of the caller's
    roadmap, otherwise to a copy.  Also returns what the caller's roadmap and the
    working object are afterwards. *)
Definition QueryPathOverlay (lazy : bool) (pick : picker (pq_elem Z C)) (starts goals : list V)
    (roadmap : list (GraphNode V C)) (K : Z) (symmetric add_duplicates limit : bool) (fuel : nat)
    : outcome (list V * C) * GraphOverlay V C :=
  QueryPathAndAddNodes overlay_roadmap pick lazy starts goals K symmetric add_duplicates limit fuel
    (MakeOverlay (as_graph_like roadmap)).
Definition QueryPathCopy (lazy : bool) (pick : picker (pq_elem Z C)) (starts goals : list V)
    (roadmap : list (GraphNode V C)) (K : Z) (symmetric add_duplicates limit : bool) (fuel : nat)
    : outcome (list V * C) * list (GraphNode V C) :=
  QueryPathAndAddNodes graph_roadmap pick lazy starts goals K symmetric add_duplicates limit fuel roadmap.

End Add.

Section Build.
Context {W : Type}.
Variable sampling : eff W V.
Variable state_valid : V -> eff W bool.
Variable knn : knn_provider.
Variable dist : V -> V -> C.
Variable valid : V -> V -> bool.
(** simple_knearest_neighbors::GetKNearestNeighbors over the sampled states. *)
Variable search : list (option V) -> (option V -> C) -> Z -> outcome (list (Z * C)).

(** roadmap_states_distance_fn, simple_prm_planner.hpp:493-505. *)
Definition sampled_distance (sample : V) (s : option V) : C :=
  match s with Some v => dist v sample | None => cinf ops end.

(** valid_sample_fn, simple_prm_planner.hpp:510-535; [tries] is what remains of
    max_valid_sample_tries. *)
Fixpoint valid_sample (add_duplicates : bool) (states : list (option V)) (tries : nat) : eff W (option V) :=
  match tries with
  | O => ret None
  | S tries' =>
    run sample <- sampling;
    run ok <- state_valid sample;
    if ok && add_duplicates then ret (Some sample)
    else if (ok : bool) then
      run l <- lift (search states (sampled_distance sample) 1);
      run nearest <- lift (at_get l 0);
      if positive (snd nearest) then ret (Some sample) else valid_sample add_duplicates states tries'
    else valid_sample add_duplicates states tries'
  end.

(** sampling_item_work and its loop, simple_prm_planner.hpp:546-554. *)
Fixpoint sample_items (add_duplicates : bool) (tries : nat) (items : list Z) (states : list (option V))
    : eff W (list (option V)) :=
  match items with
  | [] => ret states
  | i :: r =>
    run s <- valid_sample add_duplicates states tries;
    run states' <- lift (at_set states (Z.to_nat i) s);
    sample_items add_duplicates tries r states'
  end.

(** Population of the roadmap, simple_prm_planner.hpp:557-568. *)
Fixpoint populate (states : list (option V)) (g : list (GraphNode V C)) : outcome (list (GraphNode V C)) :=
  match states with
  | [] => Ok g
  | Some v :: r => populate r (snd (AddNodeValue g v))
  | None :: _ => Throw RuntimeError
  end.

(** Loop body over the neighbors in connection_item_work,
    simple_prm_planner.hpp:583-614. *)
Definition connect_neighbor (symmetric : bool) (node_index : Z) (state : V) (g : list (GraphNode V C))
    (nb : Z * C) : outcome (list (GraphNode V C)) :=
  let other := fst nb in
  if other =? node_index then Ok g
  else
    do o <- GetNode g other;
    let in_valid := valid (value o) state in
    do g1 <- (if in_valid
              then UpdateNode g node_index (fun n => AddInEdge n (mkEdge other node_index (snd nb) 0%N))
              else Ok g);
    if symmetric && in_valid
    then UpdateNode g1 node_index (fun n => AddOutEdge n (mkEdge node_index other (snd nb) 0%N))
    else if valid state (value o)
    then UpdateNode g1 node_index (fun n => AddOutEdge n (mkEdge node_index other (dist state (value o)) 0%N))
    else Ok g1.

(** connection_item_work, simple_prm_planner.hpp:572-615; K + 1 overflows for the
    largest int64_t. *)
Definition connect_item (symmetric : bool) (K : Z) (g : list (GraphNode V C)) (node_index : Z)
    : outcome (list (GraphNode V C)) :=
  do n <- GetNode g node_index;
  if 2 ^ 63 - 1 <=? K then UB
  else
    do l <- GetKNearestNeighbors knn (as_graph_like g) (value n) (K + 1) RoadmapToNewState (Size g);
    mfold (connect_neighbor symmetric node_index (value n)) g l.

(** Loops that make the linkage consistent, simple_prm_planner.hpp:617-674.  The
    loops change only nodes other than the one whose edges they read. *)
Definition link_in_edge (node_index : Z) (g : list (GraphNode V C)) (e : GraphEdge C)
    : outcome (list (GraphNode V C)) :=
  do o <- GetNode g (from_index e);
  if existsb (fun x => to_index x =? node_index) (out_edges o) then Ok g
  else UpdateNode g (from_index e) (fun n => AddOutEdge n (mkEdge (from_index e) node_index (weight e) 0%N)).
Definition link_out_edge (node_index : Z) (g : list (GraphNode V C)) (e : GraphEdge C)
    : outcome (list (GraphNode V C)) :=
  do o <- GetNode g (to_index e);
  if existsb (fun x => from_index x =? node_index) (in_edges o) then Ok g
  else UpdateNode g (to_index e) (fun n => AddInEdge n (mkEdge node_index (to_index e) (weight e) 0%N)).
Definition link_node (g : list (GraphNode V C)) (node_index : Z) : outcome (list (GraphNode V C)) :=
  do n <- GetNode g node_index;
  do g1 <- mfold (link_in_edge node_index) g (in_edges n);
  do n1 <- GetNode g1 node_index;
  mfold (link_out_edge node_index) g1 (out_edges n1).

(** BuildRoadMap, simple_prm_planner.hpp:461-677: [sample_order] and
    [connect_order] are the orders in which the two parallel loops run their
    items; the sampling loop is serial unless duplicates are allowed and parallel
    sampling is requested. *)
Definition BuildRoadMap (sample_order connect_order : list Z) (roadmap_size K max_tries : Z)
    (use_parallel_sampling symmetric add_duplicates : bool) : eff W (list (GraphNode V C)) :=
  if roadmap_size <? 0 then lift (Throw RuntimeError)
  else if K <? 1 then lift (Throw RuntimeError)
  else if max_tries <? 1 then lift (Throw RuntimeError)
  else
    run states <- sample_items add_duplicates (Z.to_nat max_tries)
      (if use_parallel_sampling && add_duplicates then sample_order else seqZ 0 roadmap_size)
      (repeat None (Z.to_nat roadmap_size));
    run g <- lift (populate states []);
    run g1 <- lift (mfold (connect_item symmetric K) g connect_order);
    lift (mfold link_node g1 (seqZ 0 (Size g1))).
End Build.

Section Update.
Variable dist : V -> V -> C.
Variable valid : V -> V -> bool.

(** updated_weight, simple_prm_planner.hpp:709-715. *)
Definition updated_weight (from to : V) : C := if valid from to then dist from to else cinf ops.

(** Body of the loop over the out edges in UpdateRoadMapEdges,
    simple_prm_planner.hpp:704-726, for out edge number [k] of node [i]. *)
Definition update_out_edge (i : Z) (g : list (GraphNode V C)) (k : nat) : outcome (list (GraphNode V C)) :=
  do n <- GetNode g i;
  do e <- raw_get (out_edges n) k;
  do o <- GetNode g (to_index e);
  let w := updated_weight (value n) (value o) in
  do g1 <- UpdateNode g i (fun n => mkNode (value n) (in_edges n) (upd (out_edges n) k (SetWeight e w)));
  UpdateNode g1 (to_index e) (fun o => mkNode (value o)
    (map (fun x => if from_index x =? i then SetWeight x w else x) (in_edges o)) (out_edges o)).

(** per_item_work of UpdateRoadMapEdges, simple_prm_planner.hpp:699-727. *)
Definition update_item (g : list (GraphNode V C)) (i : Z) : outcome (list (GraphNode V C)) :=
  do n <- GetNode g i;
  mfold (update_out_edge i) g (seq 0 (length (out_edges n))).

(** UpdateRoadMapEdges, simple_prm_planner.hpp:686-732. *)
Definition UpdateRoadMapEdges (order : list Z) (g : list (GraphNode V C)) : outcome (list (GraphNode V C)) :=
  do ok <- CheckGraphLinkage (as_graph_like g);
  if (ok : bool) then mfold update_item g order else Throw InvalidArgument.
End Update.
End Prm.
Arguments mkRoadmap {V C G}. Arguments rm_view {V C G}. Arguments rm_add {V C G}. Arguments rm_edge {V C G}.
