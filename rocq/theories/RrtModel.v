(** Model of include/common_robotics_utilities/simple_rrt_planner.hpp.

    States, samples and the callbacks' own data ([W], including random sources
    and clocks) are abstract; callbacks may fail and may change [W], and those
    that are given the tree by mutable reference may change the tree.  The
    TreeType template parameter is the library's SimpleRRTPlannerTree.  The
    statistics are counters (in the code doubles counting by 1.0, exact below
    2^53) and planning_time is not modelled.  Memory exhaustion is not modelled. *)
From Verif Require Import Base Effect SerializationModel ParallelismModel GraphModel.
Local Open Scope Z_scope.

(** class SimpleRRTPlannerState, simple_rrt_planner.hpp:30-142. *)
Record rrt_node (S : Type) : Type := mkRrtNode {
  state_value : S; parent_index : Z; child_indices : list Z }.
Arguments mkRrtNode {S} _ _ _. Arguments state_value {S} _.
Arguments parent_index {S} _. Arguments child_indices {S} _.

(** SetParentIndex, ClearChildIndicies, AddChildIndex and RemoveChildIndex,
    simple_rrt_planner.hpp:107-141. *)
Definition SetParentIndex {S} (n : rrt_node S) (p : Z) : rrt_node S :=
  mkRrtNode (state_value n) p (child_indices n).
Definition ClearChildIndices {S} (n : rrt_node S) : rrt_node S :=
  mkRrtNode (state_value n) (parent_index n) [].
Definition AddChildIndex {S} (n : rrt_node S) (c : Z) : rrt_node S :=
  if existsb (Z.eqb c) (child_indices n) then n
  else mkRrtNode (state_value n) (parent_index n) (child_indices n ++ [c]).
Definition RemoveChildIndex {S} (n : rrt_node S) (c : Z) : rrt_node S :=
  mkRrtNode (state_value n) (parent_index n) (filter (fun x => negb (x =? c)) (child_indices n)).

(** class SimpleRRTPlannerTree, simple_rrt_planner.hpp:154-355: its nodes_. *)
Notation rrt_tree S := (list (rrt_node S)) (only parsing).

(** Size, GetNodeImmutable and GetNodeMutable, simple_rrt_planner.hpp:222-238. *)
Definition TreeSize {S} (t : rrt_tree S) : Z := Z.of_nat (length t).
Definition GetTreeNode {S} (t : rrt_tree S) (index : Z) : outcome (rrt_node S) :=
  if index <? 0 then Throw OutOfRange else at_get t (Z.to_nat index).

(** AddNode, simple_rrt_planner.hpp:240-244. *)
Definition AddTreeNode {S} (v : S) : eff (rrt_tree S) Z :=
  run t <- get;
  run _ <- put (t ++ [mkRrtNode v (-1) []]);
  ret (TreeSize (t ++ [mkRrtNode v (-1) []]) - 1).

(** AddNodeAndConnect, simple_rrt_planner.hpp:246-252: the node is appended
    before the parent is looked up. *)
Definition AddNodeAndConnect {S} (v : S) (parent : Z) : eff (rrt_tree S) Z :=
  run t <- get;
  let t1 := t ++ [mkRrtNode v parent []] in
  run _ <- put t1;
  let new_node_index := TreeSize t1 - 1 in
  run p <- lift (GetTreeNode t1 parent);
  run t2 <- lift (at_set t1 (Z.to_nat parent) (AddChildIndex p new_node_index));
  run _ <- put t2;
  ret new_node_index.

(** Loop over the child indices in CheckNodeLinkage, 324-351. *)
Fixpoint check_children {S} (t : rrt_tree S) (current : Z) (cs : list Z) : outcome bool :=
  match cs with
  | [] => Ok true
  | c :: rest =>
      if (0 <? c) && (c <? TreeSize t) then
        if current <? c then
          do child <- GetTreeNode t c;
          if negb (parent_index child =? current) then Ok false else check_children t current rest
        else Ok false
      else Ok false
  end.

(** Body of the loop over the nodes in CheckNodeLinkage, 285-352. *)
Definition check_tree_node {S} (t : rrt_tree S) (current : Z) : outcome bool :=
  do n <- GetTreeNode t current;
  if current <? parent_index n then Ok false
  else
    do parent_fine <-
      (if (0 <=? parent_index n) && (parent_index n <? TreeSize t) then
         if negb (parent_index n =? current) then
           do p <- GetTreeNode t (parent_index n);
           Ok (existsb (Z.eqb current) (child_indices p))
         else Ok false
       else Ok true);
    if parent_fine : bool then check_children t current (child_indices n) else Ok false.

(** CheckNodeLinkage, simple_rrt_planner.hpp:280-354. *)
Fixpoint check_tree_from {S} (t : rrt_tree S) (indices : list Z) : outcome bool :=
  match indices with
  | [] => Ok true
  | i :: rest => do fine <- check_tree_node t i; if fine : bool then check_tree_from t rest else Ok false
  end.
Definition CheckNodeLinkage {S} (t : rrt_tree S) : outcome bool :=
  check_tree_from t (seqZ 0 (TreeSize t)).

(** SetNodes, 261-272, and the constructor from nodes, 213-220. *)
Definition SetNodes {S} (nodes : rrt_tree S) : eff (rrt_tree S) bool :=
  run fine <- lift (CheckNodeLinkage nodes);
  if fine : bool then run _ <- put nodes; ret true else ret false.
Definition MakeTree {S} (nodes : rrt_tree S) : outcome (rrt_tree S) :=
  do fine <- CheckNodeLinkage nodes;
  if fine : bool then Ok nodes else Throw InvalidArgument.

(** SimpleRRTPlannerState::Serialize and Deserialize, 41-87. *)
Definition SerializeRrtNode {S} (le : bool) (sv : Serializer S) : Serializer (rrt_node S) :=
  fun n buf =>
    let b1 := snd (sv (state_value n) buf) in
    let b2 := snd (SerializeMemcpyableVectorLike le (int64_rep le) (child_indices n) b1) in
    let b3 := snd (SerializeMemcpyable (int64_rep le) (parent_index n) b2) in
    written buf b3.
Definition DeserializeRrtNode {S} (le : bool) (maxc : N) (dv : Deserializer S)
    : Deserializer (rrt_node S) :=
  fun buf off =>
    do (v, n1) <- dv buf off;
    let p1 := wrap (off + n1) in
    do (cs, n2) <- DeserializeMemcpyableVectorLike le maxc (int64_rep le) buf p1;
    let p2 := wrap (p1 + n2) in
    do (p, n3) <- DeserializeMemcpyable (int64_rep le) buf p2;
    let p3 := wrap (p2 + n3) in
    MakeDeserialized (mkRrtNode v p cs) (sub64 p3 off).

(** SimpleRRTPlannerTree::Serialize and Deserialize, 163-203. *)
Definition SerializeTree {S} (le : bool) (sv : Serializer S) : Serializer (rrt_tree S) :=
  SerializeVectorLike false le (SerializeRrtNode le sv).
Definition DeserializeTree {S} (le : bool) (maxn maxc : N) (dv : Deserializer S)
    : Deserializer (rrt_tree S) :=
  fun buf off =>
    do (nodes, n) <- DeserializeVectorLike false le maxn (DeserializeRrtNode le maxc dv) buf off;
    do tree <- MakeTree nodes;
    MakeDeserialized tree n.

(** ExtractSolutionPath, simple_rrt_planner.hpp:582-602.  [walk] is the while
    loop; the tree does not change during it, so a walk of more steps than the
    tree has nodes repeats a node and never ends. *)
Fixpoint walk {S} (fuel : nat) (t : rrt_tree S) (parent : Z) : outcome (list S) :=
  if 0 <=? parent then
    match fuel with
    | O => Diverge
    | Datatypes.S f =>
        do p <- GetTreeNode t parent;
        do rest <- walk f t (parent_index p);
        Ok (state_value p :: rest)
    end
  else Ok [].
Definition ExtractSolutionPath {S} (t : rrt_tree S) (goal : Z) : outcome (list S) :=
  do g <- GetTreeNode t goal;
  do rest <- walk (length t) t (parent_index g);
  Ok (rev (state_value g :: rest)).

(** ExtractSolutionPaths, 608-624. *)
Fixpoint ExtractSolutionPaths {S} (t : rrt_tree S) (goals : list Z) : outcome (list (list S)) :=
  match goals with
  | [] => Ok []
  | g :: rest =>
      do p <- ExtractSolutionPath t g;
      do ps <- ExtractSolutionPaths t rest;
      Ok (p :: ps)
  end.

(** The statistics: total_samples, successful_samples, failed_samples,
    total_states, solutions. *)
Record rrt_statistics : Type := mkRrtStats {
  total_samples : Z; successful_samples : Z; failed_samples : Z; total_states : Z; solutions : Z }.

Section RRT.
Context {S Sample W : Type}.
Notation world := (rrt_tree S * W)%type.

(** The arguments of RRTPlanMultiPath besides the tree, 672-687.  [None] is an
    empty std::function; the other functions are not empty. *)
Record rrt_callbacks : Type := mkRrtCallbacks {
  sampling_fn : eff W Sample;
  nearest_neighbor_fn : rrt_tree S -> Sample -> eff W Z;
  forward_propagation_fn : S -> Sample -> eff W (list (S * Z));
  state_added_callback_fn : option (Z -> eff world unit);
  check_goal_reached_fn : S -> eff W bool;
  goal_reached_callback_fn : option (Z -> eff world unit);
  termination_check_fn : Z -> eff W bool }.
Variable cb : rrt_callbacks.

Definition the_tree : eff world (rrt_tree S) := run s <- get; ret (fst s).

(** The loop over the initial nodes, 702-710; [fuel] because a callback may add
    nodes. *)
Fixpoint initial_goals (fuel : nat) (idx : Z) (goals : list Z) : eff world (list Z) :=
  run t <- the_tree;
  if idx <? TreeSize t then
    match fuel with
    | O => lift Diverge
    | Datatypes.S f =>
        run n <- lift (GetTreeNode t idx);
        run reached <- on_snd (check_goal_reached_fn cb (state_value n));
        if reached : bool then
          run _ <- call (goal_reached_callback_fn cb) idx;
          initial_goals f (idx + 1) (goals ++ [idx])
        else initial_goals f (idx + 1) goals
    end
  else ret goals.

(** The loop over the propagated states, 743-789: [mapping] is
    propagated_index_to_tree_index. *)
Fixpoint add_propagated (nearest : Z) (mapping : list Z) (props : list (S * Z)) (goals : list Z)
    : eff world (list Z) :=
  match props with
  | [] => ret goals
  | (current, relative) :: rest =>
      run node_parent_index <-
        (if 0 <=? relative then lift (at_get mapping (Z.to_nat relative)) else ret nearest);
      run new_node_index <- on_fst (AddNodeAndConnect current node_parent_index);
      let mapping' := mapping ++ [new_node_index] in
      run _ <- (match state_added_callback_fn cb with Some f => f new_node_index | None => ret tt end);
      run t <- the_tree;
      run n <- lift (GetTreeNode t new_node_index);
      run reached <- on_snd (check_goal_reached_fn cb (state_value n));
      if reached : bool then
        run _ <- (match goal_reached_callback_fn cb with Some f => f new_node_index | None => ret tt end);
        add_propagated nearest mapping' rest (goals ++ [new_node_index])
      else add_propagated nearest mapping' rest goals
  end.

(** One iteration of the planning loop, 719-796; the counters are
    total_samples, successful_samples and failed_samples. *)
Notation counters := (Z * Z * Z)%type.
Definition rrt_iteration (c : counters) (goals : list Z) : eff world (counters * list Z) :=
  let '(total, succ, fail) := c in
  run random_target <- on_snd (sampling_fn cb);
  let total := total + 1 in
  run t <- the_tree;
  run nearest <- on_snd (nearest_neighbor_fn cb t random_target);
  run n <- lift (GetTreeNode t nearest);
  run propagated <- on_snd (forward_propagation_fn cb (state_value n) random_target);
  match propagated with
  | [] => ret (total, succ, fail + 1, goals)
  | _ :: _ =>
      let succ := succ + 1 in
      run goals' <- add_propagated nearest [] propagated goals;
      ret (total, succ, fail, goals')
  end.

(** The planning loop, 716-796. *)
Fixpoint rrt_loop (fuel : nat) (c : counters) (goals : list Z) : eff world (counters * list Z) :=
  run t <- the_tree;
  run stop <- on_snd (termination_check_fn cb (TreeSize t));
  if stop : bool then ret (c, goals)
  else
    match fuel with
    | O => lift Diverge
    | Datatypes.S f => run (c', goals') <- rrt_iteration c goals; rrt_loop f c' goals'
    end.

(** RRTPlanMultiPath, 668-814. *)
Definition RRTPlanMultiPath (fuel : nat) : eff world (list (list S) * rrt_statistics) :=
  run t <- the_tree;
  if (length t =? 0)%nat then lift (Throw InvalidArgument)
  else
    run goals <- initial_goals fuel 0 [];
    run (total, succ, fail, goals) <- rrt_loop fuel (0, 0, 0) goals;
    run t <- the_tree;
    run paths <- lift (ExtractSolutionPaths t goals);
    ret (paths, mkRrtStats total succ fail (TreeSize t) (Z.of_nat (length paths))).
End RRT.
Arguments rrt_callbacks S Sample W : clear implicits.

(** Code over [W] run with one more local variable. *)
Definition beside {T W V A} (m : eff (T * W) A) : eff (T * (W * V)) A :=
  fun s => let '(t, (w, v)) := s in let '(r, (t', w')) := m (t, w) in (r, (t', (w', v))).

Section Single.
Context {S Sample W : Type}.
Variable cb : rrt_callbacks S Sample W.

(** The functions RRTPlanSinglePath passes on, 1219-1234; the flag is
    solution_found. *)
Definition single_callbacks : rrt_callbacks S Sample (W * bool) :=
  mkRrtCallbacks
    (on_fst (sampling_fn cb))
    (fun t s => on_fst (nearest_neighbor_fn cb t s))
    (fun s x => on_fst (forward_propagation_fn cb s x))
    (option_map (fun f i => beside (f i)) (state_added_callback_fn cb))
    (fun s => on_fst (check_goal_reached_fn cb s))
    (Some (fun i =>
       run _ <- on_snd (on_snd (put true));
       match goal_reached_callback_fn cb with Some f => beside (f i) | None => ret tt end))
    (fun n =>
       run found <- on_snd get;
       if found : bool then ret true else on_fst (termination_check_fn cb n)).

(** RRTPlanSinglePath, 1199-1250. *)
Definition RRTPlanSinglePath (fuel : nat) : eff (rrt_tree S * W) (list S * rrt_statistics) :=
  fun s =>
    let '(r, (t, (w, _))) := RRTPlanMultiPath single_callbacks fuel (fst s, (snd s, false)) in
    (do r <- r; Ok (match fst r with p :: _ => p | [] => [] end, snd r), (t, w)).
End Single.

(** ** Bidirectional planner *)

(** BiRRTSampleType and BiRRTActiveTreeType, 501-504. *)
Inductive sample_type : Type := TREE_SAMPLE | STATE_SAMPLE.
Inductive active_tree : Type := START_TREE | GOAL_TREE.

Record birrt_statistics : Type := mkBiStats {
  start_tree_active_iterations : Z; goal_tree_active_iterations : Z;
  bi_total_samples : Z; bi_successful_samples : Z; bi_failed_samples : Z;
  active_tree_swaps : Z; bi_total_states : Z; bi_solutions : Z }.

Section BiRRT.
Context {S W : Type}.
Notation trees := (rrt_tree S * rrt_tree S)%type.
Notation world := (rrt_tree S * rrt_tree S * W)%type.

(** The arguments of BiRRTPlanMultiPath besides the trees, 875-893. *)
Record birrt_callbacks : Type := mkBiCallbacks {
  select_sample_type_fn : rrt_tree S -> rrt_tree S -> active_tree -> eff W sample_type;
  state_sampling_fn : eff W S;
  tree_sampling_fn : rrt_tree S -> active_tree -> eff W Z;
  bi_nearest_neighbor_fn : rrt_tree S -> S -> active_tree -> eff W Z;
  propagation_fn : S -> S -> active_tree -> eff W (list (S * Z));
  bi_state_added_callback_fn : option (Z * active_tree -> eff (rrt_tree S * W) unit);
  states_connected_fn : S -> S -> active_tree -> eff W bool;
  goal_bridge_callback_fn : option (Z * Z * active_tree -> eff world unit);
  select_active_tree_fn : rrt_tree S -> rrt_tree S -> active_tree -> eff W active_tree;
  bi_termination_check_fn : Z -> Z -> eff W bool }.
Variable cb : birrt_callbacks.

Definition start_tree : eff world (rrt_tree S) := run s <- get; ret (fst (fst s)).
Definition goal_tree : eff world (rrt_tree S) := run s <- get; ret (snd (fst s)).
(** active_tree and target_tree, 973-978. *)
Definition active_of (a : active_tree) : eff world (rrt_tree S) :=
  match a with START_TREE => start_tree | GOAL_TREE => goal_tree end.
Definition target_of (a : active_tree) : eff world (rrt_tree S) :=
  match a with START_TREE => goal_tree | GOAL_TREE => start_tree end.
Definition on_active {A} (a : active_tree) (m : eff (rrt_tree S * W) A) : eff world A :=
  fun s =>
    let '((st, gt), w) := s in
    match a with
    | START_TREE => let '(r, (t, w')) := m (st, w) in (r, ((t, gt), w'))
    | GOAL_TREE => let '(r, (t, w')) := m (gt, w) in (r, ((st, t), w'))
    end.

(** GoalBridge(int64_t, int64_t), 914-925. *)
Definition MakeGoalBridge (start_index goal_index : Z) : outcome (Z * Z) :=
  if start_index <? 0 then Throw InvalidArgument
  else if goal_index <? 0 then Throw InvalidArgument
  else Ok (start_index, goal_index).

(** The loops over the initial nodes of both trees, 950-970: the inner loop, *)
Fixpoint initial_bridges_inner (fuel : nat) (si gi : Z) (bridges : list (Z * Z))
    : eff world (list (Z * Z)) :=
  run gt <- goal_tree;
  if gi <? TreeSize gt then
    match fuel with
    | O => lift Diverge
    | Datatypes.S f =>
        run st <- start_tree;
        run sn <- lift (GetTreeNode st si);
        run gn <- lift (GetTreeNode gt gi);
        run connected <- on_snd (states_connected_fn cb (state_value sn) (state_value gn) START_TREE);
        if connected : bool then
          run bridge <- lift (MakeGoalBridge si gi);
          run _ <- call (goal_bridge_callback_fn cb) (si, gi, START_TREE);
          initial_bridges_inner f si (gi + 1) (bridges ++ [bridge])
        else initial_bridges_inner f si (gi + 1) bridges
    end
  else ret bridges.
(** and the outer loop. *)
Fixpoint initial_bridges (fuel : nat) (si : Z) (bridges : list (Z * Z)) : eff world (list (Z * Z)) :=
  run st <- start_tree;
  if si <? TreeSize st then
    match fuel with
    | O => lift Diverge
    | Datatypes.S f =>
        run bridges' <- initial_bridges_inner f si 0 bridges;
        initial_bridges f (si + 1) bridges'
    end
  else ret bridges.

(** The loop over the propagated states, 1033-1103.  [target] is the index of
    the sampled node of the target tree when the sample came from there, with
    the copy of its state made at 996-1000. *)
Fixpoint add_bi_propagated (a : active_tree) (target : option (Z * S)) (nearest : Z)
    (mapping : list Z) (props : list (S * Z)) (bridges : list (Z * Z)) : eff world (list (Z * Z)) :=
  match props with
  | [] => ret bridges
  | (current, relative) :: rest =>
      run node_parent_index <-
        (if 0 <=? relative then lift (at_get mapping (Z.to_nat relative)) else ret nearest);
      run new_node_index <- on_active a (on_fst (AddNodeAndConnect current node_parent_index));
      let mapping' := mapping ++ [new_node_index] in
      run _ <- (match bi_state_added_callback_fn cb with
                | Some f => on_active a (f (new_node_index, a))
                | None => ret tt
                end);
      match target with
      | Some (target_index, target_state) =>
          run t <- active_of a;
          run n <- lift (GetTreeNode t new_node_index);
          run connected <- on_snd (states_connected_fn cb (state_value n) target_state a);
          if connected : bool then
            run bridge <-
              (match a with
               | START_TREE => lift (MakeGoalBridge new_node_index target_index)
               | GOAL_TREE => lift (MakeGoalBridge target_index new_node_index)
               end);
            run _ <- (match goal_bridge_callback_fn cb with
                      | Some f => f (fst bridge, snd bridge, a)
                      | None => ret tt
                      end);
            add_bi_propagated a target nearest mapping' rest (bridges ++ [bridge])
          else add_bi_propagated a target nearest mapping' rest bridges
      | None => add_bi_propagated a target nearest mapping' rest bridges
      end
  end.

(** One iteration of the planning loop, 973-1118: counters and bridges after it
    and the next active tree. *)
Definition birrt_iteration (a : active_tree) (c : birrt_statistics) (bridges : list (Z * Z))
    : eff world (active_tree * birrt_statistics * list (Z * Z)) :=
  let '(mkBiStats si gi total succ fail swaps states sols) := c in
  let si := match a with START_TREE => si + 1 | GOAL_TREE => si end in
  let gi := match a with START_TREE => gi | GOAL_TREE => gi + 1 end in
  run st <- start_tree;
  run gt <- goal_tree;
  run kind <- on_snd (select_sample_type_fn cb st gt a);
  run (target_state, target) <-
    (match kind with
     | TREE_SAMPLE =>
         run target_tree <- target_of a;
         run i <- on_snd (tree_sampling_fn cb target_tree a);
         run n <- lift (GetTreeNode target_tree i);
         ret (state_value n, Some (i, state_value n))
     | STATE_SAMPLE => run s <- on_snd (state_sampling_fn cb); ret (s, None)
     end);
  let total := total + 1 in
  run at_ <- active_of a;
  run nearest <- on_snd (bi_nearest_neighbor_fn cb at_ target_state a);
  run n <- lift (GetTreeNode at_ nearest);
  run propagated <- on_snd (propagation_fn cb (state_value n) target_state a);
  run (succ, fail, bridges) <-
    (match propagated with
     | [] => ret (succ, fail + 1, bridges)
     | _ :: _ =>
         run bridges' <- add_bi_propagated a target nearest [] propagated bridges;
         ret (succ + 1, fail, bridges')
     end);
  run st <- start_tree;
  run gt <- goal_tree;
  run a' <- on_snd (select_active_tree_fn cb st gt a);
  let swaps :=
    match a, a' with START_TREE, START_TREE => swaps | GOAL_TREE, GOAL_TREE => swaps | _, _ => swaps + 1 end in
  ret (a', mkBiStats si gi total succ fail swaps states sols, bridges).

(** The planning loop, 970-1119. *)
Fixpoint birrt_loop (fuel : nat) (a : active_tree) (c : birrt_statistics) (bridges : list (Z * Z))
    : eff world (birrt_statistics * list (Z * Z)) :=
  run st <- start_tree;
  run gt <- goal_tree;
  run stop <- on_snd (bi_termination_check_fn cb (TreeSize st) (TreeSize gt));
  if stop : bool then ret (c, bridges)
  else
    match fuel with
    | O => lift Diverge
    | Datatypes.S f =>
        run (a', c', bridges') <- birrt_iteration a c bridges;
        birrt_loop f a' c' bridges'
    end.

(** The paths of the bridges, 1122-1139. *)
Fixpoint bridge_paths (st gt : rrt_tree S) (bridges : list (Z * Z)) : outcome (list (list S)) :=
  match bridges with
  | [] => Ok []
  | (si, gi) :: rest =>
      do start_path <- ExtractSolutionPath st si;
      do goal_path <- ExtractSolutionPath gt gi;
      do ps <- bridge_paths st gt rest;
      Ok ((start_path ++ rev goal_path) :: ps)
  end.

(** BiRRTPlanMultiPath, 872-1152. *)
Definition BiRRTPlanMultiPath (fuel : nat) : eff world (list (list S) * birrt_statistics) :=
  run st <- start_tree;
  if (length st =? 0)%nat then lift (Throw InvalidArgument)
  else
    run gt <- goal_tree;
    if (length gt =? 0)%nat then lift (Throw InvalidArgument)
    else
      run bridges <- initial_bridges fuel 0 [];
      run (c, bridges) <- birrt_loop fuel START_TREE (mkBiStats 0 0 0 0 0 0 0 0) bridges;
      run st <- start_tree;
      run gt <- goal_tree;
      run paths <- lift (bridge_paths st gt bridges);
      ret (paths,
           mkBiStats (start_tree_active_iterations c) (goal_tree_active_iterations c) (bi_total_samples c)
             (bi_successful_samples c) (bi_failed_samples c) (active_tree_swaps c)
             (TreeSize st + TreeSize gt) (Z.of_nat (length paths))).
End BiRRT.
Arguments birrt_callbacks S W : clear implicits.

Section BiSingle.
Context {S W : Type}.
Variable cb : birrt_callbacks S W.
(** The functions BiRRTPlanSinglePath passes on, 1317-1341. *)
Definition bi_single_callbacks : birrt_callbacks S (W * bool) :=
  mkBiCallbacks
    (fun st gt a => on_fst (select_sample_type_fn cb st gt a))
    (on_fst (state_sampling_fn cb))
    (fun t a => on_fst (tree_sampling_fn cb t a))
    (fun t s a => on_fst (bi_nearest_neighbor_fn cb t s a))
    (fun s x a => on_fst (propagation_fn cb s x a))
    (option_map (fun f i => beside (f i)) (bi_state_added_callback_fn cb))
    (fun s g a => on_fst (states_connected_fn cb s g a))
    (Some (fun i =>
       run _ <- on_snd (on_snd (put true));
       match goal_bridge_callback_fn cb with Some f => beside (f i) | None => ret tt end))
    (fun st gt a => on_fst (select_active_tree_fn cb st gt a))
    (fun n m =>
       run found <- on_snd get;
       if found : bool then ret true else on_fst (bi_termination_check_fn cb n m)).

(** BiRRTPlanSinglePath, 1297-1358. *)
Definition BiRRTPlanSinglePath (fuel : nat)
    : eff (rrt_tree S * rrt_tree S * W) (list S * birrt_statistics) :=
  fun s =>
    let '(r, (t, (w, _))) := BiRRTPlanMultiPath bi_single_callbacks fuel (fst s, (snd s, false)) in
    (do r <- r; Ok (match fst r with p :: _ => p | [] => [] end, snd r), (t, w)).
End BiSingle.
