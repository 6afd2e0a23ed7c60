(** Vocabulary for C188: what the planners tell their callbacks. *)
From Verif Require Import Base Effect RrtModel RrtSpec.
Local Open Scope Z_scope.

(** The state-added callback was called with node [i]; the goal-reached callback was. *)
Inductive report : Type := Added (i : Z) | Reached (i : Z).
(** Of the bidirectional planner: with node [i] of tree [a]; with the bridge from node
    [si] of the start tree to node [gi] of the goal tree, made from tree [a]. *)
Inductive bi_report : Type := BiAdded (i : Z) (a : active_tree) | Bridged (si gi : Z) (a : active_tree).

(** The nodes told, in order. *)
Fixpoint nodes_added (log : list report) : list Z :=
  match log with [] => [] | Added i :: r => i :: nodes_added r | Reached _ :: r => nodes_added r end.
Fixpoint solutions_told (log : list report) : list Z :=
  match log with [] => [] | Added _ :: r => solutions_told r | Reached i :: r => i :: solutions_told r end.
Fixpoint bi_nodes_added (a : active_tree) (log : list bi_report) : list Z :=
  match log with
  | [] => []
  | BiAdded i b :: r =>
    match a, b with START_TREE, START_TREE | GOAL_TREE, GOAL_TREE => i :: bi_nodes_added a r | _, _ => bi_nodes_added a r end
  | Bridged _ _ _ :: r => bi_nodes_added a r
  end.
Fixpoint bridges_told (log : list bi_report) : list (Z * Z) :=
  match log with [] => [] | BiAdded _ _ :: r => bridges_told r | Bridged si gi _ :: r => (si, gi) :: bridges_told r end.

(** n, n + 1, ..., m - 1. *)
Definition numbers (n m : Z) : list Z := map (fun k => n + Z.of_nat k) (seq 0 (Z.to_nat (m - n))).

(** A solution is told of before any node is added, about a node of the tree of [n]
    nodes given, or right after the node it is about was added. *)
Definition told_in_order (n : Z) (log : list report) : Prop :=
  forall pre i post, log = pre ++ Reached i :: post ->
    (0 <= i < n /\ nodes_added pre = []) \/ exists pre', pre = pre' ++ [Added i].
Definition bi_told_in_order (n m : Z) (log : list bi_report) : Prop :=
  forall pre si gi a post, log = pre ++ Bridged si gi a :: post ->
    (0 <= si < n /\ 0 <= gi < m /\ a = START_TREE /\ bi_nodes_added START_TREE pre = [] /\ bi_nodes_added GOAL_TREE pre = []) \/
    exists pre', pre = pre' ++ [BiAdded (match a with START_TREE => si | GOAL_TREE => gi end) a].

(** Callbacks that also write what they are told to a log. *)
Definition report_to {W E} (e : E) : eff (W * list E) unit := on_snd (run log <- get; put (log ++ [e])).
Definition reporting {T W E} (e : E) (f : eff (T * W) unit) : eff (T * (W * list E)) unit :=
  run _ <- on_snd (report_to e); beside f.
Definition telling {S Sample W} (cb : rrt_callbacks S Sample W) : rrt_callbacks S Sample (W * list report) :=
  mkRrtCallbacks
    (on_fst (sampling_fn cb))
    (fun t s => on_fst (nearest_neighbor_fn cb t s))
    (fun s x => on_fst (forward_propagation_fn cb s x))
    (option_map (fun f i => reporting (Added i) (f i)) (state_added_callback_fn cb))
    (fun s => on_fst (check_goal_reached_fn cb s))
    (option_map (fun f i => reporting (Reached i) (f i)) (goal_reached_callback_fn cb))
    (fun n => on_fst (termination_check_fn cb n)).
Definition bi_telling {S W} (cb : birrt_callbacks S W) : birrt_callbacks S (W * list bi_report) :=
  mkBiCallbacks
    (fun st gt a => on_fst (select_sample_type_fn cb st gt a))
    (on_fst (state_sampling_fn cb))
    (fun t a => on_fst (tree_sampling_fn cb t a))
    (fun t s a => on_fst (bi_nearest_neighbor_fn cb t s a))
    (fun s x a => on_fst (propagation_fn cb s x a))
    (option_map (fun f i => reporting (BiAdded (fst i) (snd i)) (f i)) (bi_state_added_callback_fn cb))
    (fun s g a => on_fst (states_connected_fn cb s g a))
    (option_map (fun f b => reporting (Bridged (fst (fst b)) (snd (fst b)) (snd b)) (f b)) (goal_bridge_callback_fn cb))
    (fun st gt a => on_fst (select_active_tree_fn cb st gt a))
    (fun n m => on_fst (bi_termination_check_fn cb n m)).

(** There is a state-added callback, and the callbacks do not change the tree. *)
Definition reading {S Sample W} (cb : rrt_callbacks S Sample W) : Prop :=
  (exists f, state_added_callback_fn cb = Some f /\ forall i, reads_tree (f i)) /\
  (forall f i, goal_reached_callback_fn cb = Some f -> reads_tree (f i)).
Definition bi_reading {S W} (cb : birrt_callbacks S W) : Prop :=
  (exists f, bi_state_added_callback_fn cb = Some f /\ forall i, reads_tree (f i)) /\
  (forall f b, goal_bridge_callback_fn cb = Some f -> reads_tree (f b)).

(** The path goes down the start tree to the first node and up the goal tree from the second. *)
Definition leads {S} (st gt : list (rrt_node S)) (b : Z * Z) (path : list S) : Prop :=
  exists p q, path_to st (fst b) p /\ path_to gt (snd b) q /\ path = p ++ rev q.
(** All new nodes of both trees were told once, in order. *)
Definition bi_told {S} (st gt st' gt' : list (rrt_node S)) (log : list bi_report) : Prop :=
  TreeSize st <= TreeSize st' /\ TreeSize gt <= TreeSize gt' /\
  bi_nodes_added START_TREE log = numbers (TreeSize st) (TreeSize st') /\
  bi_nodes_added GOAL_TREE log = numbers (TreeSize gt) (TreeSize gt') /\
  bi_told_in_order (TreeSize st) (TreeSize gt) log.
