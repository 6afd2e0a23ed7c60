(** Vocabulary for the RRT planners (C42-C48). *)
From Verif Require Import Base Effect SerializationModel SerializationSpec GraphSpec RrtModel.
Local Open Scope Z_scope.

(** Node number [i] of the tree is [n]. *)
Definition tree_at {S} (t : list (rrt_node S)) (i : Z) (n : rrt_node S) : Prop :=
  0 <= i /\ nth_error t (Z.to_nat i) = Some n.

(** Parents exist, come before their children and list them; the children of a
    node exist and have it as parent. *)
Definition linked_tree {S} (t : list (rrt_node S)) : Prop :=
  (forall i n, tree_at t i n -> 0 <= parent_index n ->
     parent_index n < i /\ exists p, tree_at t (parent_index n) p /\ In i (child_indices p)) /\
  (forall i n c, tree_at t i n -> In c (child_indices n) ->
     exists m, tree_at t c m /\ parent_index m = i).

(** No node lists a child twice. *)
Definition lists_once {S} (t : list (rrt_node S)) : Prop :=
  forall i n, tree_at t i n -> NoDup (child_indices n).

(** What the user knows of the states: [root] of the states without parent,
    [edge] of every parent and child. *)
Definition sound_tree {S} (once : bool) (root : S -> Prop) (edge : S -> S -> Prop) (t : list (rrt_node S)) : Prop :=
  linked_tree t /\ (once = true -> lists_once t) /\
  (forall i n, tree_at t i n -> parent_index n < 0 -> root (state_value n)) /\
  (forall i n p, tree_at t i n -> tree_at t (parent_index n) p -> edge (state_value p) (state_value n)).

(** Every node keeps its number, state and parent. *)
Definition tree_extends {S} (t t' : list (rrt_node S)) : Prop :=
  forall i n, tree_at t i n ->
    exists n', tree_at t' i n' /\ state_value n' = state_value n /\ parent_index n' = parent_index n.

(** [path] leads from a root of the tree down to node [i]. *)
Inductive path_to {S} (t : list (rrt_node S)) : Z -> list S -> Prop :=
| path_root i n : tree_at t i n -> parent_index n < 0 -> path_to t i [state_value n]
| path_step i n path : tree_at t i n -> 0 <= parent_index n -> path_to t (parent_index n) path ->
    path_to t i (path ++ [state_value n]).

Definition starts_with {S} (P : S -> Prop) (path : list S) : Prop := exists s r, path = s :: r /\ P s.
Definition ends_with {S} (P : S -> Prop) (path : list S) : Prop := exists s r, path = r ++ [s] /\ P s.
(** Each state of the path is related to the next. *)
Definition consecutive {S} (edge : S -> S -> Prop) (path : list S) : Prop :=
  forall k a b, nth_error path k = Some a -> nth_error path (k + 1) = Some b -> edge a b.

(** A callback given the tree may add to it but keeps what the planner relies on,
    even when it throws. *)
Definition keeps_tree {S W A} once root edge (m : eff (list (rrt_node S) * W) A) : Prop :=
  forall t w, sound_tree once root edge t ->
    sound_tree once root edge (fst (snd (m (t, w)))) /\ tree_extends t (fst (snd (m (t, w)))).
Definition keeps_tree_opt {S W I A} once root edge (f : option (I -> eff (list (rrt_node S) * W) A)) : Prop :=
  forall g, f = Some g -> forall i, keeps_tree once root edge (g i).

(** The states a propagation returns are joined to their parents: a negative
    relative parent means the state propagated from. *)
Definition joined {S} (edge : S -> S -> Prop) (from : S) (props : list (S * Z)) : Prop :=
  forall k c r, nth_error props k = Some (c, r) ->
    (r < 0 -> edge from c) /\
    (forall c' r', 0 <= r -> nth_error props (Z.to_nat r) = Some (c', r') -> edge c' c).
Definition propagates {S Sample W} edge (f : S -> Sample -> eff W (list (S * Z))) : Prop :=
  forall s x w props w', f s x w = (Ok props, w') -> joined edge s props.

(** Whatever the check accepts has property [P]. *)
Definition accepts {X W} (P : X -> Prop) (check : X -> eff W bool) : Prop :=
  forall x w w', check x w = (Ok true, w') -> P x.

(** ** Observing a run *)
(** What an instrumented termination check and sampler record. *)
Inductive rrt_event : Type := Checked (tree_size : Z) (stop : bool) | Sampled.

(** Code that leaves the record alone, code that records one event. *)
Definition quiet {W A} (log : W -> list rrt_event) (m : eff W A) : Prop :=
  forall w, log (snd (m w)) = log w.
Definition quiet_tree {T W A} (log : W -> list rrt_event) (m : eff (T * W) A) : Prop :=
  forall s, log (snd (snd (m s))) = log (snd s).
Definition records {W A} (log : W -> list rrt_event) (ev : A -> rrt_event) (m : eff W A) : Prop :=
  forall w a w', m w = (Ok a, w') -> log w' = log w ++ [ev a].
Record instrumented {S Sample W} (log : W -> list rrt_event) (cb : rrt_callbacks S Sample W) : Prop := mkInstrumented {
  ins_sample : records log (fun _ => Sampled) (sampling_fn cb);
  ins_stop : forall n, records log (Checked n) (termination_check_fn cb n);
  ins_nearest : forall t x, quiet log (nearest_neighbor_fn cb t x);
  ins_prop : forall s x, quiet log (forward_propagation_fn cb s x);
  ins_goal : forall s, quiet log (check_goal_reached_fn cb s);
  ins_added : forall f i, state_added_callback_fn cb = Some f -> quiet_tree log (f i);
  ins_reached : forall f i, goal_reached_callback_fn cb = Some f -> quiet_tree log (f i) }.

(** Callbacks that always come back, and a measure that the termination check
    brings down whenever it lets planning continue. *)
Definition comes_back {W A} (m : eff W A) : Prop := forall w, fst (m w) <> Diverge.
Definition not_above {W A} (measure : W -> nat) (m : eff W A) : Prop :=
  forall w, (measure (snd (m w)) <= measure w)%nat.
Record counts_down {S Sample W} (measure : W -> nat) (cb : rrt_callbacks S Sample W) : Prop := mkCountsDown {
  cd_sample : comes_back (sampling_fn cb) /\ not_above measure (sampling_fn cb);
  cd_stop : forall n, comes_back (termination_check_fn cb n) /\
     forall w w', termination_check_fn cb n w = (Ok false, w') -> (measure w' < measure w)%nat;
  cd_nearest : forall t x, comes_back (nearest_neighbor_fn cb t x) /\ not_above measure (nearest_neighbor_fn cb t x);
  cd_prop : forall s x, comes_back (forward_propagation_fn cb s x) /\ not_above measure (forward_propagation_fn cb s x);
  cd_goal : forall s, comes_back (check_goal_reached_fn cb s) /\ not_above measure (check_goal_reached_fn cb s);
  cd_added : forall f i, state_added_callback_fn cb = Some f -> comes_back (f i) /\ not_above (fun s => measure (snd s)) (f i);
  cd_reached : forall f i, goal_reached_callback_fn cb = Some f -> comes_back (f i) /\ not_above (fun s => measure (snd s)) (f i) }.

(** The callback does not change the tree. *)
Definition reads_tree {T W A} (m : eff (T * W) A) : Prop := forall s, fst (snd (m s)) = fst s.

(** ** Leaving callbacks out *)
Definition no_op {S I} : option (I -> eff S unit) := Some (fun _ => ret tt).
Definition with_goal_reached {S Sample W} (f : option (Z -> eff (list (rrt_node S) * W) unit))
    (cb : rrt_callbacks S Sample W) : rrt_callbacks S Sample W :=
  mkRrtCallbacks (sampling_fn cb) (nearest_neighbor_fn cb) (forward_propagation_fn cb) (state_added_callback_fn cb)
    (check_goal_reached_fn cb) f (termination_check_fn cb).
Definition with_state_added {S Sample W} (f : option (Z -> eff (list (rrt_node S) * W) unit))
    (cb : rrt_callbacks S Sample W) : rrt_callbacks S Sample W :=
  mkRrtCallbacks (sampling_fn cb) (nearest_neighbor_fn cb) (forward_propagation_fn cb) f
    (check_goal_reached_fn cb) (goal_reached_callback_fn cb) (termination_check_fn cb).
Definition with_goal_bridge {S W} f (cb : birrt_callbacks S W) : birrt_callbacks S W :=
  mkBiCallbacks (select_sample_type_fn cb) (state_sampling_fn cb) (tree_sampling_fn cb) (bi_nearest_neighbor_fn cb)
    (propagation_fn cb) (bi_state_added_callback_fn cb) (states_connected_fn cb) f (select_active_tree_fn cb)
    (bi_termination_check_fn cb).
Definition with_bi_state_added {S W} f (cb : birrt_callbacks S W) : birrt_callbacks S W :=
  mkBiCallbacks (select_sample_type_fn cb) (state_sampling_fn cb) (tree_sampling_fn cb) (bi_nearest_neighbor_fn cb)
    (propagation_fn cb) f (states_connected_fn cb) (goal_bridge_callback_fn cb) (select_active_tree_fn cb)
    (bi_termination_check_fn cb).

(** The nodes whose states satisfy [goal], in order. *)
Definition goal_nodes {S} (goal : S -> bool) (t : list (rrt_node S)) : list Z :=
  filter (fun i => match nth_error t (Z.to_nat i) with Some n => goal (state_value n) | None => false end)
         (ParallelismModel.seqZ 0 (TreeSize t)).

(** ** Two trees *)
(** The active tree of a pair (start tree, goal tree). *)
Definition tree_of {S} (a : active_tree) (p : list (rrt_node S) * list (rrt_node S)) : list (rrt_node S) :=
  match a with START_TREE => fst p | GOAL_TREE => snd p end.
Definition sound_trees {S} once (root : active_tree -> S -> Prop) (edge : active_tree -> S -> S -> Prop) p : Prop :=
  forall a, sound_tree once (root a) (edge a) (tree_of a p).
Definition trees_extend {S} (p p' : list (rrt_node S) * list (rrt_node S)) : Prop :=
  forall a, tree_extends (tree_of a p) (tree_of a p').
(** A callback given both trees. *)
Definition keeps_trees {S W A} once root edge (m : eff (list (rrt_node S) * list (rrt_node S) * W) A) : Prop :=
  forall p w, sound_trees once root edge p ->
    sound_trees once root edge (fst (snd (m (p, w)))) /\ trees_extend p (fst (snd (m (p, w)))).
(** What the callbacks of the bidirectional planner promise: [joins s g] is known
    of every state [s] of the start tree and [g] of the goal tree for which the
    connection check returned true. *)
Record birrt_contract {S W} once (root : active_tree -> S -> Prop) (edge : active_tree -> S -> S -> Prop)
    (joins : S -> S -> Prop) (cb : birrt_callbacks S W) : Prop := mkBiContract {
  bc_prop : forall a, propagates (edge a) (fun s x => propagation_fn cb s x a);
  bc_start : forall s g w w', states_connected_fn cb s g START_TREE w = (Ok true, w') -> joins s g;
  bc_goal : forall s g w w', states_connected_fn cb g s GOAL_TREE w = (Ok true, w') -> joins s g;
  bc_added : forall f, bi_state_added_callback_fn cb = Some f ->
     forall i a, keeps_tree once (root a) (edge a) (f (i, a));
  bc_bridge : forall f, goal_bridge_callback_fn cb = Some f -> forall i, keeps_trees once root edge (f i) }.
(** A start-tree path to node [si] followed by the reversed goal-tree path to [gi]. *)
Definition bridge_path {S} (joins : S -> S -> Prop) (p : list (rrt_node S) * list (rrt_node S)) (path : list S) : Prop :=
  exists si gi start_path goal_path s g,
    path = start_path ++ rev goal_path /\ path_to (fst p) si start_path /\ path_to (snd p) gi goal_path /\
    ends_with (eq s) start_path /\ ends_with (eq g) goal_path /\ joins s g.

(** ** Serialization *)
Definition tree_node_ok {S} (maxc : N) (domv : S -> Prop) (n : rrt_node S) : Prop :=
  domv (state_value n) /\ int64_ok (parent_index n) /\
  Forall int64_ok (child_indices n) /\ (len64 (child_indices n) < 2 ^ 64)%N /\
  (len64 (child_indices n) <= maxc)%N.
Definition tree_ok {S} (maxn maxc : N) (domv : S -> Prop) (t : list (rrt_node S)) : Prop :=
  Forall (tree_node_ok maxc domv) t /\ (len64 t < 2 ^ 64)%N /\ (len64 t <= maxn)%N.

(** What the record shows of one sample: planning was allowed to go on with a
    tree of this size, then a sample was drawn. *)
Definition continued (tree_size : Z) : list rrt_event := [Checked tree_size false; Sampled].
