(** Properties C42-C48 and C81-C85 (RRT planners).  Models in RrtModel.v and
    RrtHelperModel.v, vocabulary in RrtSpec.v and RrtHelperSpec.v.  The user's
    functions may fail, have their own data and (those given the tree) change
    the tree, as long as they keep it sound. *)
From Coq Require Import Reals.
From Flocq Require Import Core BinarySingleNaN.
From Verif Require Import Base Double Effect SerializationModel SerializationSpec GraphModel GraphSpec
  UtilitySpec KnnSpec KnnProof RrtModel RrtSpec RrtProof RrtPlan RrtPlan2 BiRrtProof RrtCheck RrtSerial RrtSingle
  RrtHelperModel RrtHelperSpec RrtHelperProof RrtSamples.
Local Open Scope Z_scope.

(** C42: whatever happens during planning (exceptions included), the tree stays
    linked, keeps what the user knows of its roots and edges, lists no child
    twice if it did not before, and no node changes its state or parent. *)
Theorem C42_planning_keeps_the_tree : forall (S Sample W : Type) once root edge (cb : rrt_callbacks S Sample W) fuel t w,
  propagates edge (forward_propagation_fn cb) ->
  keeps_tree_opt once root edge (state_added_callback_fn cb) ->
  keeps_tree_opt once root edge (goal_reached_callback_fn cb) ->
  sound_tree once root edge t ->
  let t' := fst (snd (RRTPlanMultiPath cb fuel (t, w))) in
  sound_tree once root edge t' /\ tree_extends t t'.
Proof. exact @plan_keeps. Qed.
Print Assumptions C42_planning_keeps_the_tree.

Theorem C42_single_path_planning_keeps_the_tree :
  forall (S Sample W : Type) once root edge (cb : rrt_callbacks S Sample W) fuel t w,
  propagates edge (forward_propagation_fn cb) ->
  keeps_tree_opt once root edge (state_added_callback_fn cb) ->
  keeps_tree_opt once root edge (goal_reached_callback_fn cb) ->
  sound_tree once root edge t ->
  let t' := fst (snd (RRTPlanSinglePath cb fuel (t, w))) in
  sound_tree once root edge t' /\ tree_extends t t'.
Proof. exact @single_keeps. Qed.
Print Assumptions C42_single_path_planning_keeps_the_tree.

Theorem C42_bidirectional_planning_keeps_the_trees :
  forall (S W : Type) once root edge joins (cb : birrt_callbacks S W),
  birrt_contract once root edge joins cb -> forall fuel p w, sound_trees once root edge p ->
  let p' := fst (snd (BiRRTPlanMultiPath cb fuel (p, w))) in
  sound_trees once root edge p' /\ trees_extend p p'.
Proof. exact @bi_plan_keeps. Qed.
Print Assumptions C42_bidirectional_planning_keeps_the_trees.

(** C42: from every node of a linked tree the parents lead to a root, and the
    path extracted is that one. *)
Theorem C42_parents_lead_to_a_root : forall (S : Type) (t : list (rrt_node S)), linked_tree t ->
  (forall i, 0 <= i < TreeSize t -> exists path, ExtractSolutionPath t i = Ok path /\ path_to t i path) /\
  (forall i, ~ 0 <= i < TreeSize t -> ExtractSolutionPath t i = Throw OutOfRange).
Proof. exact @extract_total. Qed.
Print Assumptions C42_parents_lead_to_a_root.

(** C42: the linkage check decides linkage, and is what guards SetNodes and the
    constructor; AddNode keeps trees sound. *)
Theorem C42_linkage_check : forall (S : Type) (t : list (rrt_node S)),
  exists b, CheckNodeLinkage t = Ok b /\ (b = true <-> linked_tree t).
Proof. exact @check_linkage_exact. Qed.
Print Assumptions C42_linkage_check.
Theorem C42_set_nodes : forall (S : Type) (nodes t : list (rrt_node S)),
  (linked_tree nodes /\ SetNodes nodes t = (Ok true, nodes)) \/ (~ linked_tree nodes /\ SetNodes nodes t = (Ok false, t)).
Proof. exact @set_nodes_exact. Qed.
Print Assumptions C42_set_nodes.
Theorem C42_tree_from_nodes : forall (S : Type) (nodes : list (rrt_node S)),
  (linked_tree nodes /\ MakeTree nodes = Ok nodes) \/ (~ linked_tree nodes /\ MakeTree nodes = Throw InvalidArgument).
Proof. exact @make_tree_exact. Qed.
Print Assumptions C42_tree_from_nodes.
Theorem C42_add_root : forall (S : Type) once root edge (t : list (rrt_node S)) v, sound_tree once root edge t -> root v ->
  exists t', AddTreeNode v t = (Ok (TreeSize t), t') /\ sound_tree once root edge t' /\ tree_extends t t' /\
    TreeSize t' = TreeSize t + 1 /\ tree_at t' (TreeSize t) (mkRrtNode v (-1) []).
Proof. exact @add_node_sound. Qed.
Print Assumptions C42_add_root.

(** C43: each path starts at a root, ends at an accepted state, follows edges of
    the tree. *)
Theorem C43_paths : forall (S Sample W : Type) once root edge accepted (cb : rrt_callbacks S Sample W) fuel t w paths stats t' w',
  propagates edge (forward_propagation_fn cb) -> accepts accepted (check_goal_reached_fn cb) ->
  keeps_tree_opt once root edge (state_added_callback_fn cb) ->
  keeps_tree_opt once root edge (goal_reached_callback_fn cb) ->
  sound_tree once root edge t ->
  RRTPlanMultiPath cb fuel (t, w) = (Ok (paths, stats), (t', w')) ->
  forall path, In path paths ->
    starts_with root path /\ ends_with accepted path /\ consecutive edge path /\ exists i, path_to t' i path.
Proof. exact @plan_paths. Qed.
Print Assumptions C43_paths.

(** C43: with a goal check that depends on the state only, there is one path for
    each goal node of the tree, in order. *)
Theorem C43_every_goal_has_its_path : forall (S Sample W : Type) goal (cb : rrt_callbacks S Sample W),
  (forall s w b w', check_goal_reached_fn cb s w = (Ok b, w') -> b = goal s) ->
  (forall f i, state_added_callback_fn cb = Some f -> reads_tree (f i)) ->
  (forall f i, goal_reached_callback_fn cb = Some f -> reads_tree (f i)) ->
  forall fuel s paths stats t' w', RRTPlanMultiPath cb fuel s = (Ok (paths, stats), (t', w')) ->
  Forall2 (path_to t') (goal_nodes goal t') paths.
Proof. exact @plan_every. Qed.
Print Assumptions C43_every_goal_has_its_path.

Theorem C43_single_path : forall (S Sample W : Type) once root edge accepted (cb : rrt_callbacks S Sample W),
  propagates edge (forward_propagation_fn cb) -> accepts accepted (check_goal_reached_fn cb) ->
  keeps_tree_opt once root edge (state_added_callback_fn cb) ->
  keeps_tree_opt once root edge (goal_reached_callback_fn cb) ->
  forall fuel t w path stats t' w', sound_tree once root edge t ->
  RRTPlanSinglePath cb fuel (t, w) = (Ok (path, stats), (t', w')) ->
  (solutions stats = 0 /\ path = []) \/
  (0 < solutions stats /\ starts_with root path /\ ends_with accepted path /\ consecutive edge path /\ exists i, path_to t' i path).
Proof. exact @single_path. Qed.
Print Assumptions C43_single_path.

(** C44 *)
Theorem C44_statistics : forall (S Sample W : Type) (cb : rrt_callbacks S Sample W) fuel t w paths stats t' w',
  keeps_tree_opt false (fun _ => True) (fun _ _ => True) (state_added_callback_fn cb) ->
  keeps_tree_opt false (fun _ => True) (fun _ _ => True) (goal_reached_callback_fn cb) ->
  linked_tree t -> RRTPlanMultiPath cb fuel (t, w) = (Ok (paths, stats), (t', w')) ->
  total_samples stats = successful_samples stats + failed_samples stats /\
  total_states stats = TreeSize t' /\ solutions stats = Z.of_nat (length paths).
Proof. exact @plan_stats. Qed.
Print Assumptions C44_statistics.

(** C44: a record kept by the termination check and the sampler shows that the
    check is asked before every sample and planning ends the first time it says
    so; total_samples samples were drawn. *)
Theorem C44_stops_when_told : forall (S Sample W : Type) log (cb : rrt_callbacks S Sample W), instrumented log cb ->
  forall fuel t w paths stats t' w', RRTPlanMultiPath cb fuel (t, w) = (Ok (paths, stats), (t', w')) ->
  exists sizes, Z.of_nat (length sizes) = total_samples stats /\
    log w' = log w ++ flat_map continued sizes ++ [Checked (total_states stats) true].
Proof. exact @plan_logged. Qed.
Print Assumptions C44_stops_when_told.

(** C44: if the termination check cannot go on saying no, planning ends (fuel as
    large as the measure and the initial tree is enough). *)
Theorem C44_planning_ends : forall (S Sample W : Type) measure (cb : rrt_callbacks S Sample W), counts_down measure cb ->
  (forall f i, goal_reached_callback_fn cb = Some f -> reads_tree (f i)) ->
  forall fuel t w, linked_tree t ->
  keeps_tree_opt false (fun _ => True) (fun _ _ => True) (state_added_callback_fn cb) ->
  keeps_tree_opt false (fun _ => True) (fun _ _ => True) (goal_reached_callback_fn cb) ->
  (measure w <= fuel)%nat -> (length t <= fuel)%nat ->
  fst (RRTPlanMultiPath cb fuel (t, w)) <> Diverge.
Proof. exact @plan_ends. Qed.
Print Assumptions C44_planning_ends.

(** C45 *)
Theorem C45_bridge_paths : forall (S W : Type) once root edge joins (cb : birrt_callbacks S W),
  birrt_contract once root edge joins cb ->
  forall fuel p w paths stats p' w', sound_trees once root edge p ->
  BiRRTPlanMultiPath cb fuel (p, w) = (Ok (paths, stats), (p', w')) ->
  Forall (fun path => bridge_path joins p' path /\ exists start_path goal_path, path = start_path ++ rev goal_path /\
    starts_with (root START_TREE) start_path /\ consecutive (edge START_TREE) start_path /\
    starts_with (root GOAL_TREE) goal_path /\ consecutive (edge GOAL_TREE) goal_path) paths /\
  bi_solutions stats = Z.of_nat (length paths) /\ bi_total_states stats = TreeSize (fst p') + TreeSize (snd p') /\
  bi_total_samples stats = bi_successful_samples stats + bi_failed_samples stats /\
  bi_total_samples stats = start_tree_active_iterations stats + goal_tree_active_iterations stats /\
  0 <= active_tree_swaps stats <= bi_total_samples stats.
Proof. exact @bi_paths. Qed.
Print Assumptions C45_bridge_paths.

Theorem C45_single_path : forall (S W : Type) once root edge joins (cb : birrt_callbacks S W),
  birrt_contract once root edge joins cb ->
  forall fuel p w path stats p' w', sound_trees once root edge p ->
  BiRRTPlanSinglePath cb fuel (p, w) = (Ok (path, stats), (p', w')) ->
  (bi_solutions stats = 0 /\ path = []) \/ (0 < bi_solutions stats /\ bridge_path joins p' path).
Proof. exact @bi_single_path. Qed.
Print Assumptions C45_single_path.

(** The hypotheses of C42-C45 are met by planners that do something. *)
Example C42_C43_C44_nonvacuous :
  propagates succ_edge (forward_propagation_fn sample_cb) /\ accepts (fun s => 3 <= s) (check_goal_reached_fn sample_cb) /\
  keeps_tree_opt true (eq 0) succ_edge (state_added_callback_fn sample_cb) /\
  keeps_tree_opt true (eq 0) succ_edge (goal_reached_callback_fn sample_cb) /\
  sound_tree true (eq 0) succ_edge sample_tree /\ instrumented snd sample_cb /\ counts_down fst sample_cb /\
  RRTPlanMultiPath sample_cb 5 (sample_tree, (2%nat, [])) =
   (Ok ([[0; 1; 2; 3]; [0; 1; 2; 3; 4]], mkRrtStats 2 2 0 5 2),
    ([mkRrtNode 0 (-1) [1]; mkRrtNode 1 0 [2]; mkRrtNode 2 1 [3]; mkRrtNode 3 2 [4]; mkRrtNode 4 3 []],
     (0%nat, [Checked 1 false; Sampled; Checked 3 false; Sampled; Checked 5 true]))).
Proof. exact sample_rrt. Qed.
Example C45_nonvacuous :
  birrt_contract true bi_sample_root bi_sample_edge succ_edge bi_sample_cb /\
  sound_trees true bi_sample_root bi_sample_edge bi_sample_trees /\
  BiRRTPlanMultiPath bi_sample_cb 5 (bi_sample_trees, 3%nat) =
   (Ok ([[0; 1; 2; 3; 4]], mkBiStats 2 1 3 3 0 3 5 1),
    (([mkRrtNode 0 (-1) [1]; mkRrtNode 1 0 [2]; mkRrtNode 2 1 []], [mkRrtNode 4 (-1) [1]; mkRrtNode 3 0 []]), 0%nat)).
Proof. exact sample_birrt. Qed.

(** C46 (full claim: passing no goal-reached or goal-bridge callback never makes
    planning fail).  False: when a state of the initial tree is a goal the empty
    function is called. *)
Theorem C46_goal_reached_refuted : exists (cb : rrt_callbacks Z unit unit) (t : list (rrt_node Z)),
  linked_tree t /\ goal_reached_callback_fn cb = None /\
  (forall n, termination_check_fn cb n tt = (Ok true, tt)) /\
  (forall fuel, (1 <= fuel)%nat -> fst (RRTPlanMultiPath cb fuel (t, tt)) = Throw BadFunctionCall) /\
  (forall fuel, (1 <= fuel)%nat -> exists r, fst (RRTPlanMultiPath (with_goal_reached no_op cb) fuel (t, tt)) = Ok r).
Proof. exact goal_reached_omitted. Qed.
Print Assumptions C46_goal_reached_refuted.
Theorem C46_goal_bridge_refuted : exists (cb : birrt_callbacks Z unit) (p : list (rrt_node Z) * list (rrt_node Z)),
  linked_tree (fst p) /\ linked_tree (snd p) /\ goal_bridge_callback_fn cb = None /\
  (forall n m, bi_termination_check_fn cb n m tt = (Ok true, tt)) /\
  (forall fuel, (2 <= fuel)%nat -> fst (BiRRTPlanMultiPath cb fuel (p, tt)) = Throw BadFunctionCall) /\
  (forall fuel, (2 <= fuel)%nat -> exists r, fst (BiRRTPlanMultiPath (with_goal_bridge no_op cb) fuel (p, tt)) = Ok r).
Proof. exact goal_bridge_omitted. Qed.
Print Assumptions C46_goal_bridge_refuted.

(** C46, proved part: otherwise leaving a callback out is the same as passing one
    that does nothing, and always with the single-path planners. *)
Theorem C46_goal_reached_partial : forall (S Sample W : Type) (cb : rrt_callbacks S Sample W) fuel (t : list (rrt_node S)) w,
  (forall n w w', In n t -> check_goal_reached_fn cb (state_value n) w <> (Ok true, w')) ->
  RRTPlanMultiPath (with_goal_reached None cb) fuel (t, w) = RRTPlanMultiPath (with_goal_reached no_op cb) fuel (t, w).
Proof. exact @omit_goal_reached. Qed.
Print Assumptions C46_goal_reached_partial.
Theorem C46_goal_bridge_partial : forall (S W : Type) (cb : birrt_callbacks S W) (st gt : list (rrt_node S)),
  (forall n m w w', In n st -> In m gt ->
     states_connected_fn cb (state_value n) (state_value m) START_TREE w <> (Ok true, w')) ->
  forall fuel w, BiRRTPlanMultiPath (with_goal_bridge None cb) fuel (st, gt, w) =
                 BiRRTPlanMultiPath (with_goal_bridge no_op cb) fuel (st, gt, w).
Proof. exact @omit_goal_bridge. Qed.
Print Assumptions C46_goal_bridge_partial.
Theorem C46_state_added_optional : forall (S Sample W : Type) (cb : rrt_callbacks S Sample W) fuel s,
  RRTPlanMultiPath (with_state_added None cb) fuel s = RRTPlanMultiPath (with_state_added no_op cb) fuel s.
Proof. exact @omit_state_added. Qed.
Print Assumptions C46_state_added_optional.
Theorem C46_bi_state_added_optional : forall (S W : Type) (cb : birrt_callbacks S W) fuel s,
  BiRRTPlanMultiPath (with_bi_state_added None cb) fuel s = BiRRTPlanMultiPath (with_bi_state_added no_op cb) fuel s.
Proof. exact @omit_bi_state_added. Qed.
Print Assumptions C46_bi_state_added_optional.
Theorem C46_single_path_goal_reached_optional : forall (S Sample W : Type) (cb : rrt_callbacks S Sample W) fuel s,
  RRTPlanSinglePath (with_goal_reached None cb) fuel s = RRTPlanSinglePath (with_goal_reached no_op cb) fuel s.
Proof. exact @omit_goal_reached_single. Qed.
Print Assumptions C46_single_path_goal_reached_optional.
Theorem C46_single_path_goal_bridge_optional : forall (S W : Type) (cb : birrt_callbacks S W) fuel s,
  BiRRTPlanSinglePath (with_goal_bridge None cb) fuel s = BiRRTPlanSinglePath (with_goal_bridge no_op cb) fuel s.
Proof. exact @omit_goal_bridge_single. Qed.
Print Assumptions C46_single_path_goal_bridge_optional.

(** C47 (full claim: if adding a node below an invalid parent throws, the tree is
    unchanged).  False, for every tree and every such parent: the node stays; and
    the parent one past the end is accepted and makes the node its own parent,
    from which path extraction never returns. *)
Theorem C47_failed_insertion_refuted : forall (S : Type) (t : list (rrt_node S)) v parent,
  parent < 0 \/ TreeSize t < parent ->
  AddNodeAndConnect v parent t = (Throw OutOfRange, t ++ [mkRrtNode v parent []]).
Proof. exact @add_connect_bad. Qed.
Print Assumptions C47_failed_insertion_refuted.
Theorem C47_own_parent_refuted : forall (S : Type) (t : list (rrt_node S)) v,
  exists t', AddNodeAndConnect v (TreeSize t) t = (Ok (TreeSize t), t') /\
    t' = t ++ [mkRrtNode v (TreeSize t) [TreeSize t]] /\
    ~ linked_tree t' /\ ExtractSolutionPath t' (TreeSize t) = Diverge.
Proof. exact @own_parent. Qed.
Print Assumptions C47_own_parent_refuted.
(** C47, proved part: below an existing parent the insertion succeeds, adds one
    node at the end, records it with its parent and changes nothing else. *)
Theorem C47_insertion_partial : forall (S : Type) (t : list (rrt_node S)) v parent p, tree_at t parent p ->
  exists t', AddNodeAndConnect v parent t = (Ok (TreeSize t), t') /\
    TreeSize t' = TreeSize t + 1 /\
    tree_at t' (TreeSize t) (mkRrtNode v parent []) /\
    (forall i n, tree_at t i n -> i <> parent -> tree_at t' i n) /\
    (exists p', tree_at t' parent p' /\ state_value p' = state_value p /\ parent_index p' = parent_index p /\
       forall c, In c (child_indices p') <-> In c (child_indices p) \/ c = TreeSize t).
Proof. exact @insertion. Qed.
Print Assumptions C47_insertion_partial.
Example C47_nonvacuous : tree_at sample_tree 0 (mkRrtNode 0 (-1) []) /\
  AddNodeAndConnect 7 0 sample_tree = (Ok 1, [mkRrtNode 0 (-1) [1]; mkRrtNode 7 0 []]).
Proof. exact sample_insertion. Qed.

(** C48: RRT-Extend and RRT-Connect. *)
Theorem C48_extend : forall (S W : Type) distance_fn interpolate valid step (edge : S -> S -> Prop),
  (forall a b (w w' : W), valid a b w = (Ok true, w') -> edge a b) ->
  forall f, MakeKinematicRRTExtendPropagationFunction distance_fn interpolate valid step = Ok f ->
  forall nearest sampled w props w', f nearest sampled w = (Ok props, w') ->
  joined edge nearest props /\ is_chain props /\ (length props <= 1)%nat.
Proof. exact @extend_made. Qed.
Print Assumptions C48_extend.
(** It goes to the sampled state, or if that is further than a step to the state
    interpolated at step/distance, and adds it exactly when the edge is valid. *)
Theorem C48_extend_state : forall (S W : Type) distance_fn interpolate (valid : S -> S -> eff W bool) step f,
  MakeKinematicRRTExtendPropagationFunction distance_fn interpolate valid step = Ok f ->
  forall nearest sampled w props w', f nearest sampled w = (Ok props, w') ->
  exists d w1 x w2 ok, distance_fn nearest sampled w = (Ok d, w1) /\
    (if dlt step d && dlt (ddiv step d) one then interpolate nearest sampled (ddiv step d) w1 = (Ok x, w2)
     else x = sampled /\ w2 = w1) /\
    valid nearest x w2 = (Ok ok, w') /\ props = if ok : bool then [(x, -1)] else [].
Proof. exact @extend_state. Qed.
Print Assumptions C48_extend_state.
Theorem C48_connect : forall (S W : Type) distance_fn interpolate valid step (edge : S -> S -> Prop),
  (forall a b (w w' : W), valid a b w = (Ok true, w') -> edge a b) ->
  forall f, MakeKinematicRRTConnectPropagationFunction distance_fn interpolate valid step = Ok f ->
  forall nearest sampled w props w', f nearest sampled w = (Ok props, w') ->
  joined edge nearest props /\ is_chain props /\
  exists d w1, distance_fn nearest sampled w = (Ok d, w1) /\
    Z.of_nat (length props) <= Z.max 0 (step_bound d step) /\
    (Z.of_nat (length props) = Z.max 0 (step_bound d step) \/ arrived distance_fn valid step nearest sampled props).
Proof. exact @connect_made. Qed.
Print Assumptions C48_connect.
(** Both are refused for a step that is not positive, and fit the planner. *)
Theorem C48_bad_step : forall (S W : Type) distance_fn interpolate valid step, dle step d0 = true ->
  @MakeKinematicRRTExtendPropagationFunction S W distance_fn interpolate valid step = Throw InvalidArgument /\
  @MakeKinematicRRTConnectPropagationFunction S W distance_fn interpolate valid step = Throw InvalidArgument.
Proof. exact @bad_step. Qed.
Print Assumptions C48_bad_step.
Theorem C48_fits_the_planner : forall (S W : Type) distance_fn interpolate valid step (edge : S -> S -> Prop),
  (forall a b (w w' : W), valid a b w = (Ok true, w') -> edge a b) ->
  forall f, MakeKinematicRRTExtendPropagationFunction distance_fn interpolate valid step = Ok f \/
            MakeKinematicRRTConnectPropagationFunction distance_fn interpolate valid step = Ok f ->
  propagates edge f.
Proof. exact @made_propagates. Qed.
Print Assumptions C48_fits_the_planner.
Example C48_nonvacuous : exists f,
  MakeKinematicRRTConnectPropagationFunction line_distance line_step line_valid (d_of_Z 1) = Ok f /\
  f 0 5 tt = (Ok [(1, -1); (2, 0); (3, 1)], tt) /\ f 0 2 tt = (Ok [(1, -1); (2, 0)], tt).
Proof. exact sample_connect. Qed.

(** C81 (full claim: RRT-Connect is defined for every finite distance).  False:
    the number of steps is cast to int32_t. *)
Theorem C81_connect_defined_refuted : exists (distance : Z -> Z -> eff unit double) interpolate valid (step : double),
  (forall a b, exists d, is_finite d = true /\ (0 <= B2R d)%R /\ forall w, distance a b w = (Ok d, w)) /\
  (forall a b r, total (interpolate a b r)) /\ (forall a b, total (valid a b)) /\
  exists f, MakeKinematicRRTConnectPropagationFunction distance interpolate valid step = Ok f /\ fst (f 0 1 tt) = UB.
Proof. exact connect_overflow. Qed.
Print Assumptions C81_connect_defined_refuted.
(** C81, proved part: it is defined exactly when ceil(distance/step) is an
    int32_t; RRT-Extend always is. *)
Theorem C81_connect_defined_partial : forall (S W : Type) (distance_fn : S -> S -> eff W double) interpolate valid step,
  (forall a b, total (distance_fn a b)) -> (forall a b r, total (interpolate a b r)) -> (forall a b, total (valid a b)) ->
  forall f, MakeKinematicRRTConnectPropagationFunction distance_fn interpolate valid step = Ok f ->
  forall nearest sampled w d w1, distance_fn nearest sampled w = (Ok d, w1) ->
  (is_finite (ddiv d step) = true -> - 2 ^ 31 <= step_bound d step < 2 ^ 31 ->
     exists props w', f nearest sampled w = (Ok props, w')) /\
  (is_finite (ddiv d step) = false \/ ~ (- 2 ^ 31 <= step_bound d step < 2 ^ 31) ->
     fst (f nearest sampled w) = UB).
Proof. exact @connect_made_defined. Qed.
Print Assumptions C81_connect_defined_partial.
Theorem C81_extend_defined : forall (S W : Type) (distance_fn : S -> S -> eff W double) interpolate valid step,
  (forall a b, total (distance_fn a b)) -> (forall a b r, total (interpolate a b r)) -> (forall a b, total (valid a b)) ->
  forall f, MakeKinematicRRTExtendPropagationFunction distance_fn interpolate valid step = Ok f ->
  forall nearest sampled, total (f nearest sampled).
Proof. exact @extend_made_defined. Qed.
Print Assumptions C81_extend_defined.

(** C82: a serialized tree comes back equal if it is linked and is refused
    otherwise; arbitrary bytes throw or give a linked tree without reading
    outside the buffer. *)
Theorem C82_tree_round_trip : forall (S : Type) le maxn maxc sv dv domv (t : list (rrt_node S)) before after,
  round_trips sv dv domv -> tree_ok maxn maxc domv t ->
  fits_vector (snd (SerializeTree le sv t before) ++ after) ->
  (exists bytes, bytes <> [] /\ snd (SerializeTree le sv t before) = before ++ bytes /\
     fst (SerializeTree le sv t before) = len64 bytes) /\
  (linked_tree t ->
     DeserializeTree le maxn maxc dv (snd (SerializeTree le sv t before) ++ after) (len64 before)
     = Ok (t, fst (SerializeTree le sv t before))) /\
  (~ linked_tree t ->
     DeserializeTree le maxn maxc dv (snd (SerializeTree le sv t before) ++ after) (len64 before)
     = Throw InvalidArgument).
Proof. exact @tree_serialization. Qed.
Print Assumptions C82_tree_round_trip.
Theorem C82_tree_from_any_bytes : forall (S : Type) le maxn maxc (dv : Deserializer S) buf off,
  stays_inside dv -> (8 * maxc < 2 ^ 63)%N -> is_bytes buf -> fits_vector buf -> (off < 2 ^ 64)%N ->
  (exists e, DeserializeTree le maxn maxc dv buf off = Throw e) \/
  (exists t n, DeserializeTree le maxn maxc dv buf off = Ok (t, n) /\ linked_tree t /\ (0 < n)%N /\ (off + n <= len64 buf)%N).
Proof. exact @tree_hostile. Qed.
Print Assumptions C82_tree_from_any_bytes.
Example C82_nonvacuous : forall le,
  round_trips (SerializeMemcpyable (int64_rep le)) (DeserializeMemcpyable (int64_rep le)) int64_ok /\
  tree_ok 100 100 int64_ok sample_grown /\ linked_tree sample_grown /\ (3 <= TreeSize sample_grown) /\
  fits_vector (snd (SerializeTree le (SerializeMemcpyable (int64_rep le)) sample_grown [1%N]) ++ [2%N]).
Proof. exact sample_tree_serial. Qed.

(** C83: the linear nearest neighbour function returns a node at minimal
    distance, and throws for an empty tree. *)
Theorem C83_nearest_neighbor : forall (D S Sample : Type) (ltb : D -> D -> bool) (inf : D) psort
    (dist : S -> Sample -> D) (t : list (rrt_node S)) (x : Sample),
  partial_sort_contract ltb psort -> order_laws ltb ->
  (t = [] -> linear_nearest_neighbor inf psort dist t x = Throw RuntimeError) /\
  (t <> [] -> exists i n, linear_nearest_neighbor inf psort dist t x = Ok i /\ tree_at t i n /\
     forall j m, tree_at t j m -> ltb (dist (state_value m) x) (dist (state_value n) x) = false).
Proof. exact @nearest_neighbor. Qed.
Print Assumptions C83_nearest_neighbor.
Example C83_nonvacuous : partial_sort_contract Z.ltb full_sort /\ order_laws Z.ltb /\
  linear_nearest_neighbor 99 full_sort (fun a b => Z.abs (a - b)) sample_grown 2 = Ok 2.
Proof. exact sample_nearest. Qed.

(** C84: the samplers, for a random source with values in [0,1). *)
Theorem C84_state_and_goals : forall (S W : Type) (uniform : eff W double) sampler (goals : list S) bias f,
  Z.of_nat (length goals) < 2 ^ 64 ->
  MakeStateAndGoalsSamplingFunction sampler goals bias uniform = Ok f ->
  forall w x w', f w = (Ok x, w') ->
  exists u w1, uniform w = (Ok u, w1) /\
     ((dlt bias u = true /\ sampler w1 = (Ok x, w')) \/ (dlt bias u = false /\ In x goals)).
Proof. exact @goals_sampling. Qed.
Print Assumptions C84_state_and_goals.
Theorem C84_state_and_goals_total : forall (S W : Type) (uniform : eff W double), unit_source uniform ->
  forall sampler (goals : list S) bias f, Z.of_nat (length goals) < 2 ^ 64 ->
  MakeStateAndGoalsSamplingFunction sampler goals bias uniform = Ok f -> total uniform -> total sampler -> total f.
Proof. exact @goals_sampling_total. Qed.
Print Assumptions C84_state_and_goals_total.
Theorem C84_state_and_goals_rejects : forall (S W : Type) (uniform : eff W double) sampler (goals : list S) bias,
  dlt bias d0 = true \/ dlt one bias = true \/ goals = [] ->
  MakeStateAndGoalsSamplingFunction sampler goals bias uniform = Throw InvalidArgument.
Proof. exact @goals_sampling_rejects. Qed.
Print Assumptions C84_state_and_goals_rejects.
Theorem C84_tree_sampling : forall (S W : Type) (uniform : eff W double), unit_source uniform ->
  forall (t : list (rrt_node S)) a, 1 <= TreeSize t < 2 ^ 63 -> total uniform ->
  forall w, exists i w', MakeUniformRandomBiRRTTreeSamplingFunction uniform t a w = (Ok i, w') /\ 0 <= i < TreeSize t.
Proof. exact @tree_sampling. Qed.
Print Assumptions C84_tree_sampling.
Theorem C84_select_sample_type : forall (S W : Type) (uniform : eff W double) bias,
  (dle d0 bias && dle bias one = false /\
   @MakeUniformRandomBiRRTSelectSampleTypeFunction S W uniform bias = Throw InvalidArgument) \/
  (dle d0 bias && dle bias one = true /\
   exists f, @MakeUniformRandomBiRRTSelectSampleTypeFunction S W uniform bias = Ok f /\
   forall st gt a w k w', f st gt a w = (Ok k, w') -> exists u, uniform w = (Ok u, w') /\ (k = TREE_SAMPLE <-> dle u bias = true)).
Proof. exact @select_sample_type. Qed.
Print Assumptions C84_select_sample_type.
Theorem C84_select_active_tree : forall (S W : Type) (uniform : eff W double) p,
  (dle d0 p && dle p one = false /\
   @MakeUniformRandomBiRRTSelectActiveTreeFunction S W uniform p = Throw InvalidArgument) \/
  (dle d0 p && dle p one = true /\
   exists f, @MakeUniformRandomBiRRTSelectActiveTreeFunction S W uniform p = Ok f /\
   forall st gt a w k w', f st gt a w = (Ok k, w') -> exists u, uniform w = (Ok u, w') /\ (k <> a <-> dle u p = true)).
Proof. exact @select_active_tree. Qed.
Print Assumptions C84_select_active_tree.
Example C84_nonvacuous : unit_source half_source /\ total half_source /\
  exists f, MakeStateAndGoalsSamplingFunction (ret 7) [1; 2; 3] one half_source = Ok f /\ f tt = (Ok 2, tt).
Proof. exact sample_sampling. Qed.

(** C85: the timeout termination function first answers no and starts the clock;
    afterwards it answers yes exactly when more than the timeout has passed
    (in doubles), and goes on doing so when the clock does not go back. *)
Theorem C85_timeout_answers : forall t h first times, MakeTimeoutCheckHelper t = Ok h ->
  timeout_answers h (first :: times) = Ok (false :: map (time_exceeded t first) times).
Proof. exact timeout_run. Qed.
Print Assumptions C85_timeout_answers.
Theorem C85_timeout_stays : forall timeout start now now',
  Z.abs (now - start) <= 2 ^ 64 -> Z.abs (now' - start) <= 2 ^ 64 -> now <= now' ->
  time_exceeded timeout start now = true -> time_exceeded timeout start now' = true.
Proof. exact exceeded_mono. Qed.
Print Assumptions C85_timeout_stays.
Theorem C85_timeout_exact : forall timeout start now, 0 <= timeout <= 2 ^ 22 -> Z.abs (now - start) <= 2 ^ 53 ->
  time_exceeded (d_of_Z timeout) start now = (timeout * 1000000000 <? now - start).
Proof. exact exceeded_exact. Qed.
Print Assumptions C85_timeout_exact.
(** After Reset the helper answers as a new one with the same limit, whatever it answered before. *)
Theorem C85_timeout_reset : forall t h h' first times, MakeTimeoutCheckHelper t = Ok h ->
  timeout_s h' = timeout_s h ->
  timeout_answers (TimeoutReset h') (first :: times) = timeout_answers h (first :: times).
Proof.
  intros t h h' first times M E. unfold MakeTimeoutCheckHelper in M. destruct (dle t d0); [discriminate|]. injection M as <-.
  unfold TimeoutReset. rewrite E. reflexivity.
Qed.
Print Assumptions C85_timeout_reset.
Theorem C85_timeout_rejects : forall t, dle t d0 = true -> MakeTimeoutCheckHelper t = Throw RuntimeError.
Proof. exact timeout_rejects. Qed.
Print Assumptions C85_timeout_rejects.
Example C85_nonvacuous : exists h, MakeTimeoutCheckHelper (d_of_Z 2) = Ok h /\
  timeout_answers h [5; 7; 2000000005; 2000000006; 3000000000] = Ok [false; false; false; true; true].
Proof. exact sample_timeout. Qed.
