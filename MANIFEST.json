{
 "claims": [
  {
   "property": "C01",
   "status": "proved",
   "theorems": [
    "C01_base64_round_trip"
   ],
   "note": "Hypotheses: elements are bytes and the vector length is < 2^63 (max_size of std::vector)."
  },
  {
   "property": "C02",
   "status": "proved",
   "theorems": [
    "C02_base64_encode_is_rfc4648",
    "C02_base64_output_shape",
    "C02_base64_encode_injective"
   ],
   "note": ""
  },
  {
   "property": "C03",
   "status": "partial",
   "theorems": [
    "C03_base64_decode_memory_safe_refuted",
    "C03_base64_decode_memory_safe_partial"
   ],
   "note": "Violated by the code on platforms with signed plain char (x86-64): Decode indexes the 256-entry table with static_cast<size_t>(negative char). Refuted with witness; proved for all 7-bit text (signed char) and for all strings (unsigned char)."
  },
  {
   "property": "C04",
   "status": "proved",
   "theorems": [
    "C04_composite_round_trip",
    "C04_vector_of_any_item",
    "C04_pair_of_any_items",
    "C04_map_of_any_items",
    "C04_set_of_any_items"
   ],
   "note": "Shape language covers every nesting of integers, strings, vectors, memcpy-able vectors, pairs, maps, sets (host and network, both byte orders) plus closure theorems for arbitrary item serializers. Fixed-size Eigen types are byte blocks (C06_fixed_size_eigen)."
  },
  {
   "property": "C05",
   "status": "proved",
   "theorems": [
    "C05_append_only"
   ],
   "note": ""
  },
  {
   "property": "C06",
   "status": "partial",
   "theorems": [
    "C06_untrusted_bytes_matrix_refuted",
    "C06_untrusted_bytes_vectorxd_refuted",
    "C06_untrusted_bytes_partial",
    "C06_vector_of_any_item_partial",
    "C06_fixed_size_eigen_partial"
   ],
   "note": "Violated for Eigen dynamic containers: a size header of 2^63 wraps the byte count to 0 and Eigen is asked for a negative size (precondition violation: assert in debug builds, undefined with NDEBUG). Proved for all STL deserializers in any nesting and the fixed-size Eigen types."
  },
  {
   "property": "C07",
   "status": "proved",
   "theorems": [
    "C07_network_integers_big_endian",
    "C07_network_memcpyable_vector",
    "C07_network_composites_round_trip"
   ],
   "note": ""
  },
  {
   "property": "C08",
   "status": "proved",
   "theorems": [
    "C08_static_partition",
    "C08_static_unique_owner",
    "C08_static_bad_arguments_throw"
   ],
   "note": "Signed overflow for a range of 2^63-1 indices on a single thread is shown as the excluded corner."
  },
  {
   "property": "C09",
   "status": "proved",
   "theorems": [
    "C09_static_loop_visits_each_index_once",
    "C09_static_loop_thread_numbers"
   ],
   "note": "All backends, OpenMP team sizes and interleavings; thread creation failure (std::system_error) is not modelled."
  },
  {
   "property": "C10",
   "status": "partial",
   "theorems": [
    "C10_dynamic_loop_visits_each_index_once_refuted",
    "C10_dynamic_async_nonzero_start_always_wrong_refuted",
    "C10_dynamic_loop_visits_each_index_once_partial"
   ],
   "note": "Refuted for ASYNC with range_start != 0 (worker index lacks range_start); proved for start 0, OpenMP, one thread or at most one index."
  },
  {
   "property": "C11",
   "status": "proved",
   "theorems": [
    "C11_dynamic_thread_numbers_exclusive"
   ],
   "note": ""
  },
  {
   "property": "C12",
   "status": "proved",
   "theorems": [
    "C12_built_graphs_are_linked",
    "C12_additions_keep_graphs_linked",
    "C12_add_edge_effect",
    "C12_add_edges_effect"
   ],
   "note": "AddNode of a prebuilt node that already carries edges, and edits through mutable references, are outside the claim (they can store arbitrary edges)."
  },
  {
   "property": "C13",
   "status": "proved",
   "theorems": [
    "C13_linkage_check_exact",
    "C13_graph_from_nodes"
   ],
   "note": ""
  },
  {
   "property": "C14",
   "status": "proved",
   "theorems": [
    "C14_prune",
    "C14_prune_schedule_independent"
   ],
   "note": ""
  },
  {
   "property": "C15",
   "status": "proved",
   "theorems": [
    "C15_overlay_is_a_private_copy"
   ],
   "note": "The exception class may differ between graph (out_of_range) and overlay (invalid_argument); both throw in the same cases."
  },
  {
   "property": "C16",
   "status": "proved",
   "theorems": [
    "C16_graph_round_trip",
    "C16_graph_from_any_bytes"
   ],
   "note": ""
  },
  {
   "property": "C17",
   "status": "proved",
   "theorems": [
    "C17_C22_costs_double",
    "C17_C22_costs_exact",
    "C17_dijkstra",
    "C17_out_of_range"
   ],
   "note": "Costs abstract with cost_laws (proved of non-negative doubles and exact integers); distances are costs accumulated edge by edge from the start node."
  },
  {
   "property": "C18",
   "status": "partial",
   "theorems": [
    "C18_real_cost_refuted",
    "C18_real_path_partial"
   ],
   "note": "Refuted on binary64 for equality of reported cost and path cost (rounding tie with an inadmissible heuristic); proved: path real, its cost at most the reported finite cost, reported cost is that of some route. Equality proved for admissible heuristics (C19, C20)."
  },
  {
   "property": "C19",
   "status": "proved",
   "theorems": [
    "C19_optimal",
    "C19_admissible_exact"
   ],
   "note": ""
  },
  {
   "property": "C20",
   "status": "partial",
   "theorems": [
    "C20_optimal_refuted",
    "C20_optimal_partial"
   ],
   "note": "Refuted: a start that itself satisfies the goal ends the search even if another start reaches a goal cheaper. Proved when no start is a goal."
  },
  {
   "property": "C21",
   "status": "proved",
   "theorems": [
    "C21_terminates",
    "C21_complete"
   ],
   "note": "Completeness assumes that no accumulated cost overflows to infinity and that the child generator does not throw."
  },
  {
   "property": "C22",
   "status": "proved",
   "theorems": [
    "C22_rejects",
    "C22_real_path",
    "C22_optimal",
    "C22_total",
    "C22_weighted"
   ],
   "note": ""
  },
  {
   "property": "C23",
   "status": "proved",
   "theorems": [
    "C23_serial_returns_k_nearest",
    "C23_bad_arguments_throw"
   ],
   "note": "Serial query proved for every strict weak order of distances and every std::partial_sort meeting the standard's contract; argument checks proved."
  },
  {
   "property": "C24",
   "status": "partial",
   "theorems": [
    "C24_parallel_equals_serial_refuted",
    "C24_parallel_is_defined_refuted",
    "C24_parallel_equals_serial_partial",
    "C24_parallel_async_equals_serial_partial",
    "C24_dispatch",
    "C24_bad_arguments_throw"
   ],
   "note": "Refuted: OpenMP granting fewer threads than requested makes one thread overwrite its earlier share (wrong answer or UB). Proved when no thread number runs two shares (always without OpenMP, always when n<=K)."
  },
  {
   "property": "C25",
   "status": "proved",
   "theorems": [
    "C25_index_bijection"
   ],
   "note": ""
  },
  {
   "property": "C26",
   "status": "proved",
   "theorems": [
    "C26_latest_write",
    "C26_allowed_writes_succeed",
    "C26_out_of_bounds",
    "C26_one_slot_per_cell",
    "C26_defined"
   ],
   "note": ""
  },
  {
   "property": "C27",
   "status": "proved",
   "theorems": [
    "C27_refused_cell_access",
    "C27_refused_raw_access",
    "C27_refused_backing_store"
   ],
   "note": ""
  },
  {
   "property": "C28",
   "status": "partial",
   "theorems": [
    "C28_callback_cell_refuted",
    "C28_callback_cell_partial"
   ],
   "note": "The full statement is false of the code: OnMutableAccess(GridIndex) passes (X, Y, Y) to the callback (voxel_grid.hpp 662-665), so C28_callback_cell_refuted. Proved for the accessors taking three coordinates and for every accessor when y = z."
  },
  {
   "property": "C29",
   "status": "partial",
   "theorems": [
    "C29_round_trip_partial",
    "C29_any_bytes_consistent",
    "C29_empty_grid_refuted",
    "C29_hostile_overflow_refuted"
   ],
   "note": "False as stated in two corners: a grid whose extent underflows to no cells serializes to bytes its own deserializer rejects, and bytes naming too many cells reach signed overflow (both refutations are theorems). Proved: round trip for every reachable grid with at least one cell; consistency of whatever deserializes from arbitrary bytes."
  },
  {
   "property": "C30",
   "status": "proved",
   "theorems": [
    "C30_cell_centre"
   ],
   "note": ""
  },
  {
   "property": "C31",
   "status": "proved",
   "theorems": [
    "C31_history",
    "C31_ordinary_locations"
   ],
   "note": "In binary64. \"Same chunk/cell\" is what the code computes; C31_ordinary_locations shows that this is the geometric chunk and cell for locations at least 1/1024 cell away from cell boundaries and within 2^20 chunks of the origin. Callback assumed to answer the same when asked twice in a row about one location (true of DynamicSpatialHashedVoxelGrid)."
  },
  {
   "property": "C32",
   "status": "partial",
   "theorems": [
    "C32_every_finite_location_refuted",
    "C32_ordinary_location_partial"
   ],
   "note": "False as stated: setting a cell at x = -2^-100 raises (refuted). Proved for locations at least 1/1024 cell away from cell boundaries, within 2^20 chunks of the origin, with cell sizes in [2^-500, 2^500] and at most 2^20 cells per axis and chunk."
  },
  {
   "property": "C33",
   "status": "proved",
   "theorems": [
    "C33_splitmix64_sequence",
    "C33_xorshift128plus_sequence",
    "C33_xorshift1024star_sequence",
    "C33_discard_is_n_draws",
    "C33_outputs_in_range"
   ],
   "note": "The three generators refine stateless descriptions of the published sequences; discard and range for every state."
  },
  {
   "property": "C34",
   "status": "partial",
   "theorems": [
    "C34_splitmix64_reseed",
    "C34_xorshift128plus_reseed",
    "C34_xorshift1024star_reseed_refuted",
    "C34_xorshift1024star_reseed_partial"
   ],
   "note": "Refuted for XorShift1024Star: seed() leaves the position p_ where it was (simple_prngs.hpp:169-176), so reseeding reproduces the sequence only when a multiple of 16 values was consumed; proved for that case and unconditionally for the other two generators."
  },
  {
   "property": "C35",
   "status": "proved",
   "theorems": [
    "C35_xorshift128plus_never_zero",
    "C35_xorshift1024star_never_zero",
    "C35_xorshift1024star_output_not_stuck"
   ],
   "note": "Also shows that no seed leads to the all-zero state, because SplitMix64 seed words are pairwise different."
  },
  {
   "property": "C36",
   "status": "proved",
   "theorems": [
    "C36_elements_destroyed_once"
   ],
   "note": "TaggedUnion as instantiated by OwningMaybe<T> (dummy alternative trivial); elements carry destructor counts; histories over any number of maybes."
  },
  {
   "property": "C37",
   "status": "partial",
   "theorems": [
    "C37_throwing_copy_refuted",
    "C37_throwing_copy_partial"
   ],
   "note": "Refuted: operator= runs the destructor before the throwing construction and keeps type_ (maybe.hpp:99-119), so the old element is destroyed again. Proved for every history in which no fault strikes an assignment replacing a held value by another."
  },
  {
   "property": "C38",
   "status": "proved",
   "theorems": [
    "C38_maybe_is_option"
   ],
   "note": "ReferencingMaybe is C161."
  },
  {
   "property": "C39",
   "status": "proved",
   "theorems": [
    "C39_is_subset",
    "C39_collections_equal",
    "C39_equal_permutation"
   ],
   "note": "For any key type with a strict weak order, the maps of the code being ordered maps."
  },
  {
   "property": "C40",
   "status": "proved",
   "theorems": [
    "C40_set_bit",
    "C40_get_bit"
   ],
   "note": ""
  },
  {
   "property": "C41",
   "status": "proved",
   "theorems": [
    "C41_random_index",
    "C41_random_index_rejects",
    "C41_random_in_range",
    "C41_full_width"
   ],
   "note": "Proved for every size of a 64-bit (or smaller) size type with correctly rounded binary64 arithmetic, and for every range whose width fits the type; C41_full_width shows the limit (a range covering the whole type throws or overflows)."
  },
  {
   "property": "C42",
   "status": "proved",
   "theorems": [
    "C42_planning_keeps_the_tree",
    "C42_single_path_planning_keeps_the_tree",
    "C42_bidirectional_planning_keeps_the_trees",
    "C42_parents_lead_to_a_root",
    "C42_linkage_check",
    "C42_set_nodes",
    "C42_tree_from_nodes",
    "C42_add_root"
   ],
   "note": "Callbacks are arbitrary (may fail, keep data, add nodes) under stated contracts; the tree type is the library's own."
  },
  {
   "property": "C43",
   "status": "proved",
   "theorems": [
    "C43_paths",
    "C43_every_goal_has_its_path",
    "C43_single_path"
   ],
   "note": ""
  },
  {
   "property": "C44",
   "status": "proved",
   "theorems": [
    "C44_statistics",
    "C44_stops_when_told",
    "C44_planning_ends"
   ],
   "note": "Statistics are modelled as integers (the code counts in doubles, exact below 2^53); planning_time is not modelled."
  },
  {
   "property": "C45",
   "status": "proved",
   "theorems": [
    "C45_bridge_paths",
    "C45_single_path"
   ],
   "note": ""
  },
  {
   "property": "C46",
   "status": "partial",
   "theorems": [
    "C46_goal_reached_refuted",
    "C46_goal_bridge_refuted",
    "C46_goal_reached_partial",
    "C46_goal_bridge_partial",
    "C46_state_added_optional",
    "C46_bi_state_added_optional",
    "C46_single_path_goal_reached_optional",
    "C46_single_path_goal_bridge_optional"
   ],
   "note": "Refuted: with a goal already in the initial tree (or initial trees already connected) the empty function is called and std::bad_function_call is thrown (lines 702-710, 950-970). Proved otherwise, and for the single-path planners always."
  },
  {
   "property": "C47",
   "status": "partial",
   "theorems": [
    "C47_failed_insertion_refuted",
    "C47_own_parent_refuted",
    "C47_insertion_partial"
   ],
   "note": "Refuted for every tree: AddNodeAndConnect appends before it looks up the parent, so the node stays after out_of_range; a parent index equal to the size makes the node its own parent. The successful case is proved."
  },
  {
   "property": "C48",
   "status": "proved",
   "theorems": [
    "C48_extend",
    "C48_extend_state",
    "C48_connect",
    "C48_bad_step",
    "C48_fits_the_planner"
   ],
   "note": ""
  },
  {
   "property": "C49",
   "status": "partial",
   "theorems": [
    "C49_C86_library_neighbors",
    "C49_edges_are_valid_refuted",
    "C49_edges_are_valid_partial",
    "C49_exactly_the_offered_edges_partial"
   ],
   "note": "Refuted for asymmetric validity/distance functions when nodes are connected in the NEW_STATE_TO_ROADMAP direction: simple_prm_planner.hpp:294-318 computes the two distances by their real directions and then swaps them, so edges are stored the wrong way round. Proved for the other direction and for symmetric functions."
  },
  {
   "property": "C50",
   "status": "proved",
   "theorems": [
    "C50_grow"
   ],
   "note": ""
  },
  {
   "property": "C51",
   "status": "proved",
   "theorems": [
    "C51_build",
    "C51_linkage_check"
   ],
   "note": "Termination of the sampling loop is bounded by max_valid_sample_tries (throws). Callbacks may be stateful; neighbours are those returned by the provider on the full set of sampled states."
  },
  {
   "property": "C52",
   "status": "proved",
   "theorems": [
    "C52_query_leaves_roadmap"
   ],
   "note": ""
  },
  {
   "property": "C53",
   "status": "proved",
   "theorems": [
    "C53_update",
    "C53_inconsistent_rejected"
   ],
   "note": ""
  },
  {
   "property": "C54",
   "status": "partial",
   "theorems": [
    "C54_endpoints",
    "C54_iterations",
    "C54_validity_refuted",
    "C54_validity_partial",
    "C54_defined"
   ],
   "note": "Endpoints and the iteration bound hold for every random source. Edge validity is violated by path_processing.hpp:94-118: a resampled shortcut is not checked again unless check_for_marginal_shortcuts is set (C54_validity_refuted); it is proved when resampling is off or the check is on."
  },
  {
   "property": "C55",
   "status": "proved",
   "theorems": [
    "C55_percent_one",
    "C55_percent_range",
    "C55_percent_fraction"
   ],
   "note": ""
  },
  {
   "property": "C56",
   "status": "proved",
   "theorems": [
    "C56_resample",
    "C56_short_paths",
    "C56_bad_spacing",
    "C56_underflow"
   ],
   "note": "A quotient distance/spacing that underflows to zero drops the waypoint (C56_underflow), so the property is stated with the quotient. Exactly 2^32-1 segments make the uint32 loop counter wrap; the model returns Diverge there, so no claim is made for it."
  },
  {
   "property": "C57",
   "status": "proved",
   "theorems": [
    "C57_partition",
    "C57_bounded",
    "C57_returns",
    "C57_bad_matrix",
    "C57_elements"
   ],
   "note": "All schedules of the parallel searches; matrix entries may be infinite or NaN off the diagonal, negative entries are excluded (the code throws on them)."
  },
  {
   "property": "C58",
   "status": "proved",
   "theorems": [
    "C58_complete_link_bound",
    "C58_complete_link_separated",
    "C58_single_link_separated",
    "C58_single_link_components",
    "C58_final_distance"
   ],
   "note": "Separation theorems need finite entries: a pair at infinite distance is never merged even under an infinite bound. Single link clusters are shown to be exactly the connected components of the threshold graph."
  },
  {
   "property": "C59",
   "status": "partial",
   "theorems": [
    "C59_stable_assignment",
    "C59_unweighted",
    "C59_bad_number_of_clusters",
    "C59_preliminary_overflow_refuted"
   ],
   "note": "Proved for every callback, random stream, schedule and map iteration order; the callbacks are pure total functions (they do not throw). Not true in full: the test whether preliminary clustering makes sense multiplies num_clusters*5 in int32_t, so with preliminary clustering and more than 429496729 clusters the behaviour is undefined (C59_preliminary_overflow_refuted). Without convergence there is no result, see C60."
  },
  {
   "property": "C60",
   "status": "partial",
   "theorems": [
    "C60_terminates_refuted",
    "C60_alternating_labels_refuted",
    "C60_returns_partial",
    "C60_passes_bounded_partial"
   ],
   "note": "False as stated: with more clusters than data the drawing of distinct start indices never ends (C60_terminates_refuted), and an averaging function that is no mean can make the labels alternate for ever (C60_alternating_labels_refuted). Proved for K <= n, positive weights and averaging functions that minimise the weighted cost exactly (no rounding): a result exists and no run of the loop exceeds a bound that depends on the sizes only."
  },
  {
   "property": "C61",
   "status": "partial",
   "theorems": [
    "C61_minimum_refuted",
    "C61_cost_of_a_warping_partial",
    "C61_cost_of_a_warping_general_partial",
    "C61_equal_sequences_partial",
    "C61_empty_sequences_rejected"
   ],
   "note": "Refuted as stated: simple_dtw.hpp lines 93-104 pick the diagonal cell when the cells above and to the left tie below it. Proved: the result is always the cost of some warping (never below the least cost), it is 0 for sequences that match item by item, and empty sequences are rejected."
  },
  {
   "property": "C62",
   "status": "proved",
   "theorems": [
    "C62_reuse"
   ],
   "note": ""
  },
  {
   "property": "C63",
   "status": "partial",
   "theorems": [
    "C63_hausdorff_refuted",
    "C63_hausdorff_partial"
   ],
   "note": "Refuted as stated: only distances from the first set to the second are considered. Proved: the result is the Hausdorff distance when the reverse direction gives no more (and always the directed distance, C64)."
  },
  {
   "property": "C64",
   "status": "proved",
   "theorems": [
    "C64_directed_value",
    "C64_directed_value_from_matrix",
    "C64_parallel_equals_serial",
    "C64_bad_arguments_throw"
   ],
   "note": ""
  },
  {
   "property": "C65",
   "status": "proved",
   "theorems": [
    "C65_pairwise_matrix",
    "C65_pairwise_matrix_two_datasets",
    "C65_calls_touch_different_cells"
   ],
   "note": ""
  },
  {
   "property": "C66",
   "status": "proved",
   "theorems": [
    "C66_names_unique",
    "C66_duplicate_refused",
    "C66_unknown_ignored",
    "C66_by_name",
    "C66_failure_no_effect",
    "C66_exactly_the_registered"
   ],
   "note": "The logger is an arbitrary function that may throw; only the exact description of the contents assumes that it returns."
  },
  {
   "property": "C67",
   "status": "proved",
   "theorems": [
    "C67_bounded_and_follows",
    "C67_one_start",
    "C67_ends",
    "C67_no_outcomes"
   ],
   "note": "Primitives and callbacks may read, change and depend on a world state and may throw; IsCandidate is what it said when the plan was made. Assumes that the state equality function is equality. Without a limit the int32_t counter overflows after 2^31 executions (C67_ends is about a limit)."
  },
  {
   "property": "C68",
   "status": "proved",
   "theorems": [
    "C68_wrap",
    "C68_signed_distance",
    "C68_rounded_range"
   ],
   "note": "Exact reals: the wrapped angle is the unique representative; the signed distance is the shortest displacement. IEEE: for every finite double the results are finite and in [-M_PI, M_PI)."
  },
  {
   "property": "C69",
   "status": "proved",
   "theorems": [
    "C69_weighted_mean",
    "C69_within",
    "C69_rejects",
    "C69_rounded_equal_values"
   ],
   "note": "Exact reals for every list and weights (weights enter by absolute value). IEEE: the average of equal values is exact; C69_rounding_can_leave_the_range shows that in double arithmetic the range claim fails (values 1e17, 1 with weights 1e-300, 1 average to 0), which is why the property is stated for exact arithmetic."
  },
  {
   "property": "C70",
   "status": "partial",
   "theorems": [
    "C70_hex_round_trip",
    "C70_programs_partial",
    "C70_nan_refuted"
   ],
   "note": "Round trip proved for every byte; every program of constructors, setters and conversions with numeric arguments keeps channels in [0,1] and readable as hex. Missing: NaN arguments are not limited (TrimColorValue returns them), so the channel is NaN and reading it as hex is undefined behaviour (C70_nan_refuted)."
  },
  {
   "property": "C71",
   "status": "partial",
   "theorems": [
    "C71_matrix_serialization_defined_refuted",
    "C71_matrix_round_trip_partial",
    "C71_vector_round_trip"
   ],
   "note": "Violated for empty matrices: memcpy with &buffer[buffer.size()] and null data pointer (serialization.cpp 39-59). Proved for all matrices with at least one element."
  },
  {
   "property": "C72",
   "status": "partial",
   "theorems": [
    "C72_in_place_write_bounded_refuted",
    "C72_in_place_write_partial"
   ],
   "note": "Violated: buffer_position + sizeof wraps modulo 2^64 (serialization.hpp 756). Proved when the end position does not wrap."
  },
  {
   "property": "C73",
   "status": "proved",
   "theorems": [
    "C73_loop_joins_and_propagates"
   ],
   "note": ""
  },
  {
   "property": "C74",
   "status": "proved",
   "theorems": [
    "C74_static_loop_never_stuck",
    "C74_dynamic_loop_never_stuck"
   ],
   "note": "Possibility of completion from every reachable state; fairness of the OS scheduler is what turns it into termination."
  },
  {
   "property": "C75",
   "status": "partial",
   "theorems": [
    "C75_far_location_refuted",
    "C75_near_locations_partial"
   ],
   "note": "False as stated: converting floor() of a location further than 2^63 cells away to int64_t is undefined (refuted). Proved for locations within 2^62 cells of the origin."
  },
  {
   "property": "C76",
   "status": "partial",
   "theorems": [
    "C76_reset_bypasses_gate_refuted",
    "C76_other_calls_gated_partial"
   ],
   "note": "False as stated: ResetWithNewValue and its variants do not ask the callbacks (refuted). Proved for all other calls except the resets and Initialize."
  },
  {
   "property": "C77",
   "status": "partial",
   "theorems": [
    "C77_refused_write_refuted",
    "C77_refused_at_once_partial",
    "C77_refused_reference_partial",
    "C77_steady_callback_partial"
   ],
   "note": "False as stated for a callback that changes its answer between the two times SetLocation4d asks it (refuted). Proved when the first answer is a refusal, and for every callback that repeats its answer."
  },
  {
   "property": "C78",
   "status": "partial",
   "theorems": [
    "C78_round_trip_partial",
    "C78_any_bytes_consistent",
    "C78_empty_chunk_refuted",
    "C78_hostile_overflow_refuted"
   ],
   "note": "Round trip proved for chunks with at least one cell on every axis, for any iteration order of the unordered_map; consistency of whatever arbitrary bytes give is proved without that restriction. Two concrete violations: a grid whose chunk extent underflows to zero cells cannot be read back, and cell counts of 2^62 run into signed overflow. Derived classes' extra state, and fill status bytes other than 0,1,2 (kept but never distinguished from 0), are simplified as said in HashedSerialModel.v."
  },
  {
   "property": "C79",
   "status": "proved",
   "theorems": [
    "C79_splitmix64_full_period"
   ],
   "note": ""
  },
  {
   "property": "C80",
   "status": "proved",
   "theorems": [
    "C80_clamp",
    "C80_clamp_rejects"
   ],
   "note": ""
  },
  {
   "property": "C81",
   "status": "partial",
   "theorems": [
    "C81_connect_defined_refuted",
    "C81_connect_defined_partial",
    "C81_extend_defined"
   ],
   "note": "Refuted: ceil(distance/step) is cast to int32_t, undefined beyond 2^31. Proved exactly when the count fits; RRT-Extend always."
  },
  {
   "property": "C82",
   "status": "proved",
   "theorems": [
    "C82_tree_round_trip",
    "C82_tree_from_any_bytes"
   ],
   "note": ""
  },
  {
   "property": "C83",
   "status": "proved",
   "theorems": [
    "C83_nearest_neighbor"
   ],
   "note": ""
  },
  {
   "property": "C84",
   "status": "proved",
   "theorems": [
    "C84_state_and_goals",
    "C84_state_and_goals_total",
    "C84_state_and_goals_rejects",
    "C84_tree_sampling",
    "C84_select_sample_type",
    "C84_select_active_tree"
   ],
   "note": ""
  },
  {
   "property": "C85",
   "status": "proved",
   "theorems": [
    "C85_timeout_answers",
    "C85_timeout_stays",
    "C85_timeout_exact",
    "C85_timeout_reset",
    "C85_timeout_rejects"
   ],
   "note": ""
  },
  {
   "property": "C86",
   "status": "proved",
   "theorems": [
    "C86_lazy_query",
    "C86_stored_query"
   ],
   "note": "For stored-weight queries the functions must be symmetric because of C49."
  },
  {
   "property": "C87",
   "status": "proved",
   "theorems": [
    "C87_cheapest",
    "C87_complete",
    "C87_zero_double",
    "C87_zero_exact"
   ],
   "note": "Assumes that the state equality function is equality and that outcome generators return (no exception); costs are any type with the laws of SearchSpec (doubles and exact integers qualify)."
  },
  {
   "property": "C88",
   "status": "partial",
   "theorems": [
    "C88_arc_partial",
    "C88_ends_partial",
    "C88_rounded_start_partial",
    "C88_rounded_end_refuted"
   ],
   "note": "Proved in exact arithmetic. In double arithmetic the start is always accepted; accepting the end is refuted by start=-3.4548675255478964, end=6.330359871576228."
  },
  {
   "property": "C89",
   "status": "partial",
   "theorems": [
    "C89_single_rounding_partial",
    "C89_idempotent_partial",
    "C89_idempotent_refuted",
    "C89_in_range_unchanged_refuted"
   ],
   "note": "Proved: single rounding error bound for all finite doubles, idempotence for values >= -M_PI. Refuted: idempotence for the double just below -M_PI (first result M_PI-2^-51, second -M_PI); unchanged in-range values (1e-20 becomes 0)."
  },
  {
   "property": "C90",
   "status": "proved",
   "theorems": [
    "C90_metric"
   ],
   "note": "Exact arithmetic; C90_rounded_asymmetric shows that the double result is not exactly symmetric."
  },
  {
   "property": "C91",
   "status": "proved",
   "theorems": [
    "C91_shortest_arc",
    "C91_rounded_range"
   ],
   "note": ""
  },
  {
   "property": "C92",
   "status": "partial",
   "theorems": [
    "C92_between_partial",
    "C92_vectors_partial",
    "C92_rounded_partial",
    "C92_rounded_between_refuted"
   ],
   "note": "Proved in exact arithmetic; in double arithmetic the ends are exact and the error bounded. Staying in the interval is refuted in double arithmetic (equal ends 0.4189966076586993, ratio 0.013545302495986343 give a larger value)."
  },
  {
   "property": "C93",
   "status": "proved",
   "theorems": [
    "C93_std_dev",
    "C93_few_values"
   ],
   "note": ""
  },
  {
   "property": "C94",
   "status": "proved",
   "theorems": [
    "C94_corners",
    "C94_hull",
    "C94_reproduces"
   ],
   "note": ""
  },
  {
   "property": "C95",
   "status": "proved",
   "theorems": [
    "C95_metric",
    "C95_euclidean",
    "C95_sizes",
    "C95_rounded_symmetric",
    "C95_rounded_self"
   ],
   "note": ""
  },
  {
   "property": "C96",
   "status": "proved",
   "theorems": [
    "C96_accuracy",
    "C96_monotone",
    "C96_in_range_unchanged",
    "C96_limits"
   ],
   "note": ""
  },
  {
   "property": "C97",
   "status": "partial",
   "theorems": [
    "C97_exact_scale",
    "C97_valid_partial",
    "C97_equal_limits_refuted",
    "C97_wide_limits_refuted"
   ],
   "note": "Exact scale proved for all values and limits lo < hi; validity in IEEE arithmetic proved for every value that is a number and all finite limits lo < hi whose difference does not overflow. Refuted for lo = hi, which is accepted and gives 0/0 (C97_equal_limits_refuted), and for limits whose difference overflows, where infinity over infinity is a NaN channel (C97_wide_limits_refuted)."
  },
  {
   "property": "C98",
   "status": "proved",
   "theorems": [
    "C98_every_code",
    "C98_different",
    "C98_black"
   ],
   "note": ""
  },
  {
   "property": "C99",
   "status": "proved",
   "theorems": [
    "C99_projection"
   ],
   "note": ""
  },
  {
   "property": "C100",
   "status": "partial",
   "theorems": [
    "C100_orthogonal_partial",
    "C100_impossible_partial",
    "C100_double_refuted"
   ],
   "note": "Proved in exact arithmetic; refuted in double arithmetic: for (49, 0, 0) the result is (2^-53, 0, 0), parallel to the input (C100_double_refuted)."
  },
  {
   "property": "C101",
   "status": "proved",
   "theorems": [
    "C101_constructor",
    "C101_nearest_point",
    "C101_vectors"
   ],
   "note": "Exact arithmetic; GetNormedDotProduct (Eigen stableNormalized) is not modelled."
  },
  {
   "property": "C102",
   "status": "proved",
   "theorems": [
    "C102_clamp_norm"
   ],
   "note": ""
  },
  {
   "property": "C103",
   "status": "partial",
   "theorems": [
    "C103_hat_partial",
    "C103_double_partial",
    "C103_double_refuted"
   ],
   "note": "Exact round trip in doubles for components below 2^1023 in magnitude; a component of 2^1023 or more comes back infinite (C103_double_refuted)."
  },
  {
   "property": "C104",
   "status": "proved",
   "theorems": [
    "C104_adjoint"
   ],
   "note": ""
  },
  {
   "property": "C105",
   "status": "proved",
   "theorems": [
    "C105_group"
   ],
   "note": "Exact arithmetic with the real sin and cos."
  },
  {
   "property": "C106",
   "status": "partial",
   "theorems": [
    "C106_exponential_partial",
    "C106_slow_rotation_refuted"
   ],
   "note": "Proved unless 0 < |w| < 1e-100 <= |v|; there ExpTwist drops the rotation for any time (C106_slow_rotation_refuted). sin and cos are the real functions."
  },
  {
   "property": "C107",
   "status": "proved",
   "theorems": [
    "C107_value",
    "C107_no_angle",
    "C107_rounded"
   ],
   "note": ""
  },
  {
   "property": "C108",
   "status": "proved",
   "theorems": [
    "C108_componentwise",
    "C108_mean",
    "C108_rejects"
   ],
   "note": ""
  },
  {
   "property": "C109",
   "status": "proved",
   "theorems": [
    "C109_distribution_function",
    "C109_integral"
   ],
   "note": "Exact arithmetic with the real erf and exp; |erf| < 1 is proved from the Gaussian integral (GaussianErf.v), not assumed."
  },
  {
   "property": "C110",
   "status": "partial",
   "theorems": [
    "C110_truncated_partial",
    "C110_refused_partial",
    "C110_far_tail_refuted"
   ],
   "note": "Proved in exact arithmetic; refuted in doubles: even with a correctly rounded erf the CDF is NaN far from the mean, 0/0 (C110_far_tail_refuted)."
  },
  {
   "property": "C111",
   "status": "partial",
   "theorems": [
    "C111_in_bounds_partial",
    "C111_terminates_partial",
    "C111_narrow_tail_refuted",
    "C111_zero_deviation_refuted"
   ],
   "note": "Proved except when both bounds are finite, on one side of the mean and close together: there the proposals are drawn from the unstandardized bounds and samples leave the bounds (C111_narrow_tail_refuted); a zero deviation returns the mean even outside the bounds (C111_zero_deviation_refuted). The header does not compile as written (bare NONE, line 155); the intended DrawCases::NONE is modelled. Termination is proved for a mean inside the bounds."
  },
  {
   "property": "C112",
   "status": "partial",
   "theorems": [
    "C112_sizes_partial",
    "C112_sizes_refuted"
   ],
   "note": "Refuted: the constructor compares mean.cols() (1) with covariance.cols(), so only n = 1 is accepted."
  },
  {
   "property": "C113",
   "status": "partial",
   "theorems": [
    "C113_history_partial",
    "C113_history_refuted"
   ],
   "note": "Holds in double arithmetic, for every trajectory and every history of samplings and clonings without destruction at ordinary times (not negative, not NaN, below the largest double). Refuted when the times include NaN: the cache then no longer bounds the search, and after sampling at 1.5 and NaN the time 0.5 is answered with the wrong position and velocity."
  },
  {
   "property": "C114",
   "status": "partial",
   "theorems": [
    "C114_times_partial",
    "C114_negative_refuted",
    "C114_nan_refuted"
   ],
   "note": "Every ordinary time is answered. Refuted: for every trajectory a negative time before Duration decrements an iterator below begin() (undefined behaviour) before the constructor of PositionVelocityTimePoint could refuse it; NaN on a new trajectory uses an uninitialised iterator."
  },
  {
   "property": "C115",
   "status": "partial",
   "theorems": [
    "C115_clones_partial",
    "C115_clone_refuted"
   ],
   "note": "Holds when trajectories are cloned only before they were sampled (and, without destruction, always: C113). Refuted: Clone copies the cached iterator, which points into the list of the original; sampling the clone after the original was destroyed is undefined."
  },
  {
   "property": "C116",
   "status": "partial",
   "theorems": [
    "C116_refused_partial",
    "C116_sizes_refuted",
    "C116_zero_timestep_refuted"
   ],
   "note": "Fewer than two waypoints and non-finite deviations, limits and time steps are refused (the latter when the path itself can be built). Refuted: limit vectors of the wrong size give undefined behaviour or leave a joint without limit, and a time step of zero makes the call run forever."
  },
  {
   "property": "C117",
   "status": "proved",
   "theorems": [
    "C117_velocity_curve",
    "C117_acceleration_range",
    "C117_acceleration_curve"
   ],
   "note": "Exact arithmetic with infinities (xarith). The range of accelerations concerns the joints that move along the path, as in the code."
  },
  {
   "property": "C118",
   "status": "proved",
   "theorems": [
    "C118_path",
    "C118_samples"
   ],
   "note": "Exact arithmetic with infinities. well_posed is the precondition in the statement."
  },
  {
   "property": "C119",
   "status": "proved",
   "theorems": [
    "C119_polyline"
   ],
   "note": ""
  },
  {
   "property": "C120",
   "status": "proved",
   "theorems": [
    "C120_derivatives"
   ],
   "note": "Exact arithmetic with infinities."
  },
  {
   "property": "C121",
   "status": "partial",
   "theorems": [
    "C121_velocity_partial",
    "C121_standing_refuted"
   ],
   "note": "Proved at every time that is not the time of a step, before and after Duration and whether or not step times are in order, as long as the steps are finite numbers, the leg has two different times and the motion is on the path. Refuted where the motion is off the path: after Duration the last leg is extrapolated, the position is clamped to the path but the velocity is not (C121_standing_refuted)."
  },
  {
   "property": "C122",
   "status": "partial",
   "theorems": [
    "C122_ends_partial",
    "C122_two_waypoints_partial",
    "C122_after_refuted"
   ],
   "note": "At Duration at rest at the last waypoint, for all trajectories whose last two steps have different times; at time zero when the first two steps have different times and Duration is positive; for two waypoints without such conditions. Refuted after Duration: the last step is extrapolated, so the motion goes back."
  },
  {
   "property": "C123",
   "status": "partial",
   "theorems": [
    "C123_two_waypoints_partial",
    "C123_velocity_refuted"
   ],
   "note": "Proved for two waypoints: every joint stays below its limit plus one time step of acceleration. Refuted in general, by example in double arithmetic: four times the limit. Missing: bounds for more than two waypoints."
  },
  {
   "property": "C124",
   "status": "partial",
   "theorems": [
    "C124_two_waypoints_partial",
    "C124_close_waypoints_refuted"
   ],
   "note": "Proved for two waypoints in exact arithmetic. In double arithmetic the call never returns for two distinct waypoints whose squared distance underflows (C124_close_waypoints_refuted). Missing: more than two waypoints (the backward integration can fail)."
  },
  {
   "property": "C125",
   "status": "proved",
   "theorems": [
    "C125_rpy",
    "C125_urdf_rpy",
    "C125_transforms",
    "C125_proper",
    "C125_size"
   ],
   "note": "In exact arithmetic; Eigen's AngleAxis products written out as quaternion products."
  },
  {
   "property": "C126",
   "status": "proved",
   "theorems": [
    "C126_matrix",
    "C126_isometry",
    "C126_round_trip",
    "C126_quaternion"
   ],
   "note": "In exact arithmetic, with atan2 defined on reals in RotationSpec.v; eulerAngles(0,1,2) written out from Eigen 3.4."
  },
  {
   "property": "C127",
   "status": "proved",
   "theorems": [
    "C127_vector3",
    "C127_quaternion",
    "C127_vectorX",
    "C127_sizes"
   ],
   "note": "In any arithmetic, so also for doubles."
  },
  {
   "property": "C128",
   "status": "partial",
   "theorems": [
    "C128_angle_exists",
    "C128_distance",
    "C128_symmetric",
    "C128_zero_iff_same",
    "C128_invariant",
    "C128_triangle_partial",
    "C128_triangle_refuted",
    "C128_rounded"
   ],
   "note": "The distance is 0 for rotations at most 1e-7 apart, so the triangle inequality holds only up to 2e-7 (C128_triangle_partial) and is refuted exactly (C128_triangle_refuted: two distances 0, the third positive). Everything else is proved exactly; in double arithmetic the result is never NaN and in [0, M_PI] for any input."
  },
  {
   "property": "C129",
   "status": "partial",
   "theorems": [
    "C129_ends",
    "C129_on_the_arc",
    "C129_clamped",
    "C129_norm_partial",
    "C129_unit_refuted"
   ],
   "note": "Ends and proportional angles proved; for rotations at most 1e-7 apart the result has norm^2 in [1-2^-52, 1] (C129_norm_partial) and need not be exactly of length one (C129_unit_refuted)."
  },
  {
   "property": "C130",
   "status": "proved",
   "theorems": [
    "C130_ends",
    "C130_translation",
    "C130_rotation",
    "C130_distance"
   ],
   "note": "Rotations at most 1e-7 apart count as distance 0 and have no claim about the interpolated rotation between the ends."
  },
  {
   "property": "C131",
   "status": "proved",
   "theorems": [
    "C131_unit",
    "C131_reaches"
   ],
   "note": "Draws in [0, 1) never give x = y = 0 (rotations about z), a set of measure zero."
  },
  {
   "property": "C132",
   "status": "proved",
   "theorems": [
    "C132_ranges",
    "C132_reaches_angles",
    "C132_reaches_rotations",
    "C132_pitch_distribution"
   ],
   "note": ""
  },
  {
   "property": "C133",
   "status": "proved",
   "theorems": [
    "C133_best",
    "C133_order",
    "C133_signs",
    "C133_equal",
    "C133_single",
    "C133_rejects"
   ],
   "note": "Eigen::EigenSolver is a parameter; hypothesis: it returns four eigenpairs of unit eigenvectors spanning the space."
  },
  {
   "property": "C134",
   "status": "partial",
   "theorems": [
    "C134_multiplicity_refuted",
    "C134_zero_weights_refuted",
    "C134_squares_partial",
    "C134_zero_weight_partial"
   ],
   "note": "Refuted: weights enter squared (C134_multiplicity_refuted); two or more quaternions with zero weights are not rejected (C134_zero_weights_refuted). Proved instead: an integer weight n acts as n^2 copies, a zero weight as leaving the quaternion out."
  },
  {
   "property": "C135",
   "status": "proved",
   "theorems": [
    "C135_average",
    "C135_rejects",
    "C135_single"
   ],
   "note": "Same hypothesis on the solver as C133."
  },
  {
   "property": "C136",
   "status": "proved",
   "theorems": [
    "C136_lookup",
    "C136_keys",
    "C136_round_trip",
    "C136_two_containers",
    "C136_set_keys"
   ],
   "note": ""
  },
  {
   "property": "C137",
   "status": "proved",
   "theorems": [
    "C137_clamp",
    "C137_spread",
    "C137_low_is_mid",
    "C137_nan"
   ],
   "note": ""
  },
  {
   "property": "C138",
   "status": "proved",
   "theorems": [
    "C138_substring"
   ],
   "note": ""
  },
  {
   "property": "C139",
   "status": "proved",
   "theorems": [
    "C139_end_of_scope",
    "C139_exception",
    "C139_disabled",
    "C139_empty"
   ],
   "note": "A callback that throws is modelled as ending the program (destructors are noexcept)."
  },
  {
   "property": "C140",
   "status": "partial",
   "theorems": [
    "C140_counter",
    "C140_copy",
    "C140_assign",
    "C140_orders",
    "C140_orders_all_refuted"
   ],
   "note": "The last clause is false: with a default order of consume, acquire, release or acq_rel every copy passes that order to a load or a store for which std::atomic leaves it undefined (C140_orders_all_refuted); C140_orders says exactly which orders work. Counting and copying are proved for the interleaving (sequentially consistent) semantics of atomic operations; for read-modify-write counters the result does not depend on the order."
  },
  {
   "property": "C141",
   "status": "partial",
   "theorems": [
    "C141_round_trip_partial",
    "C141_round_trip_refuted"
   ],
   "note": "Proved when the compressed form also has fewer than 2^32 bytes. Without that the claim is false for every zlib: by counting, some accepted input has a compressed form of 2^32 bytes or more, which DecompressBytes rejects (C141_round_trip_refuted). zlib is assumed to keep the contract in ZlibSpec.v, met by the coding in ZlibExample.v."
  },
  {
   "property": "C142",
   "status": "proved",
   "theorems": [
    "C142_exact",
    "C142_error",
    "C142_truncated",
    "C142_refusals"
   ],
   "note": "zlib is assumed to keep the contract in ZlibSpec.v."
  },
  {
   "property": "C143",
   "status": "partial",
   "theorems": [
    "C143_file_round_trip_partial",
    "C143_partial_file_detected",
    "C143_write_reports_refuted",
    "C143_load_reports"
   ],
   "note": "False that failures are reported: CompressAndWriteToFile never looks at the stream's state (C143_write_reports_refuted). Proved: the round trip when the write succeeds, detection of partly written files on loading, and that LoadFromFileAndDecompress reports missing and unreadable files."
  },
  {
   "property": "C144",
   "status": "partial",
   "theorems": [
    "C144_team_restored",
    "C144_setting_restored_partial",
    "C144_setting_restored_refuted",
    "C144_in_scope",
    "C144_disabled",
    "C144_refusals"
   ],
   "note": "The number of threads of regions is restored always; the setting only when it did not exceed the runtime's limit, because the destructor sets the measured size of a region (C144_setting_restored_refuted). Dynamic adjustment and nested parallelism are off in the model."
  },
  {
   "property": "C145",
   "status": "partial",
   "theorems": [
    "C145_value_partial",
    "C145_race",
    "C145_race_free_refuted"
   ],
   "note": "The value is right for every order of writes; but all threads of the region write the same ordinary variable, which is a data race whenever there are two (C145_race_free_refuted)."
  },
  {
   "property": "C146",
   "status": "proved",
   "theorems": [
    "C146_best_fit",
    "C146_coplanar",
    "C146_refusals"
   ],
   "note": "Exact arithmetic. Eigen's JacobiSVD is an arbitrary function meeting is_svd (a thin decomposition with nonnegative singular values and orthonormal factors)."
  },
  {
   "property": "C147",
   "status": "partial",
   "theorems": [
    "C147_normed_partial",
    "C147_cosine_refuted"
   ],
   "note": "False for planes whose normal is not of unit length, which the constructor accepts (C147_cosine_refuted: the value can be 2). Proved: the value is the inner product of the normal with the unit vector to the point, is constant along rays, is 0 at the origin and at most the length of the normal in absolute value, hence a cosine for unit normals. Exact arithmetic."
  },
  {
   "property": "C148",
   "status": "partial",
   "theorems": [
    "C148_accepts",
    "C148_rejects_partial",
    "C148_exact_refuted",
    "C148_symmetric",
    "C148_symmetric_vectors",
    "C148_threshold",
    "C148_reflexive_partial",
    "C148_infinite_refuted",
    "C148_vectors_partial",
    "C148_nan_refuted",
    "C148_equal"
   ],
   "note": "False at the boundary (C148_exact_refuted: the rounded difference is compared), for infinities (never close to themselves) and for vectors with NaN components (accepted, though the scalar form refuses NaN). Proved for finite values: everything within the threshold is accepted, what is accepted is within it up to relative 2^-53, symmetry for all doubles, monotonicity, vector form = conjunction, Equal3d and Equal4d = equality."
  },
  {
   "property": "C149",
   "status": "proved",
   "theorems": [
    "C149_accepts",
    "C149_rejects",
    "C149_exact",
    "C149_symmetric"
   ],
   "note": "Colours reachable without NaN arguments (C70). Float rounding as in IEEE binary32."
  },
  {
   "property": "C150",
   "status": "partial",
   "theorems": [
    "C150_two_vectors",
    "C150_scalar",
    "C150_abs",
    "C150_divide_refuted",
    "C150_divide_extreme_refuted",
    "C150_divide_partial",
    "C150_norm_partial",
    "C150_norm_refuted",
    "C150_norm_number"
   ],
   "note": "Dividing by a scalar multiplies by the rounded inverse: not the correctly rounded quotient (C150_divide_refuted), and infinite where the quotient is 1 (C150_divide_extreme_refuted); two roundings away from it otherwise (C150_divide_partial). Norm overflows and underflows (C150_norm_refuted); it is the Euclidean norm in exact arithmetic (C150_norm_partial). Everything else is proved for all doubles."
  },
  {
   "property": "C151",
   "status": "proved",
   "theorems": [
    "C151_three",
    "C151_quaternion",
    "C151_homogeneous",
    "C151_round_trips"
   ],
   "note": ""
  },
  {
   "property": "C152",
   "status": "partial",
   "theorems": [
    "C152_to_isometry_partial",
    "C152_message_round_trip_partial",
    "C152_transform_round_trip_partial",
    "C152_isometry_round_trip",
    "C152_non_unit_refuted",
    "C152_zero_quaternion"
   ],
   "note": "The library neither normalises nor refuses a quaternion that is not of length one: C152_non_unit_refuted gives a pose whose \"isometry\" stretches by 7. The _partial theorems assume length one; C152_isometry_round_trip holds for every proper isometry."
  },
  {
   "property": "C153",
   "status": "proved",
   "theorems": [
    "C153_elementwise",
    "C153_round_trips",
    "C153_isometries"
   ],
   "note": ""
  },
  {
   "property": "C154",
   "status": "proved",
   "theorems": [
    "C154_stamped",
    "C154_timestamps"
   ],
   "note": ""
  },
  {
   "property": "C155",
   "status": "proved",
   "theorems": [
    "C155_shape",
    "C155_leaves"
   ],
   "note": ""
  },
  {
   "property": "C156",
   "status": "partial",
   "theorems": [
    "C156_unambiguous_partial",
    "C156_default_separator",
    "C156_no_delimiters_refuted",
    "C156_text_refuted"
   ],
   "note": "Refuted in general: strings are written unescaped (C156_text_refuted), and without delimiters nested containers run together (C156_no_delimiters_refuted). C156_unambiguous_partial: with delimiters it holds for every nesting of integers and truth values."
  },
  {
   "property": "C157",
   "status": "proved",
   "theorems": [
    "C157_vectors",
    "C157_quaternion",
    "C157_matrices",
    "C157_labels"
   ],
   "note": ""
  },
  {
   "property": "C158",
   "status": "partial",
   "theorems": [
    "C158_acceleration_partial",
    "C158_corner_refuted"
   ],
   "note": "Refuted: a corner that is not blended (deviation 0) is passed without stopping, so the velocity jumps (C158_corner_refuted). Proved: everywhere else the velocity is differentiable with the joint acceleration of the leg's path acceleration, which C117 relates to the limits. Missing: that the path acceleration of every leg is within the range of C117."
  },
  {
   "property": "C159",
   "status": "partial",
   "theorems": [
    "C159_reaches_end_partial",
    "C159_recovers_twist",
    "C159_logarithms_exist",
    "C159_slow_rotation_refuted"
   ],
   "note": "Proved for any function that is a matrix logarithm on the motion at hand (Eigen's log() is not modelled), unless ExpTwist drops the rotation (0 < |w| < 1e-100 <= |v|), where following the twist is proved to miss the end. Returning the followed twist (below half a turn) and existence of logarithms are proved without exception. Exact arithmetic."
  },
  {
   "property": "C160",
   "status": "proved",
   "theorems": [
    "C160_angle",
    "C160_no_angle",
    "C160_rounded"
   ],
   "note": "Exact arithmetic for the value; doubles for the range of the argument of acos. std::acos itself is a parameter."
  },
  {
   "property": "C161",
   "status": "proved",
   "theorems": [
    "C161_references",
    "C161_dangling"
   ],
   "note": "Objects are a store; a program that names a maybe that does not exist is outside the claim."
  },
  {
   "property": "C162",
   "status": "proved",
   "theorems": [
    "C162_magnitudes",
    "C162_symmetric",
    "C162_from_current_position"
   ],
   "note": "The virtual functions are arbitrary functions of a state; GetPosition must give what was set."
  },
  {
   "property": "C163",
   "status": "proved",
   "theorems": [
    "C163_direction",
    "C163_always"
   ],
   "note": "Exact arithmetic (reals with NaN and infinities). The angle-dependent blend, the gap below a millionth and the unblended corner are all covered."
  },
  {
   "property": "C164",
   "status": "proved",
   "theorems": [
    "C164_way",
    "C164_optimal",
    "C164_total",
    "C164_negative"
   ],
   "note": "Costs are an abstract ordered monoid with infinity (cost_laws), shown to hold of exact integers and used for doubles in C18; the order in which the priority queue pops ties is arbitrary (valid_pick). Termination is stated for a finite reachable set of states with bounded branching."
  },
  {
   "property": "C165",
   "status": "proved",
   "theorems": [
    "C165_children",
    "C165_once",
    "C165_order",
    "C165_parent"
   ],
   "note": ""
  },
  {
   "property": "C166",
   "status": "proved",
   "theorems": [
    "C166_macro",
    "C166_index",
    "C166_region",
    "C166_lookup",
    "C166_last_member",
    "C166_column"
   ],
   "note": "std::hash of int64_t and double are parameters of which the requirements of the standard are assumed (is_hash); the fourth coordinate of a region is always 1."
  },
  {
   "property": "C167",
   "status": "proved",
   "theorems": [
    "C167_same_value",
    "C167_exactly_changes",
    "C167_logger_throws"
   ],
   "note": "Messages are modelled by what they say; std::to_string is not."
  },
  {
   "property": "C168",
   "status": "partial",
   "theorems": [
    "C168_check_partial",
    "C168_require_partial",
    "C168_zero_refuted"
   ],
   "note": "False for an alignment of 0 (EIGEN_DEFAULT_ALIGN_BYTES is 0 when Eigen is told not to align): remainder by zero. Proved for every positive alignment."
  },
  {
   "property": "C169",
   "status": "partial",
   "theorems": [
    "C169_two_clusters_partial",
    "C169_repeated_data_refuted",
    "C169_three_clusters_refuted"
   ],
   "note": "False for data with repetitions (C169_repeated_data_refuted) and for three clusters of different data (C169_three_clusters_refuted: from the centres -11, 10, 12 the second cluster loses all its elements): the result depends on what the averaging function does with an empty list. Proved: two clusters of pairwise different data with exact Euclidean means never become empty, for every draw, schedule and preliminary clustering."
  },
  {
   "property": "C170",
   "status": "proved",
   "theorems": [
    "C170_rrt_single_path",
    "C170_birrt_single_path",
    "C170_rrt_multi_path",
    "C170_birrt_multi_path"
   ],
   "note": "Logs of callbacks; fuel bounds the number of rounds looked at, any number."
  },
  {
   "property": "C171",
   "status": "partial",
   "theorems": [
    "C171_reset_with_own_cell_refuted",
    "C171_initialize_own_default_refuted",
    "C171_set_chunk_own_cell_refuted",
    "C171_set_partial",
    "C171_set_data_partial",
    "C171_reset_default_partial",
    "C171_reset_value_partial",
    "C171_initialize_partial",
    "C171_hashed_set_partial"
   ],
   "note": "The full property is refuted: ResetWithNewValue given a cell of the grid reads it after data_.clear() (every grid with a cell, every cell); Initialize given GetDefaultValue() as oob value stores the new default; hashed SetLocation(SET_CHUNK) given a value of the written chunk, and SET_CELL into a chunk filled as a whole, read it after clear(). For every other reference and setter the call is proved equal to the one with a copy. Only the const T& overloads are modelled with references (the T&& ones have the same bodies)."
  },
  {
   "property": "C172",
   "status": "proved",
   "theorems": [
    "C172_cells",
    "C172_once",
    "C172_complete",
    "C172_centre"
   ],
   "note": "Proved over binary64 with rounding, for chunks at most 2^20 from the origin with at most 2^20 cells per axis and cell sizes 2^-500 to 2^500. GetIndexMutable of a chunk is not modelled (it is const and does not compile when instantiated)."
  },
  {
   "property": "C173",
   "status": "proved",
   "theorems": [
    "C173_tries",
    "C173_bad_arguments",
    "C173_library_answers"
   ],
   "note": "K below 2^63 - 1 (K + 1 overflows there, see C51). Callbacks that throw are not covered by C173_tries."
  },
  {
   "property": "C174",
   "status": "partial",
   "theorems": [
    "C174_rounding_refuted",
    "C174_tiny_refuted",
    "C174_covers_partial",
    "C174_refuses",
    "C174_accepts",
    "C174_by_cells"
   ],
   "note": "Refuted as stated: 3 cells of 1+2^-52 are made for the length 3+2^-50 and do not cover it, and a length far below the cell size gets zero cells in sizes that claim to be valid. Proved: for lengths of 2^-1022 to 2^53 cells the cells cover the length up to a factor 1+2^-53 and one cell less would not; the exact condition for being refused; acceptance up to 2^31 cells per axis; sizes by numbers of cells."
  },
  {
   "property": "C175",
   "status": "partial",
   "theorems": [
    "C175_boundary_refuted",
    "C175_inside_partial",
    "C175_off_by_one",
    "C175_monotone"
   ],
   "note": "Refuted at the faces of cells: with cells of 0.1 the location 0.3, inside the third cell, is reported in the fourth (outside a grid of three cells). Proved: exact for locations at least (|i|+1) 2^-50 of a cell away from the faces; never off by more than one cell; monotone."
  },
  {
   "property": "C176",
   "status": "proved",
   "theorems": [
    "C176_different_distances",
    "C176_async",
    "C176_async_in_turn",
    "C176_in_turn",
    "C176_elements_async",
    "C176_elements_different"
   ],
   "note": "Distances that are all different: any two runs agree, whatever the schedule. Equal distances: proved for the async backend (no OpenMP in the build); for OpenMP C176_in_turn proves it for every iteration whose loops take their indices in turn, as schedule(static) does in practice; the model lets OpenMP assign iterations to any thread."
  },
  {
   "property": "C177",
   "status": "proved",
   "theorems": [
    "C177_any_threads",
    "C177_unweighted",
    "C177_same_centers"
   ],
   "note": "The sets of possible results are equal; the only choice left is the iteration order of std::unordered_map."
  },
  {
   "property": "C178",
   "status": "proved",
   "theorems": [
    "C178_build",
    "C178_add",
    "C178_grow",
    "C178_query",
    "C178_update",
    "C178_linear_provider"
   ],
   "note": "The samples themselves may depend on the order when parallel sampling is requested (the sampler is stateful), so both builds use one sample order. For overlays the answers are compared."
  },
  {
   "property": "C179",
   "status": "proved",
   "theorems": [
    "C179_channels",
    "C179_others_kept",
    "C179_others_kept_hex",
    "C179_conversion"
   ],
   "note": "Model: ColorModel.v (color_builder.hpp:17-198) in IEEE single arithmetic. NaN arguments are excluded (C70 says what happens with them)."
  },
  {
   "property": "C180",
   "status": "proved",
   "theorems": [
    "C180_centres",
    "C180_round_trip",
    "C180_access",
    "C180_lookup",
    "C180_refused",
    "C180_centred"
   ],
   "note": "Eigen's isometry product and inverse are modelled after Eigen 3.4 (transposed linear part), with dot products from left to right without fused multiply-add; the bounds do not depend on that order beyond the constants."
  },
  {
   "property": "C181",
   "status": "proved",
   "theorems": [
    "C181_one_value_per_cell",
    "C181_set_cell",
    "C181_set_chunk"
   ],
   "note": "Locations nearer to a face of a cell than a quarter of its side are not covered (there C32 is refuted)."
  },
  {
   "property": "C182",
   "status": "proved",
   "theorems": [
    "C182_any_library",
    "C182_any_threads",
    "C182_openmp"
   ],
   "note": "With ties only the distances agree (C24). OpenMP executions in which one thread number runs two shares are wrong (C24 refuted)."
  },
  {
   "property": "C183",
   "status": "proved",
   "theorems": [
    "C183_equal",
    "C183_differ",
    "C183_uniform",
    "C183_cubic",
    "C183_cubic_axes"
   ],
   "note": "The comparisons are over IEEE-754 doubles (Beqb), so the proof includes that no obtainable size holds a NaN or a negative zero length."
  },
  {
   "property": "C184",
   "status": "partial",
   "theorems": [
    "C184_trials_partial",
    "C184_distribution_partial",
    "C184_truncated_partial",
    "C184_narrow_tail_refuted"
   ],
   "note": "Proved in exact arithmetic for every case but the narrow tail of C111, where the proposals come from the wrong range and no trial returns anything within the bounds (C184_narrow_tail_refuted). The standard distributions are assumed to have their densities (normal, exponential, uniform); a trial's probability is the integral of the proposal density times the acceptance probability."
  },
  {
   "property": "C185",
   "status": "proved",
   "theorems": [
    "C185_integer_part",
    "C185_fair_shares",
    "C185_fair_numbers"
   ],
   "note": "Over IEEE-754 doubles, for every integral size type of at most 64 bits. That the source is uniform over k/2^53 is the assumption of the counting theorems; C185_integer_part holds for any source."
  },
  {
   "property": "C186",
   "status": "proved",
   "theorems": [
    "C186_draws",
    "C186_moments",
    "C186_constructed"
   ],
   "note": "Exact arithmetic; Eigen's LLT and SelfAdjointEigenSolver are parameters whose results are assumed correct for the matrix at hand. By C112 the constructor only accepts one row; the theorems hold for every size."
  },
  {
   "property": "C187",
   "status": "proved",
   "theorems": [
    "C187_switching_points",
    "C187_next_switching_point"
   ],
   "note": "Exact arithmetic (xarith/xextras of TotpScalar.v). well_posed as in C118-C120. The list is compared in order, with a marked point before an unmarked one at the same place."
  },
  {
   "property": "C188",
   "status": "proved",
   "theorems": [
    "C188_goal_reached",
    "C188_goal_bridge",
    "C188_single_goal_reached",
    "C188_single_goal_bridge",
    "C188_state_added",
    "C188_single_state_added",
    "C188_bi_state_added",
    "C188_bi_single_state_added",
    "C188_same_run",
    "C188_single_same_run",
    "C188_bi_same_run",
    "C188_bi_single_same_run"
   ],
   "note": "For planning that returns; the callbacks write what they are told to a log before doing what the user wants. The first four theorems allow callbacks that change the tree; the state-added ones need callbacks that leave it alone. The run with the log is proved to be the run without it (C188_same_run and its three relatives), for every outcome including exceptions."
  },
  {
   "property": "C189",
   "status": "proved",
   "theorems": [
    "C189_acceleration",
    "C189_velocity",
    "C189_next",
    "C189_crossing"
   ],
   "note": "About Trajectory::GetNextSwitchingPoint and its two searches, and the bisection of IntegrateForward, over exact reals extended by infinities and NaN; the limit curves are those of C117 and the path's switching points those of C187. Switching points closer than a millionth to the end of the path are ignored by the code and by the statement. A finding recorded in the statement: when there is no usable minimum ahead, the speed switching point is compared with the acceleration limit only up to a stale position (totp.cpp:647-653), so it need not be within that limit; the theorem claims it only when a minimum exists."
  },
  {
   "property": "C190",
   "status": "proved",
   "theorems": [
    "C190_quaternion_volume",
    "C190_quaternion_once",
    "C190_quaternion_covers",
    "C190_euler_volume",
    "C190_euler_once",
    "C190_euler_covers",
    "C190_urdf_volume",
    "C190_urdf_once",
    "C190_urdf_covers"
   ],
   "note": "Exact arithmetic. Uniformity is stated by the change-of-variables criterion: constant Gram determinant of the three partial derivatives (with the factor equal to the volume of the whole sphere, or of half of it), injective, and onto but for a set of lower dimension; measure theory itself (that these imply uniform distribution) is not formalised. The third Euler draw is a coin, and the claim holds on each side of it."
  },
  {
   "property": "C191",
   "status": "proved",
   "theorems": [
    "C191_graph",
    "C191_graph_told",
    "C191_edge_told",
    "C191_node_told",
    "C191_overlay_printed",
    "C191_overlay_told",
    "C191_overlay_history"
   ],
   "note": "print::Print of a value and std::to_string of a weight are parameters: values' texts without an opening bracket, weights' texts of the characters of numbers (which %f gives). Weights are printed with six decimals, so only their text is determined."
  }
 ]
}