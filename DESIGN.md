# Formal model of common_robotics_utilities in Rocq (Coq 8.16.1)

## Approach

The repository is a C++ library of algorithms and data structures. We write
executable Gallina models of its functions, prove the properties of
`properties.jsonl` about them, and keep the property theorems in
`theories/Prop_*.v`, each followed by `Print Assumptions` and by an example
showing that its hypotheses are met by a concrete, non-trivial case.

| kind of file | content |
|----|----|
| `*Model.v` | the code, function by function, each definition with the file and lines it models; no proofs |
| `*Spec.v` | the vocabulary of the theorems, written without the model's helpers |
| `*Proof.v` and others | lemmas |
| `Prop_*.v` | the theorems `Cnn_...` of property Cnn |

Conventions used in every model file:

* **Outcomes.** `Base.outcome A = Ok a | Throw e | UB | Diverge`: a C++
  exception, undefined behaviour (out-of-range raw indexing, a shift past the
  width, a cast out of range, a read of a destroyed object, ...) and running out
  of the loop fuel are all distinct from a normal result.
* **Integers.** Sizes and indices are `nat`/`Z` unless the property concerns
  wrap-around; the deserializers, generators and the compression helpers compute
  modulo 2^64 explicitly.
* **Doubles.** Where only the order and a monotone addition are used (search,
  KNN, clustering, DTW, Hausdorff) the element type is abstract and the needed
  laws are hypotheses packaged in a record; an exact instance (Z or R) and the
  IEEE binary64 instance (Flocq) show that the laws are satisfiable. `math.cpp`
  and everything built on it is written once over a record of operations
  (`MathModel.arith`) and read in exact arithmetic (`real_arith`, the real
  numbers) and in IEEE arithmetic (`double_arith`, Flocq's `binary_float 53 1024`
  with rounding to nearest even). Which of the two a theorem is about is visible
  in its statement.
* **Callbacks** (`std::function`) are Gallina function arguments, possibly
  state-dependent through an explicit oracle argument.
* **Unspecified order** (heap ties, `unordered_map` iteration, thread
  schedules) is an oracle or an inductive step relation; theorems quantify over
  all of it.
* **Loops without a syntactic bound** take fuel and return `Diverge` when it
  runs out; theorems either exclude it or prove that it does not occur for
  sufficient fuel (termination).
* **Library code** that the repository calls is written out from its
  documentation when it is simple (`std::vector`, `std::map`, Eigen's vector,
  quaternion and angle-axis operations) and otherwise an arbitrary function or
  relation constrained by its specification: `std::partial_sort`,
  `std::priority_queue`, JacobiSVD, EigenSolver, zlib, the OpenMP runtime,
  random sources, the file system, `acos`, `atan2`, `sin`, `cos`, `tan`, `erf`.

Properties that the unchanged code violates keep their full statement in
`properties.jsonl`; the model proves a `..._refuted` theorem with a concrete
witness, and `..._partial` theorems for the part that does hold. The manifest
marks them "partial" and the note says what is missing.

## Trusted base

* **Coq's kernel** (8.16.1, with its `vm_compute` machine, used for concrete
  witnesses and finite case checks), and that the flags of `_CoqProject` are
  unchanged. No axioms of our own, no `Admitted`, no plugins, no functors or
  module types.
* **Axioms.** `Print Assumptions` of every theorem lists a subset of four axioms
  of the standard library: `ClassicalDedekindReals.sig_forall_dec`,
  `ClassicalDedekindReals.sig_not_dec` (the real numbers),
  `FunctionalExtensionality.functional_extensionality_dep` and
  `Classical_Prop.classic` (through the reals, Flocq and Coquelicot). The list
  per theorem is at the end of this file. A tool that also counts opaque module
  fields will name constants such as `Rdefinitions.RbaseSymbolsImpl.*`,
  `Rdefinitions.RinvImpl.*` and `ssr.ssrunder.Under_rel.*`; they are sealed
  definitions of the standard library and of ssreflect, not axioms.
* **The models.** That the Gallina definitions say what the C++ says. Each cites
  its lines; simplifications are stated in the comments, the systematic ones are
  the conventions above.
* **The specifications** of library code listed above, which appear as
  hypotheses of the theorems (never as axioms).
* **C++ semantics** assumed: 64-bit `size_t` and `long`, 32-bit `int`, IEEE 754
  `float` and `double` without excess precision and in the default rounding mode,
  plain `char` signed (as on x86-64) unless a theorem says otherwise, evaluation
  of Eigen expressions in index order.

## What is modelled

| source | model | not modelled |
|----|----|----|
| `base64_helpers.*` | `Base64Model` | nothing |
| `serialization.*` | `SerializationModel` | the generic templates are combinators over element codecs; `unordered_map` order is an argument |
| `zlib_helpers.*` | `ZlibModel` | zlib itself (record of functions with a contract in `ZlibSpec`); files are a name-to-bytes map with failure events |
| `parallelism.hpp` | `ParallelismModel` | memory model beyond interleaving; thread start failures |
| `openmp_helpers.hpp` | `OpenMPModel` | builds without OpenMP; nested regions and dynamic adjustment |
| `simple_graph.hpp`, `simple_graph_search.hpp`, `simple_astar_search.hpp` | `GraphModel`, `SearchModel`, `GraphPrintModel` | text of values and weights (parameters) |
| `simple_knearest_neighbors.hpp` | `KnnModel` | |
| `voxel_grid.hpp` | `VoxelModel, SizesModel`, `AliasModel`, `PlacedModel` | the origin transform is a parameter of `VoxelModel`, an isometry of doubles in `PlacedModel` |
| `dynamic_spatial_hashed_voxel_grid.hpp` | `HashedModel`, `HashedSerialModel`, `AliasModel`, `ChunkModel` | `GetIndexMutable` of a chunk (const, does not compile when instantiated) |
| `simple_prngs.hpp` | `PrngModel` | |
| `maybe.hpp` | `MaybeModel`, `RefMaybeModel` | alignment of the storage |
| `utility.hpp` | `UtilityModel`, `UtilityModel2`, `HashModel`, `LogModel` | `IsFutureReady` (one library call), allocator aliases, text of messages |
| `simple_rrt_planner.hpp` | `RrtModel`, `RrtHelperModel` | statistics' wall-clock values (a clock oracle) |
| `simple_prm_planner.hpp` | `PrmModel` | |
| `path_processing.hpp` | `PathModel` | |
| `simple_hierarchical_clustering.hpp` | `ClusterModel` | |
| `simple_kmeans_clustering.hpp` | `KMeansModel` | logging |
| `simple_dtw.hpp`, `simple_hausdorff_distance.hpp`, distance matrices of `math.hpp` | `DtwModel`, `DistModel` | |
| `simple_task_planner.hpp` | `TaskModel` | logging |
| `math.hpp`, `math.cpp` | `MathModel`, `MathLinModel`, `PlaneModel`, `CompareModel`, `RotationModel`, `TwistModel` | Eigen's SVD, eigen solver and matrix logarithm (parameters with contracts), `GetArbitraryOrthogonalVectorToPlane` (a template that does not compile when instantiated) |
| `conversions.*`, `random_rotation_generator.hpp` | `RotationModel` | rounding in the distribution of random rotations (C190 is in exact arithmetic) |
| `gaussian_distributions.hpp` | `GaussianModel`, `MultivariateModel` | the normal generator itself |
| `color_builder.hpp` | `ColorModel` | |
| `time_optimal_trajectory_parametrization.*` | `TotpModel` | debug output |
| `ros_conversions.*`, `ros_helpers.hpp` | `RosModel` | ROS time sources |
| `print.hpp` | `PrintModel` | how an ostream writes a number; the `forward_list` overload (does not compile), the ROS 2 message overload |
| `simple_robot_model_interface.hpp` | `RobotModel` | virtual functions without wrappers |
| `cru_namespace.hpp` | none | a macro |

## Plan per property

| id | what is modelled, how it is proved |
|----|----|
| C01-C03 | `Base64`: Encode/Decode byte by byte including padding and the 256-entry table; induction on 3-byte blocks with an exhaustive sweep over a sextet. Decode returns `UB` when the signed `char` cast indexes outside the table: memory safety is refuted for bytes >= 0x80 and proved for ASCII text |
| C04-C07, C71-C72 | `Serialization`: buffers are byte lists, deserializers are `buffer -> offset -> outcome (value * bytes_read)` with 64-bit arithmetic; round-trip contract closed under all combinators; bounds by inspection of each reader; matrices and in-place writes separately |
| C08-C11, C73-C74 | `Parallelism`: range arithmetic on Z; loops as small-step transition systems over dispatcher/worker events (all interleavings), invariants by induction over traces; ASYNC dynamic loop modelled as written (index without `range_start`) |
| C12-C16 | `Graph`: node lists with in/out edge lists, operations returning outcomes; linkage invariant by induction over operation lists; prune as filter + renumber; overlay as copy-on-write map refined to a plain graph |
| C17 | Dijkstra: fuelled loop with an oracle choosing among minimal queue entries; classical invariant proof over an abstract ordered cost type |
| C18-C22, C164 | A*: same queue model, explored map with re-opening; soundness of back pointers, optimality with admissible heuristic, termination on finite spaces; instance for graph search |
| C23-C24 | `Knn`: partial_sort specified as a sorted K-prefix of some permutation (relation), parallel variant with explicit thread-number assignment |
| C25-C30, C75-C76 | `VoxelGrid`: strides on Z, storage list, access gate callback; refinement to a total map; rounding error analysis in Flocq for cell centres |
| C31-C32, C77-C78 | `HashedGrid`: chunk map with fill status, parametrised by the location map; exact instance proved, binary64 instance with error analysis; serialization for every iteration order |
| C33-C35, C79 | `Prng`: 64-bit words modulo 2^64, bit-level lemmas; full period by the order of an odd step; XorShift1024Star reseed refuted |
| C36-C38 | `Maybe`: object store with construction/destruction log; invariants over op sequences; throwing copies as an explicit outcome |
| C39-C41, C80, C136-C140 | `Utility`: counting lemmas; `N.testbit`; Flocq rounding for the uniform index; sorted association lists for maps; scopes as lists of steps that may throw; interleavings of atomic operations |
| C42-C48, C81-C85, C165 | `Rrt`: tree as node list (C165: one node under any history of calls), planner loops driven by oracle callbacks; invariants over loop iterations |
| C49-C53, C86 | `Prm`: on top of the graph, KNN and A* models |
| C54-C56 | `PathProc`: recursion as written with outcome; Flocq for the exact-one test |
| C57-C58 | clustering: merge loop with fuel, partition invariant, termination measure |
| C59-C60 | `KMeans`: loops with fuel, initialisation by an index oracle; termination refuted for K > n and proved for averages that minimise the spread |
| C61-C62 | `Dtw`: matrix as function update; minimality refuted by a 3x3 table, lower bound and attainment proved |
| C63-C65 | Hausdorff distance and distance matrices: folds and schedules |
| C66-C67, C87 | `TaskPlanner` on top of A* |
| C68-C69, C88-C95 | `math.cpp` scalars and std::vector: over R by algebra, over binary64 by Flocq error analysis |
| C70, C96-C98, C149 | colours in binary32; a byte sweep for the hex round trip, monotonicity of rounding for the rest |
| C99-C108 | linear algebra of `math.hpp`/`math.cpp` over R: inner products of lists, 3x3 matrices by `ring`, the exponential by its derivative (Coquelicot) |
| C109-C112 | Gaussians: erf as the integral (Coquelicot), truncated sampling by accept-reject loops with an arbitrary source |
| C113-C116 | trajectory sampling: heap of objects with caches; histories by induction |
| C117-C124, C158, C163 | TOTP: geometry of blends over R, limit curves, integration loops for two waypoints; counterexamples computed in binary64 |
| C125-C135 | rotations: quaternion algebra over R, spherical trigonometry for the metric and slerp, eigenvector maximisation for averages |
| C141-C143 | zlib: a contract for deflate/inflate (satisfied by an instance in `ZlibExample`), loops with an output buffer; pigeonhole for the 2^32 limit; a file system with failures |
| C144-C145 | OpenMP settings as a small state machine; programs with wrappers and exceptions by induction |
| C146-C147 | planes: any thin SVD gives the minimiser of the quadratic form; Cauchy-Schwarz for the cosine |
| C148, C150 | comparisons and vector arithmetic in IEEE arithmetic, generic in the format |
| C151-C154 | ROS conversions: records of doubles, round trips by projection equations over any scalar type |
| C159-C160 | flows of twists: uniqueness of the linear differential equation, Chasles' theorem from the axis and angle of the quaternion; acos of C107 |
| C161-C162 | references: a store with pointers against a specification told from the history; robot wrappers over arbitrary implementations |
| C155-C157 | printing: text as byte lists, a bracketed grammar as the specification, induction over containers |
| C166-C168 | `HashModel`: 64-bit words, xor cancels; `LogModel`: calls of the logger beside the outcome, case analysis |
| C169 | K-means initialisation: which centre indices can be drawn and when a cluster can be empty at the first averaging; two clusters proved by case analysis on the drawn indices, three clusters and repeated data refuted by concrete runs |
| C170 | RRT and BiRRT loops run with arbitrary callbacks wrapped so that they write a log; one generic Hoare-logic invariant per planner, instantiated for single- and multi-path planning |
| C171 | `AliasModel`: the setters again, with the value argument a reference that may point into the grid and is read when the code reads it; equality with the copying model for every reference that survives, undefined behaviour for the others |
| C172 | `ChunkModel`: index access, cell location and centre of a chunk; rounding error analysis as for C31, the distinctness of chunk keys as an invariant of all histories |
| C173 | the callbacks of `BuildRoadMap` wrapped so that they write a log; induction over tries and items; totality of the connection and linkage loops |
| C174-C175 | `CoverSpec`/`CoverProof`: the quotient and the product of `VoxelModel` analysed in binary64 (relative and absolute rounding error), monotonicity of rounding; counterexamples by computation |
| C176 | `ClusterSameSpec`/`ClusterSameProof`: the closest pair is unique when distances differ; merging per-thread minima is associative, an ordered invariant of the async loop; runs agree by induction over iterations |
| C177 | `KMeansSameProof`: every pass computes a function of the old labels whatever the executions; every derivation of a result is replayed with executions of the other configuration |
| C178 | `PrmSameSpec`/`PrmSameProof`: every connection item writes a function of the sampled states into its own node; distances stored per slot; updated weights determined by `reweighted` |
| C179 | Programs over the colour interface (constructions and operations of ColorSpec.v); a separate specification traces the source of each channel; induction over the program, with the value of every byte channel from the rounding error of the division. |
| C180 | PlacedModel gives the origin transform as an Eigen isometry over IEEE doubles; an algebra of absolute and relative errors bounds the transformed centre and the way back, the orthogonality of the matrix bounds the product with its transpose, and the history invariant of VoxelProof gives that the inverse belongs to the transform. |
| C181 | HashedModel with the isometry of PlacedModel; the error bound of C180 puts the rotated location well inside its cell and chunk, and the view invariant of HashedProof gives what is read before and after a write. |
| C182 | Uniqueness of the k_nearest answer of KnnSpec without ties: equal index sets by counting, equal order by strict sortedness; combined with C23 and C24. |
| C183 | GridSizes ==, != and UniformCellSize over an inductive predicate of obtainable sizes (all constructors and deserialization); equality shown by the constructors' invariant that the other fields are functions of the six compared ones. |
| C184 | one trial of the modelled sampler as a function of its noted draws; the set of draws that return a value between x and y is an interval of proposals with an acceptance probability, whose integral (Coquelicot) is a constant times the CDF difference; trials are shown to be looked at one after the other |
| C185 | the set of k whose index is at least i is an up-set (rounding is monotone); its least element is within one of i*2^53/n by the relative error of one rounding |
| C186 | expectation as a linear functional; T T^t equals the covariance by Cholesky or by the eigendecomposition, whose eigenvalues are shown non-negative for semidefinite matrices |
| C187 | MakePath, seg_switching_points, place_step and PathNextSwitchingPoint of TotpModel.v in exact arithmetic: the list of switching points is characterised by induction over the segments (TotpSwitch.v), the turning angle of a joint by the polar form of atan2, completeness by uniqueness of the zero of the tangent on less than half a turn. |
| C188 | The planners of RrtModel.v run with callbacks that also append what they are told to a log; invariant: the solutions told are the planner's list of goals (bridges), the nodes told are the new nodes in order; induction over the propagated states and the rounds, for abstract silent and telling functions, then for the logged ones and the single-path wrappers. |
| C189 | Induction over the candidate loops of the two searches with "beyond", "usable minimum" and "speed switch" stated over the limit curves (TotpNextSpec.v, TotpNext.v), using C187's next switching point of the path; induction for the bisections. |
| C190 | `RotationModel` over reals; derivatives of the maps from draws to quaternions by Coquelicot, their Gram determinant, injectivity and reach by trigonometry (`RandomRot`). |
| C191 | `GraphPrintModel` over the graphs and overlays of `GraphModel` and the integers' texts of `PrintModel`; every text is told apart whatever follows it, by induction on the lists (`GraphPrint`) |


## Print Assumptions, per theorem

**Closed under the global context** (296):
C171_reset_with_own_cell_refuted, C171_initialize_own_default_refuted, C171_set_partial, C171_set_data_partial, C171_reset_default_partial, C171_reset_value_partial, C171_initialize_partial, C01_base64_round_trip, C02_base64_encode_is_rfc4648, C02_base64_output_shape, C02_base64_encode_injective, C03_base64_decode_memory_safe_refuted, C03_base64_decode_memory_safe_partial, C57_bad_matrix, C176_async_in_turn, C64_bad_arguments_throw, C65_pairwise_matrix, C65_pairwise_matrix_two_datasets, C65_calls_touch_different_cells, C61_cost_of_a_warping_general_partial, C61_empty_sequences_rejected, C62_reuse, C112_sizes_partial, C112_sizes_refuted, C12_built_graphs_are_linked, C12_additions_keep_graphs_linked, C12_add_edge_effect, C12_add_edges_effect, C13_linkage_check_exact, C13_graph_from_nodes, C14_prune, C14_prune_schedule_independent, C15_overlay_is_a_private_copy, C16_graph_round_trip, C16_graph_from_any_bytes, C191_graph, C191_graph_told, C191_edge_told, C191_node_told, C191_overlay_printed, C191_overlay_told, C191_overlay_history, C166_macro, C166_index, C166_region, C166_lookup, C166_last_member, C166_column, C59_stable_assignment, C59_unweighted, C59_bad_number_of_clusters, C59_preliminary_overflow_refuted, C60_terminates_refuted, C60_alternating_labels_refuted, C169_repeated_data_refuted, C169_three_clusters_refuted, C177_any_threads, C177_unweighted, C177_same_centers, C23_serial_returns_k_nearest, C23_bad_arguments_throw, C24_parallel_equals_serial_refuted, C24_parallel_is_defined_refuted, C24_parallel_equals_serial_partial, C24_parallel_async_equals_serial_partial, C24_dispatch, C24_bad_arguments_throw, C182_any_library, C182_any_threads, C182_openmp, C167_same_value, C167_exactly_changes, C167_logger_throws, C168_check_partial, C168_require_partial, C168_zero_refuted, C101_constructor, C36_elements_destroyed_once, C37_throwing_copy_refuted, C37_throwing_copy_partial, C38_maybe_is_option, C144_team_restored, C144_setting_restored_partial, C144_setting_restored_refuted, C144_in_scope, C144_disabled, C144_refusals, C145_value_partial, C145_race, C145_race_free_refuted, C08_static_partition, C08_static_unique_owner, C08_static_bad_arguments_throw, C09_static_loop_visits_each_index_once, C09_static_loop_thread_numbers, C10_dynamic_loop_visits_each_index_once_refuted, C10_dynamic_async_nonzero_start_always_wrong_refuted, C10_dynamic_loop_visits_each_index_once_partial, C11_dynamic_thread_numbers_exclusive, C73_loop_joins_and_propagates, C74_static_loop_never_stuck, C74_dynamic_loop_never_stuck, C155_shape, C155_leaves, C156_unambiguous_partial, C156_default_separator, C156_no_delimiters_refuted, C156_text_refuted, C157_vectors, C157_quaternion, C157_matrices, C157_labels, C49_C86_library_neighbors, C49_edges_are_valid_refuted, C49_edges_are_valid_partial, C49_exactly_the_offered_edges_partial, C50_grow, C51_build, C51_linkage_check, C53_update, C53_inconsistent_rejected, C86_lazy_query, C86_stored_query, C178_build, C178_add, C178_grow, C178_update, C178_linear_provider, C173_tries, C173_bad_arguments, C173_library_answers, C33_splitmix64_sequence, C33_xorshift128plus_sequence, C33_xorshift1024star_sequence, C33_discard_is_n_draws, C33_outputs_in_range, C34_splitmix64_reseed, C34_xorshift128plus_reseed, C34_xorshift1024star_reseed_refuted, C34_xorshift1024star_reseed_partial, C35_xorshift128plus_never_zero, C35_xorshift1024star_never_zero, C35_xorshift1024star_output_not_stuck, C79_splitmix64_full_period, C161_references, C161_dangling, C151_three, C151_quaternion, C151_homogeneous, C151_round_trips, C153_elementwise, C153_round_trips, C154_stamped, C154_timestamps, C127_vector3, C127_quaternion, C127_vectorX, C127_sizes, C42_planning_keeps_the_tree, C42_single_path_planning_keeps_the_tree, C42_bidirectional_planning_keeps_the_trees, C42_parents_lead_to_a_root, C42_linkage_check, C42_set_nodes, C42_tree_from_nodes, C42_add_root, C43_paths, C43_every_goal_has_its_path, C43_single_path, C44_statistics, C44_stops_when_told, C44_planning_ends, C45_bridge_paths, C45_single_path, C46_goal_reached_refuted, C46_goal_bridge_refuted, C46_goal_reached_partial, C46_goal_bridge_partial, C46_state_added_optional, C46_single_path_goal_reached_optional, C46_single_path_goal_bridge_optional, C47_failed_insertion_refuted, C47_own_parent_refuted, C47_insertion_partial, C82_tree_round_trip, C82_tree_from_any_bytes, C83_nearest_neighbor, C85_timeout_rejects, C165_children, C165_once, C165_order, C165_parent, C170_rrt_single_path, C170_birrt_single_path, C170_rrt_multi_path, C170_birrt_multi_path, C188_goal_reached, C188_goal_bridge, C188_single_goal_reached, C188_single_goal_bridge, C188_state_added, C188_single_state_added, C188_bi_state_added, C188_bi_single_state_added, C188_same_run, C188_single_same_run, C188_bi_same_run, C188_bi_single_same_run, C17_C22_costs_exact, C17_dijkstra, C17_out_of_range, C18_real_path_partial, C19_optimal, C19_admissible_exact, C20_optimal_refuted, C20_optimal_partial, C21_terminates, C21_complete, C22_rejects, C22_real_path, C22_optimal, C22_total, C22_weighted, C164_way, C164_optimal, C164_total, C164_negative, C04_composite_round_trip, C04_vector_of_any_item, C04_pair_of_any_items, C04_map_of_any_items, C04_set_of_any_items, C05_append_only, C06_untrusted_bytes_matrix_refuted, C06_untrusted_bytes_vectorxd_refuted, C06_untrusted_bytes_partial, C06_vector_of_any_item_partial, C06_fixed_size_eigen_partial, C07_network_integers_big_endian, C07_network_memcpyable_vector, C07_network_composites_round_trip, C71_matrix_serialization_defined_refuted, C71_matrix_round_trip_partial, C71_vector_round_trip, C72_in_place_write_bounded_refuted, C72_in_place_write_partial, C66_names_unique, C66_duplicate_refused, C66_unknown_ignored, C66_by_name, C66_failure_no_effect, C66_exactly_the_registered, C67_bounded_and_follows, C67_one_start, C67_ends, C67_no_outcomes, C87_cheapest, C87_complete, C87_zero_exact, C39_is_subset, C39_collections_equal, C39_equal_permutation, C40_set_bit, C40_get_bit, C80_clamp, C80_clamp_rejects, C136_lookup, C136_keys, C136_round_trip, C136_two_containers, C136_set_keys, C137_clamp, C137_spread, C137_low_is_mid, C137_nan, C138_substring, C139_end_of_scope, C139_exception, C139_disabled, C139_empty, C140_counter, C140_copy, C140_assign, C140_orders, C140_orders_all_refuted, C27_refused_backing_store, C141_round_trip_partial, C141_round_trip_refuted, C142_exact, C142_error, C142_truncated, C142_refusals, C143_file_round_trip_partial, C143_partial_file_detected, C143_write_reports_refuted, C143_load_reports.

**sig_forall_dec** (1):
C186_draws.

**functional_extensionality_dep** (3):
C52_query_leaves_roadmap, C178_query, C46_bi_state_added_optional.

**sig_forall_dec, functional_extensionality_dep** (1):
C169_two_clusters_partial.

**sig_not_dec, sig_forall_dec, functional_extensionality_dep** (76):
C97_exact_scale, C110_refused_partial, C111_in_bounds_partial, C111_terminates_partial, C111_zero_deviation_refuted, C68_wrap, C68_signed_distance, C69_weighted_mean, C69_within, C69_rejects, C88_arc_partial, C88_ends_partial, C90_metric, C91_shortest_arc, C92_between_partial, C92_vectors_partial, C93_std_dev, C93_few_values, C94_corners, C94_hull, C94_reproduces, C95_metric, C95_euclidean, C95_sizes, C99_projection, C100_orthogonal_partial, C100_impossible_partial, C101_nearest_point, C101_vectors, C102_clamp_norm, C103_hat_partial, C104_adjoint, C105_group, C106_exponential_partial, C106_slow_rotation_refuted, C107_value, C107_no_angle, C108_mean, C108_rejects, C186_moments, C186_constructed, C146_best_fit, C146_coplanar, C146_refusals, C147_normed_partial, C147_cosine_refuted, C190_quaternion_once, C152_to_isometry_partial, C152_message_round_trip_partial, C152_transform_round_trip_partial, C152_isometry_round_trip, C152_non_unit_refuted, C152_zero_quaternion, C153_isometries, C125_rpy, C125_urdf_rpy, C125_transforms, C125_proper, C125_size, C131_unit, C133_best, C133_order, C133_signs, C133_equal, C133_single, C133_rejects, C134_multiplicity_refuted, C134_zero_weights_refuted, C134_squares_partial, C134_zero_weight_partial, C135_average, C135_rejects, C135_single, C184_trials_partial, C163_always, C150_norm_partial.

**sig_forall_dec, functional_extensionality_dep, classic** (2):
C60_returns_partial, C60_passes_bounded_partial.

**sig_not_dec, sig_forall_dec, functional_extensionality_dep, classic** (268):
C171_set_chunk_own_cell_refuted, C171_hashed_set_partial, C172_cells, C172_once, C172_complete, C172_centre, C57_partition, C57_bounded, C57_returns, C57_elements, C58_complete_link_bound, C58_complete_link_separated, C58_single_link_separated, C58_single_link_components, C58_final_distance, C176_different_distances, C176_async, C176_in_turn, C176_elements_async, C176_elements_different, C70_hex_round_trip, C70_programs_partial, C70_nan_refuted, C96_accuracy, C96_monotone, C96_in_range_unchanged, C96_limits, C97_valid_partial, C97_equal_limits_refuted, C97_wide_limits_refuted, C98_every_code, C98_different, C98_black, C179_channels, C179_others_kept, C179_others_kept_hex, C179_conversion, C148_accepts, C148_rejects_partial, C148_exact_refuted, C148_symmetric, C148_symmetric_vectors, C148_threshold, C148_reflexive_partial, C148_infinite_refuted, C148_vectors_partial, C148_nan_refuted, C148_equal, C149_accepts, C149_rejects, C149_exact, C149_symmetric, C174_rounding_refuted, C174_tiny_refuted, C174_covers_partial, C174_refuses, C174_accepts, C174_by_cells, C175_boundary_refuted, C175_inside_partial, C175_off_by_one, C175_monotone, C63_hausdorff_refuted, C63_hausdorff_partial, C64_directed_value, C64_directed_value_from_matrix, C64_parallel_equals_serial, C61_minimum_refuted, C61_cost_of_a_warping_partial, C61_equal_sequences_partial, C109_distribution_function, C109_integral, C110_truncated_partial, C110_far_tail_refuted, C111_narrow_tail_refuted, C31_history, C31_ordinary_locations, C32_every_finite_location_refuted, C32_ordinary_location_partial, C77_refused_write_refuted, C77_refused_at_once_partial, C77_refused_reference_partial, C77_steady_callback_partial, C78_round_trip_partial, C78_any_bytes_consistent, C78_empty_chunk_refuted, C78_hostile_overflow_refuted, C68_rounded_range, C69_rounded_equal_values, C88_rounded_start_partial, C88_rounded_end_refuted, C89_single_rounding_partial, C89_idempotent_partial, C89_idempotent_refuted, C89_in_range_unchanged_refuted, C91_rounded_range, C92_rounded_partial, C92_rounded_between_refuted, C95_rounded_symmetric, C95_rounded_self, C100_double_refuted, C103_double_partial, C103_double_refuted, C107_rounded, C108_componentwise, C54_endpoints, C54_iterations, C54_validity_refuted, C54_validity_partial, C54_defined, C55_percent_one, C55_percent_range, C55_percent_fraction, C56_resample, C56_short_paths, C56_bad_spacing, C56_underflow, C180_centres, C180_round_trip, C180_access, C180_lookup, C180_refused, C180_centred, C181_one_value_per_cell, C181_set_cell, C181_set_chunk, C185_integer_part, C185_fair_shares, C185_fair_numbers, C190_quaternion_volume, C190_quaternion_covers, C190_euler_volume, C190_euler_once, C190_euler_covers, C190_urdf_volume, C190_urdf_once, C190_urdf_covers, C162_magnitudes, C162_symmetric, C162_from_current_position, C126_matrix, C126_isometry, C126_round_trip, C126_quaternion, C128_angle_exists, C128_distance, C128_symmetric, C128_zero_iff_same, C128_invariant, C128_triangle_partial, C128_triangle_refuted, C128_rounded, C129_ends, C129_on_the_arc, C129_clamped, C129_norm_partial, C129_unit_refuted, C130_ends, C130_translation, C130_rotation, C130_distance, C131_reaches, C132_ranges, C132_reaches_angles, C132_reaches_rotations, C132_pitch_distribution, C48_extend, C48_extend_state, C48_connect, C48_bad_step, C48_fits_the_planner, C81_connect_defined_refuted, C81_connect_defined_partial, C81_extend_defined, C84_state_and_goals, C84_state_and_goals_total, C84_state_and_goals_rejects, C84_tree_sampling, C84_select_sample_type, C84_select_active_tree, C85_timeout_answers, C85_timeout_stays, C85_timeout_exact, C85_timeout_reset, C184_distribution_partial, C184_truncated_partial, C184_narrow_tail_refuted, C17_C22_costs_double, C18_real_cost_refuted, C183_equal, C183_differ, C183_uniform, C183_cubic, C183_cubic_axes, C187_switching_points, C187_next_switching_point, C87_zero_double, C113_history_partial, C113_history_refuted, C114_times_partial, C114_negative_refuted, C114_nan_refuted, C115_clones_partial, C115_clone_refuted, C116_refused_partial, C116_sizes_refuted, C116_zero_timestep_refuted, C117_velocity_curve, C117_acceleration_range, C117_acceleration_curve, C118_path, C118_samples, C119_polyline, C120_derivatives, C121_velocity_partial, C121_standing_refuted, C122_ends_partial, C122_two_waypoints_partial, C122_after_refuted, C123_two_waypoints_partial, C123_velocity_refuted, C124_two_waypoints_partial, C124_close_waypoints_refuted, C158_acceleration_partial, C158_corner_refuted, C163_direction, C189_acceleration, C189_velocity, C189_next, C189_crossing, C159_reaches_end_partial, C159_recovers_twist, C159_logarithms_exist, C159_slow_rotation_refuted, C160_angle, C160_no_angle, C160_rounded, C41_random_index, C41_random_index_rejects, C41_random_in_range, C41_full_width, C150_two_vectors, C150_scalar, C150_abs, C150_divide_refuted, C150_divide_extreme_refuted, C150_divide_partial, C150_norm_refuted, C150_norm_number, C25_index_bijection, C26_latest_write, C26_allowed_writes_succeed, C26_out_of_bounds, C26_one_slot_per_cell, C26_defined, C27_refused_cell_access, C27_refused_raw_access, C28_callback_cell_refuted, C28_callback_cell_partial, C29_round_trip_partial, C29_any_bytes_consistent, C29_empty_grid_refuted, C29_hostile_overflow_refuted, C30_cell_centre, C75_far_location_refuted, C75_near_locations_partial, C76_reset_bypasses_gate_refuted, C76_other_calls_gated_partial.
