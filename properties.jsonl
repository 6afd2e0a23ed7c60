{"id": "C01", "title": "Base64 round trip", "statement": "Decoding the Base64 text produced by encoding a byte vector returns exactly that byte vector (including the empty one and every length modulo 3).", "quantifier": "every byte vector of every length", "why_tests_cant": "The input space is every byte string; tests only sample a few lengths and contents, and padding interacts with every residue of the length.", "anchors": ["src/common_robotics_utilities/base64_helpers.cpp: Decode, Encode"]}
{"id": "C02", "title": "Base64 output shape", "statement": "Encode(bytes) has length 4*ceil(n/3), uses only the 64 alphabet characters plus at most two trailing '=' characters, and two different byte vectors never encode to the same text.", "quantifier": "every byte vector", "why_tests_cant": "Needs all lengths and all byte values.", "anchors": ["src/common_robotics_utilities/base64_helpers.cpp: Encode"]}
{"id": "C03", "title": "Base64 decode memory safety", "statement": "Decoding any text never reads outside the text or outside the decode table.", "quantifier": "every string, well-formed Base64 or not", "why_tests_cant": "Malformed inputs are unboundedly many; out-of-range reads need not crash in a test.", "anchors": ["src/common_robotics_utilities/base64_helpers.cpp: Decode"]}
{"id": "C04", "title": "Composite serialization round trip", "statement": "For any item serializer/deserializer pair that round-trips, serializing a string, vector, pair, map, or nested combination and then deserializing it at the recorded offset of any buffer (any bytes before, any bytes after) returns an equal value and reports as many bytes read as were written.", "quantifier": "every value, every nesting of the combinators, every buffer prefix and suffix", "why_tests_cant": "Values, nestings and surrounding bytes are unbounded.", "anchors": ["include/common_robotics_utilities/serialization.hpp: SerializeVectorLike, DeserializeVectorLike, SerializePair, SerializeMapLike, SerializeString, SerializeMemcpyable"]}
{"id": "C05", "title": "Serialization only appends", "statement": "Serializing a value never alters bytes already in the buffer, and the returned byte count equals the growth of the buffer.", "quantifier": "every buffer content and every value", "why_tests_cant": "All prior buffer contents and values must be covered.", "anchors": ["include/common_robotics_utilities/serialization.hpp: SerializeMemcpyable, SerializeVectorLike, SerializeString, SerializePair, SerializeMapLike"]}
{"id": "C06", "title": "Deserialization of untrusted bytes is bounded", "statement": "For any byte buffer and any offset, a deserializer either raises an exception or returns a value together with a positive byte count that does not run past the end of the buffer; it never reads outside the buffer.", "quantifier": "every buffer (arbitrary, truncated, hostile) and every 64-bit offset, including sizes whose byte count wraps modulo 2^64", "why_tests_cant": "Hostile headers and offsets near 2^64 are not enumerable by tests and out-of-bounds reads are silent.", "anchors": ["include/common_robotics_utilities/serialization.hpp: DeserializeMemcpyable, DeserializeMemcpyableVectorLike, DeserializeVectorLike, DeserializeString"]}
{"id": "C07", "title": "Network serialization is big-endian and round-trips", "statement": "Network serialization of fixed-width integers writes most-significant byte first irrespective of host byte order, and deserialization returns the original value; the network vector/string/map forms round-trip at any offset.", "quantifier": "every value of every width, every host endianness, every offset", "why_tests_cant": "Tests run on one host endianness and a few values.", "anchors": ["include/common_robotics_utilities/serialization.hpp: SerializeNetworkMemcpyable, DeserializeNetworkMemcpyable"]}
{"id": "C08", "title": "Static range partition", "statement": "The ranges assigned to threads 0..N-1 for a loop over [start,end) are consecutive, pairwise disjoint, together cover exactly [start,end), and their sizes differ by at most one.", "quantifier": "every range start<=end of int64_t values whose length fits in int64_t (one less than the maximum when N=1), and every number of threads N>=1", "why_tests_cant": "Unbounded ranges and thread counts; off-by-one errors appear only for particular remainders.", "anchors": ["include/common_robotics_utilities/parallelism.hpp: CalcStaticThreadRangeStartAndEnd"]}
{"id": "C09", "title": "Static parallel loops visit every index once", "statement": "A static parallel for loop calls the work function exactly once for every index of [start,end) and for no other index, with thread numbers in [0,N), whatever backend runs it and however its threads are interleaved.", "quantifier": "every range, degree of parallelism, backend and interleaving of worker threads", "why_tests_cant": "Interleavings and sizes are unbounded.", "anchors": ["include/common_robotics_utilities/parallelism.hpp: StaticParallelForRangeLoop, StaticParallelForIndexLoop"]}
{"id": "C10", "title": "Dynamic parallel loops visit every index once", "statement": "A dynamic parallel for loop calls the work function exactly once for every index of [start,end) and for no other index, whatever backend runs it and in whatever order workers finish.", "quantifier": "every range (including ranges not starting at zero), degree of parallelism and completion order", "why_tests_cant": "Completion orders are scheduler choices; tests use start = 0 and see few orders.", "anchors": ["include/common_robotics_utilities/parallelism.hpp: DynamicParallelForRangeLoop, DynamicParallelForIndexLoop"]}
{"id": "C11", "title": "Dynamic loop thread numbers are exclusive", "statement": "At any moment of a dynamic parallel loop no two running work items have the same thread number, every thread number is in [0,N), and at most N items run at once.", "quantifier": "every schedule of dispatches and completions", "why_tests_cant": "Depends on the interleaving of the dispatcher and finishing workers.", "anchors": ["include/common_robotics_utilities/parallelism.hpp: ThreadNumberKeeper, DynamicParallelForRangeLoop"]}
{"id": "C12", "title": "Graph construction keeps linkage consistent", "statement": "After any sequence of adding node values and edges (failed calls included), every edge appears identically among the out edges of its source node and the in edges of its target node, all endpoints exist, and no edge is a self loop.", "quantifier": "every finite sequence of graph operations with arbitrary arguments", "why_tests_cant": "Histories of operations are unbounded.", "anchors": ["include/common_robotics_utilities/simple_graph.hpp: Graph::AddNode, AddEdgeBetweenNodes, AddEdgesBetweenNodes"]}
{"id": "C13", "title": "Graph linkage check is exact", "statement": "CheckGraphLinkage accepts a node list if and only if every out edge of node i starts at i, ends at another existing node that has an in edge from i, and symmetrically for in edges.", "quantifier": "every node list, consistent or not", "why_tests_cant": "The accept/reject boundary ranges over all graphs.", "anchors": ["include/common_robotics_utilities/simple_graph.hpp: CheckGraphLinkage"]}
{"id": "C14", "title": "Pruning a graph", "statement": "Pruning a set of nodes yields exactly the other nodes in their original order, with exactly the edges whose two endpoints survive, renumbered to the new positions; a consistent graph stays consistent.", "quantifier": "every consistent graph and every set of existing node indices to prune", "why_tests_cant": "All graphs and index sets; renumbering errors need particular shapes.", "anchors": ["include/common_robotics_utilities/simple_graph.hpp: PruneGraph, MakePrunedGraphFromGraph"]}
{"id": "C15", "title": "Graph overlay behaves like a private copy", "statement": "Any sequence of reads and additions on a graph overlay returns the same results as the same sequence on a full copy of the base graph, and the base graph is never changed.", "quantifier": "every base graph and every sequence of operations", "why_tests_cant": "Unbounded operation histories; copy-on-write errors need particular read/write orders.", "anchors": ["include/common_robotics_utilities/simple_graph.hpp: NonOwningGraphOverlay"]}
{"id": "C16", "title": "Graph serialization", "statement": "Serializing a consistent graph and deserializing it returns an equal graph; deserializing bytes that describe an inconsistent graph raises an exception.", "quantifier": "every graph, item serializer, surrounding bytes", "why_tests_cant": "All graphs and buffers.", "anchors": ["include/common_robotics_utilities/simple_graph.hpp: Graph::SerializeSelf, Graph::Deserialize"]}
{"id": "C17", "title": "Dijkstra distances are shortest", "statement": "For non-negative edge weights the distance reported for each node is the minimum cost over all paths between that node and the start node (infinity exactly when none exists), following the reported previous-node indices yields a path of that cost, and the search terminates.", "quantifier": "every graph with non-negative weights, every start node, every order in which equal-priority entries leave the queue", "why_tests_cant": "Optimality is a claim over all paths of all graphs; tie-breaking in the heap is unspecified.", "anchors": ["include/common_robotics_utilities/simple_graph_search.hpp: PerformDijkstrasAlgorithm"]}
{"id": "C18", "title": "A* result is a real path with its real cost", "statement": "Whenever A* returns a non-empty path, the path begins at a provided start, ends at a state accepted by the goal test, every consecutive pair was produced by the child generator, and the reported cost is finite and is the cost accumulated along it; an empty path comes with infinite cost.", "quantifier": "every child generator, goal test, heuristic, set of starts and queue tie-breaking", "why_tests_cant": "State spaces and callback behaviours are unbounded.", "anchors": ["include/common_robotics_utilities/simple_astar_search.hpp: PerformAstarSearch"]}
{"id": "C19", "title": "A* optimality for one start", "statement": "With one start state (or starts of equal cost), non-negative edge costs and an admissible heuristic (not necessarily consistent), the path returned by A* has minimum cost over all paths from the start to any goal state.", "quantifier": "every search space, admissible heuristic, tie-breaking and duplicate-limiting setting", "why_tests_cant": "Optimality quantifies over all paths.", "anchors": ["include/common_robotics_utilities/simple_astar_search.hpp: PerformAstarSearch"]}
{"id": "C20", "title": "A* optimality over several starts", "statement": "With several start states carrying different start costs, the path returned by A* has minimum total cost over all starts and goals.", "quantifier": "every set of starts with non-negative costs", "why_tests_cant": "Optimality quantifies over all starts and paths.", "anchors": ["include/common_robotics_utilities/simple_astar_search.hpp: PerformAstarSearch"]}
{"id": "C21", "title": "A* terminates and is complete", "statement": "On every finite search space with non-negative costs A* terminates, and returns a path if and only if some goal state is reachable from some start with finite cost.", "quantifier": "every finite search space, every heuristic", "why_tests_cant": "Termination over all spaces cannot be tested.", "anchors": ["include/common_robotics_utilities/simple_astar_search.hpp: PerformAstarSearch"]}
{"id": "C22", "title": "Graph A* uses only allowed edges and is optimal", "statement": "Lazy A* over a graph returns a path of node indices whose consecutive nodes are joined by out edges accepted by the validity function, beginning at a given start and ending at a given goal, with minimum summed distance for an admissible heuristic; out-of-range indices are rejected with an exception.", "quantifier": "every graph, validity and distance function, start and goal index lists", "why_tests_cant": "All graphs and callbacks.", "anchors": ["include/common_robotics_utilities/simple_graph_search.hpp: PerformLazyAstarSearch, PerformAstarSearch"]}
{"id": "C23", "title": "Serial K nearest neighbours", "statement": "The serial KNN query returns min(K,n) distinct in-range indices with their true distances such that no omitted item is closer than a returned one, sorted by distance when n>K.", "quantifier": "every item list, distance function and K>=0, negative K rejected", "why_tests_cant": "All inputs, including ties.", "anchors": ["include/common_robotics_utilities/simple_knearest_neighbors.hpp: GetKNearestNeighborsInRangeSerial"]}
{"id": "C24", "title": "Parallel K nearest neighbours", "statement": "The parallel KNN query returns the same multiset of distances as the serial query, whatever team of threads executes it.", "quantifier": "every item list, K, degree of parallelism and thread team actually granted by the runtime", "why_tests_cant": "The granted team size and schedule are runtime choices.", "anchors": ["include/common_robotics_utilities/simple_knearest_neighbors.hpp: GetKNearestNeighborsParallel"]}
{"id": "C25", "title": "Voxel index bijection", "statement": "Converting an in-bounds grid index to a data index and back is the identity, data indices are exactly 0..total-1 and no two cells share one.", "quantifier": "every grid size and every index", "why_tests_cant": "All sizes and indices.", "anchors": ["include/common_robotics_utilities/voxel_grid.hpp: GridSizes::GetDataIndex, GetGridIndexFromDataIndex, IndexInBounds"]}
{"id": "C26", "title": "Voxel reads return the latest write", "statement": "After any sequence of writes through the voxel grid, reading an in-bounds cell returns the last value successfully written there (or the initial value), reading or writing out of bounds reports OUT_OF_BOUNDS and changes nothing, and raw storage always has exactly one slot per cell.", "quantifier": "every grid size, every sequence of operations and arguments", "why_tests_cant": "Unbounded histories.", "anchors": ["include/common_robotics_utilities/voxel_grid.hpp: VoxelGridBase::GetIndexImmutable, SetIndex, SetDataIndex, ResetWithNewSizes"]}
{"id": "C27", "title": "Voxel access gate is enforced", "statement": "When a derived grid refuses mutable access, the call reports MUTABLE_ACCESS_PROHIBITED (or raises for raw data) and the contents are unchanged.", "quantifier": "every grid, callback and call", "why_tests_cant": "Every call on every state must be covered.", "anchors": ["include/common_robotics_utilities/voxel_grid.hpp: OnMutableAccess, SetIndex, GetIndexMutable, SetRawData"]}
{"id": "C28", "title": "Voxel access callback sees the accessed cell", "statement": "The mutable-access callback of a derived voxel grid is invoked with the index of the very cell being accessed.", "quantifier": "every in-bounds index and every mutable accessor", "why_tests_cant": "All indices and accessors.", "anchors": ["include/common_robotics_utilities/voxel_grid.hpp: VoxelGridBase::OnMutableAccess"]}
{"id": "C29", "title": "Voxel grid serialization", "statement": "Serializing a voxel grid and deserializing it returns a grid equal in sizes, default value, origin, initialisation flag and every cell; deserialization never yields a grid whose storage size disagrees with its dimensions.", "quantifier": "every grid and every buffer", "why_tests_cant": "All grids and all hostile buffers.", "anchors": ["include/common_robotics_utilities/voxel_grid.hpp: VoxelGridBase::BaseSerializeSelf, BaseDeserializeSelf"]}
{"id": "C30", "title": "Cell centre maps back to its cell", "statement": "Converting the centre location of an in-bounds cell back to an index returns that cell, in IEEE double arithmetic.", "quantifier": "every cell size in a wide range and every index in bounds", "why_tests_cant": "Rounding behaviour over all doubles.", "anchors": ["include/common_robotics_utilities/voxel_grid.hpp: GridSizes::IndexToLocationInGridFrame, VoxelGridBase::LocationInGridFrameToGridIndex4d"]}
{"id": "C31", "title": "Hashed grid behaves like a map from cells to values", "statement": "In the dynamic spatial hashed grid, after any sequence of cell and chunk writes a read at a location returns the value last written to that cell or chunk, the default for other cells of allocated chunks, and NOT_FOUND elsewhere.", "quantifier": "every sequence of writes at arbitrary locations (exact arithmetic for the location-to-chunk map)", "why_tests_cant": "Unbounded histories and locations.", "anchors": ["include/common_robotics_utilities/dynamic_spatial_hashed_voxel_grid.hpp: SetLocation4d, GetLocationImmutable4d"]}
{"id": "C32", "title": "Hashed grid accepts every finite location", "statement": "Setting a cell at any finite location of the dynamic spatial hashed grid succeeds, in IEEE double arithmetic.", "quantifier": "every finite location and valid chunk size", "why_tests_cant": "Rounding corner cases among all doubles.", "anchors": ["include/common_robotics_utilities/dynamic_spatial_hashed_voxel_grid.hpp: GetContainingChunkRegion, GetLocationDataIndex"]}
{"id": "C33", "title": "PRNG determinism", "statement": "Two generators of the same type constructed with equal seeds produce equal output sequences; discard(n) has the same effect as n draws; outputs lie in [min(),max()].", "quantifier": "every seed and sequence length", "why_tests_cant": "All 2^64 seeds and unbounded lengths.", "anchors": ["include/common_robotics_utilities/simple_prngs.hpp: SplitMix64PRNG, XorShift128PlusPRNG, XorShift1024StarPRNG"]}
{"id": "C34", "title": "PRNG reseeding", "statement": "Reseeding any generator makes it produce the same sequence as a freshly constructed generator with that seed, whatever it had generated before.", "quantifier": "every generator, history and seed", "why_tests_cant": "All histories.", "anchors": ["include/common_robotics_utilities/simple_prngs.hpp: seed"]}
{"id": "C35", "title": "XorShift generators never reach the all-zero state", "statement": "A generator seeded to a non-zero state never enters the all-zero absorbing state.", "quantifier": "every non-zero state and number of draws", "why_tests_cant": "All 2^128 states and unbounded steps.", "anchors": ["include/common_robotics_utilities/simple_prngs.hpp: XorShift128PlusPRNG::Next"]}
{"id": "C36", "title": "Owning optional destroys its value exactly once", "statement": "Under any sequence of construction, copy, move, assignment, reset and destruction of owning maybe objects whose element operations do not throw, every constructed element is destroyed exactly once and no destroyed element is read.", "quantifier": "every sequence of lifecycle operations over any number of objects", "why_tests_cant": "Histories are unbounded and double destruction is silent.", "anchors": ["include/common_robotics_utilities/maybe.hpp: TaggedUnion, OwningMaybe"]}
{"id": "C37", "title": "Owning optional is exception safe", "statement": "If copying an element throws during assignment to an owning maybe, the target remains in a valid state: each element is still destroyed exactly once.", "quantifier": "every sequence of operations in which any copy may throw", "why_tests_cant": "Throw points are adversarial.", "anchors": ["include/common_robotics_utilities/maybe.hpp: TaggedUnion::operator="]}
{"id": "C38", "title": "Optional values behave like options", "statement": "HasValue tells whether a value was last stored; Value() returns it or throws when empty; copies are independent of the original.", "quantifier": "every sequence of operations", "why_tests_cant": "Unbounded histories.", "anchors": ["include/common_robotics_utilities/maybe.hpp: OwningMaybe, ReferencingMaybe"]}
{"id": "C39", "title": "Collection comparison ignores order and respects multiplicity", "statement": "CollectionsEqual is true exactly when the two collections are permutations of each other and IsSubset exactly when every element occurs in the superset at least as often as in the subset.", "quantifier": "every pair of collections", "why_tests_cant": "All collections with duplicates.", "anchors": ["include/common_robotics_utilities/utility.hpp: IsSubset, CollectionsEqual"]}
{"id": "C40", "title": "Bit get/set", "statement": "For bit positions below the word width, setting a bit makes that bit read as requested and leaves all other bits unchanged.", "quantifier": "every word value and bit position", "why_tests_cant": "All 2^64 words and positions.", "anchors": ["include/common_robotics_utilities/utility.hpp: SetBit, GetBit"]}
{"id": "C41", "title": "Uniform random index stays in range", "statement": "A random index drawn for a container of n items from a unit-interval double in [0,1) is in [0,n), in IEEE double arithmetic.", "quantifier": "every double in [0,1) and every n from 1 to the largest value of the size type (64 bits included); for ranges, those whose width b-a+1 fits the type", "why_tests_cant": "All doubles and sizes.", "anchors": ["include/common_robotics_utilities/utility.hpp: GetUniformRandomIndex, GetUniformRandomInRange"]}
{"id": "C42", "title": "RRT tree linkage", "statement": "Every tree grown by the RRT planner from a well-linked tree is well linked: parents precede children, each child is listed exactly once by its parent, and walking parents from any node terminates at a root.", "quantifier": "every sequence of planner iterations and callback behaviours", "why_tests_cant": "Unbounded growth histories.", "anchors": ["include/common_robotics_utilities/simple_rrt_planner.hpp: SimpleRRTPlannerTree::AddNodeAndConnect, CheckNodeLinkage, RRTPlanMultiPath"]}
{"id": "C43", "title": "RRT paths are tree paths to accepted goals", "statement": "Each path returned by the RRT planner starts at a root state of the tree, ends at a state accepted by the goal check, and each consecutive pair is a parent/child pair of the tree (initial tree edge or forward propagation result).", "quantifier": "every sampler, nearest-neighbour, propagation, goal and termination callback", "why_tests_cant": "Callback behaviours are unbounded.", "anchors": ["include/common_robotics_utilities/simple_rrt_planner.hpp: RRTPlanMultiPath, ExtractSolutionPath"]}
{"id": "C44", "title": "RRT statistics and stopping", "statement": "The RRT planner stops at the first iteration whose termination check returns true, and reported total samples equal successful plus failed samples; solution count equals the number of paths.", "quantifier": "every callback behaviour and run length", "why_tests_cant": "All runs.", "anchors": ["include/common_robotics_utilities/simple_rrt_planner.hpp: RRTPlanMultiPath"]}
{"id": "C45", "title": "BiRRT paths connect start and goal trees", "statement": "Each path returned by the bidirectional planner is a start-tree path from a start root followed by a reversed goal-tree path to a goal root, joined at a connection accepted by the connection check.", "quantifier": "every callback behaviour", "why_tests_cant": "All runs and callbacks.", "anchors": ["include/common_robotics_utilities/simple_rrt_planner.hpp: BiRRTPlanMultiPath, ExtractSolutionPath"]}
{"id": "C46", "title": "Goal callbacks are optional", "statement": "Passing empty goal-reached or goal-bridge callbacks to the multi-path planners, as documented, never causes a failure.", "quantifier": "every planner input with empty callbacks", "why_tests_cant": "Depends on whether initial trees already satisfy the goal.", "anchors": ["include/common_robotics_utilities/simple_rrt_planner.hpp: RRTPlanMultiPath, BiRRTPlanMultiPath"]}
{"id": "C47", "title": "Failed tree insertion leaves the tree unchanged", "statement": "If adding a node to the RRT tree with an invalid parent throws, the tree is unchanged.", "quantifier": "every tree and parent index", "why_tests_cant": "All trees and indices.", "anchors": ["include/common_robotics_utilities/simple_rrt_planner.hpp: SimpleRRTPlannerTree::AddNodeAndConnect"]}
{"id": "C48", "title": "Propagation functions produce connected valid chains", "statement": "The RRT-Extend and RRT-Connect propagation functions return states whose successive edges (starting from the nearest state) were all accepted by the edge check, with relative parent indices forming a chain, and Connect returns at most ceil(distance/step) states.", "quantifier": "every distance, interpolation and validity function and step size", "why_tests_cant": "All callback behaviours.", "anchors": ["include/common_robotics_utilities/simple_rrt_planner.hpp: MakeKinematicRRTExtendPropagationFunction, MakeKinematicRRTConnectPropagationFunction"]}
{"id": "C49", "title": "Roadmap edges are valid edges", "statement": "Every edge added when a state is added to a PRM roadmap was accepted by the edge validity check in the direction of the edge and carries the distance in that direction.", "quantifier": "every roadmap, state, symmetric or asymmetric validity and distance function, and both query directions", "why_tests_cant": "All roadmaps and callbacks.", "anchors": ["include/common_robotics_utilities/simple_prm_planner.hpp: AddNodeToRoadmap"]}
{"id": "C50", "title": "Growing a roadmap", "statement": "Growing a roadmap only appends nodes and edges, keeps linkage consistent, only adds states accepted by the validity check, and total samples equals successful plus duplicate plus failed samples.", "quantifier": "every callback behaviour and run length", "why_tests_cant": "All runs.", "anchors": ["include/common_robotics_utilities/simple_prm_planner.hpp: GrowRoadMap, AddNodeToRoadmap"]}
{"id": "C51", "title": "Building a roadmap", "statement": "Building a roadmap either throws or returns exactly the requested number of nodes, all accepted by the state check, pairwise at non-zero distance when duplicates are excluded, with consistent linkage.", "quantifier": "every sampler, validity and distance function", "why_tests_cant": "All callbacks.", "anchors": ["include/common_robotics_utilities/simple_prm_planner.hpp: BuildRoadMap"]}
{"id": "C52", "title": "Roadmap queries leave the roadmap unchanged", "statement": "QueryPath and LazyQueryPath never modify the roadmap and return the same result whether they work on an overlay or on a copy.", "quantifier": "every roadmap and query", "why_tests_cant": "All roadmaps and queries.", "anchors": ["include/common_robotics_utilities/simple_prm_planner.hpp: QueryPath, LazyQueryPath"]}
{"id": "C53", "title": "Updating roadmap edges", "statement": "After updating edges of a consistent roadmap every edge weight equals the distance in its direction if the validity check accepts it and infinity otherwise, in both of its copies, and nothing else changes.", "quantifier": "every consistent roadmap and callbacks", "why_tests_cant": "All roadmaps.", "anchors": ["include/common_robotics_utilities/simple_prm_planner.hpp: UpdateRoadMapEdges"]}
{"id": "C54", "title": "Shortcut smoothing keeps endpoints and validity", "statement": "Shortcut smoothing of a path whose edges are all valid returns a path with the same first and last states whose edges are all valid, after at most the permitted number of iterations.", "quantifier": "every path, random source, option setting, validity, distance and interpolation function", "why_tests_cant": "All random draws and callbacks.", "anchors": ["include/common_robotics_utilities/path_processing.hpp: ShortcutSmoothPath, AttemptShortcut"]}
{"id": "C55", "title": "Percent collision free is one exactly for valid paths", "statement": "ComputePercentCollisionFree returns exactly 1.0 if and only if every edge of the path is valid, and otherwise the correctly rounded fraction of the edges that precede the first invalid one, in IEEE double arithmetic.", "quantifier": "every path of up to 2^53 edges and validity function", "why_tests_cant": "All lengths and rounding cases.", "anchors": ["include/common_robotics_utilities/path_processing.hpp: ComputePercentCollisionFree"]}
{"id": "C56", "title": "Resampled paths keep the original waypoints", "statement": "Resampling a path keeps its first state and visits every original waypoint whose distance from its predecessor divided by the spacing is positive in double arithmetic (non-zero distance, and no underflow of the quotient), in order; each edge is replaced by ceil(distance/spacing) states, for an interpolation function that is exact at ratio 1.", "quantifier": "every path, spacing and callbacks", "why_tests_cant": "All inputs.", "anchors": ["include/common_robotics_utilities/path_processing.hpp: ResamplePath"]}
{"id": "C57", "title": "Hierarchical clustering returns a partition", "statement": "Clustering returns disjoint non-empty clusters covering every index exactly once, and terminates.", "quantifier": "every distance matrix with non-negative entries, threshold and strategy", "why_tests_cant": "All matrices.", "anchors": ["include/common_robotics_utilities/simple_hierarchical_clustering.hpp: IndexClusterWithDistanceMatrix"]}
{"id": "C58", "title": "Clustering respects the distance bound", "statement": "Complete-link clusters have all pairwise distances at most the bound; and on return no two clusters (under the chosen linkage) are within the bound of each other.", "quantifier": "every symmetric distance matrix with non-negative entries (finite ones for the separation), bound and strategy", "why_tests_cant": "All matrices.", "anchors": ["include/common_robotics_utilities/simple_hierarchical_clustering.hpp: IndexClusterWithDistanceMatrix"]}
{"id": "C59", "title": "K-means labels are a stable assignment", "statement": "K-means returns one label per datum in [0,K), and each datum's label is a nearest centre among the centres recomputed from those labels.", "quantifier": "every dataset, distance and averaging function, random initialisation", "why_tests_cant": "All callbacks and seeds.", "anchors": ["include/common_robotics_utilities/simple_kmeans_clustering.hpp: ClusterWeighted"]}
{"id": "C60", "title": "K-means terminates", "statement": "K-means clustering terminates for every dataset and requested number of clusters.", "quantifier": "every dataset and K", "why_tests_cant": "Termination over all inputs.", "anchors": ["include/common_robotics_utilities/simple_kmeans_clustering.hpp: ClusterWeighted"]}
{"id": "C61", "title": "DTW returns the minimum warping cost", "statement": "EvaluateWarpingCost returns the minimum over all monotone warping paths of the summed distances.", "quantifier": "every pair of non-empty sequences and distance function", "why_tests_cant": "The minimum ranges over exponentially many paths of all inputs.", "anchors": ["include/common_robotics_utilities/simple_dtw.hpp: SimpleDTW::EvaluateWarpingCost"]}
{"id": "C62", "title": "DTW evaluator reuse", "statement": "A DTW evaluator that was used before (on sequences of any sizes) returns the same cost as a fresh evaluator.", "quantifier": "every history of evaluations", "why_tests_cant": "All histories of sizes.", "anchors": ["include/common_robotics_utilities/simple_dtw.hpp: SimpleDTW::InitializeMatrix"]}
{"id": "C63", "title": "Hausdorff distance", "statement": "ComputeDistance returns the Hausdorff distance: the greatest distance from a point in one set to the closest point of the other set, over both directions.", "quantifier": "every pair of non-empty sets and distance function", "why_tests_cant": "All sets.", "anchors": ["include/common_robotics_utilities/simple_hausdorff_distance.hpp: ComputeDistance"]}
{"id": "C64", "title": "Directed Hausdorff value and parallel agreement", "statement": "The value returned is the maximum over the first set of the minimum distance to the second set, and the parallel computation returns the same value as the serial one for every schedule.", "quantifier": "every pair of non-empty sets, non-negative distance function, thread count and schedule", "why_tests_cant": "All inputs and schedules.", "anchors": ["include/common_robotics_utilities/simple_hausdorff_distance.hpp: ComputeDistanceParallel, ComputeDistanceSerial"]}
{"id": "C65", "title": "Pairwise distance matrix", "statement": "The pairwise distance matrix is symmetric with zero diagonal, its (i,j) entry for i<j is distance(i,j), and the result does not depend on the schedule of the parallel loop.", "quantifier": "every dataset, distance function and schedule", "why_tests_cant": "All schedules.", "anchors": ["include/common_robotics_utilities/math.hpp: BuildPairwiseDistanceMatrix"]}
{"id": "C66", "title": "Task primitive registry", "statement": "Registered primitive names stay unique under any sequence of register, unregister and clear operations, with duplicates and unknown names rejected without effect.", "quantifier": "every sequence of operations", "why_tests_cant": "Unbounded histories.", "anchors": ["include/common_robotics_utilities/simple_task_planner.hpp: RegisterPrimitive, UnregisterPrimitive, ClearPrimitives"]}
{"id": "C67", "title": "Task execution is bounded and follows selected primitives", "statement": "Task execution performs at most the permitted number of primitive executions; each executed primitive was a candidate for the state it was executed on and each next state is one of the outcomes it returned; a reported final state satisfying the task check is returned when execution completes.", "quantifier": "every set of primitives, outcome and selection behaviours", "why_tests_cant": "All behaviours.", "anchors": ["include/common_robotics_utilities/simple_task_planner.hpp: PerformSingleTaskExecution, GetNextPrimitiveToExecute"]}
{"id": "C68", "title": "Continuous revolute wrap", "statement": "EnforceContinuousRevoluteBounds returns a value in [-pi,pi) that differs from its argument by a whole number of turns; the signed distance d from p1 to p2 satisfies p1+d = p2 modulo a turn and |d|<=pi.", "quantifier": "every real argument in exact arithmetic; for every finite double the range also holds with M_PI in double arithmetic", "why_tests_cant": "All reals and all doubles.", "anchors": ["src/common_robotics_utilities/math.cpp: EnforceContinuousRevoluteBounds, ContinuousRevoluteSignedDistance"]}
{"id": "C69", "title": "Weighted average", "statement": "The incremental weighted average equals sum(|w|x)/sum(|w|) and lies between the smallest and largest value with non-zero weight; all-zero weights and size mismatches are rejected.", "quantifier": "every value and weight list in exact arithmetic; in double arithmetic the average of equal values is that value", "why_tests_cant": "All lists.", "anchors": ["src/common_robotics_utilities/math.cpp: AverageStdVectorDouble"]}
{"id": "C70", "title": "Colour channel round trip", "statement": "Converting any 8-bit channel to float and back returns the same value, and every constructed channel is in [0,1], in IEEE single arithmetic.", "quantifier": "every channel value and every float", "why_tests_cant": "Rounding over all channel values and floats.", "anchors": ["include/common_robotics_utilities/color_builder.hpp: ColorChannelFromHex, ColorChannelToHex, TrimColorValue"]}
{"id": "C71", "title": "Matrix serialization defined for every matrix", "statement": "Serializing any dynamic-size matrix (including 0xN and Nx0) has defined behaviour and deserializing at the recorded offset returns the same matrix and byte count.", "quantifier": "every matrix shape and content, every buffer prefix and suffix", "why_tests_cant": "All shapes including empty ones; undefined behaviour is invisible to a passing test.", "anchors": ["src/common_robotics_utilities/serialization.cpp: SerializeMatrixXd, DeserializeMatrixXd"]}
{"id": "C72", "title": "In-place network write is bounded", "statement": "Serializing a value in network order at a given position of an existing buffer either overwrites exactly those bytes in big-endian order, leaving all others unchanged, or raises an exception; it never writes outside the buffer.", "quantifier": "every buffer and every 64-bit position", "why_tests_cant": "Positions near 2^64 are not sampled and out-of-bounds writes may go unnoticed.", "anchors": ["include/common_robotics_utilities/serialization.hpp: SerializeNetworkMemcpyableInPlace"]}
{"id": "C73", "title": "Parallel loops join and propagate exceptions", "statement": "When a parallel for loop returns or throws, every call of the work function that was started has ended; it returns normally exactly when no call threw, and otherwise throws one of the exceptions thrown by the work function.", "quantifier": "every loop kind, backend, range, degree of parallelism, schedule and set of throwing calls", "why_tests_cant": "Which calls throw and when they finish relative to each other depends on the schedule.", "anchors": ["include/common_robotics_utilities/parallelism.hpp: StaticParallelForRangeLoop, DynamicParallelForRangeLoop"]}
{"id": "C74", "title": "Parallel loops never deadlock", "statement": "From every state that a parallel for loop can get into, it can still run to completion: no circular wait, no lost wake-up, no lack of thread numbers, even without spurious wake-ups of condition variables.", "quantifier": "every schedule of the dispatcher and the workers", "why_tests_cant": "Lost wake-ups happen only in narrow windows between checking a predicate and going to sleep.", "anchors": ["include/common_robotics_utilities/parallelism.hpp: StaticParallelForRangeLoop, DynamicParallelForRangeLoop"]}
{"id": "C75", "title": "Voxel grid location queries are defined everywhere", "statement": "Reading the voxel at any finite location returns a result (the cell, or OUT_OF_BOUNDS) without undefined behaviour.", "quantifier": "every grid and every finite location", "why_tests_cant": "The set of locations is all triples of doubles; undefined conversions pass silently on test inputs.", "anchors": ["include/common_robotics_utilities/voxel_grid.hpp: LocationInGridFrameToGridIndex4d, GetLocationImmutable4d"]}
{"id": "C76", "title": "Every change of voxel contents is gated", "statement": "The contents of a voxel grid change only when the derived class's access callback has been asked and has allowed it.", "quantifier": "every grid, callback and call sequence", "why_tests_cant": "Every call on every state must be covered.", "anchors": ["include/common_robotics_utilities/voxel_grid.hpp: OnMutableAccess, OnMutableRawAccess, SetIndex, ResetWithNewValue"]}
{"id": "C77", "title": "A refused write leaves the hashed grid unchanged", "statement": "When the access callback of a class derived from the dynamic spatial hashed grid refuses a write, the write reports that it is prohibited and nothing readable from the grid changes.", "quantifier": "every grid history, location, value and callback (which may keep state)", "why_tests_cant": "Callbacks are arbitrary user code, asked more than once per call.", "anchors": ["include/common_robotics_utilities/dynamic_spatial_hashed_voxel_grid.hpp: SetLocation4d, GetLocationMutable4d, AllocateChunkAt"]}
{"id": "C78", "title": "Hashed grid serialization round trip", "statement": "Serializing a dynamic spatial hashed grid and deserializing the bytes gives a grid that answers every read like the original, and arbitrary bytes either raise or give a grid all of whose stored chunks have the amount of data their fill state requires.", "quantifier": "every reachable hashed grid, item serializer that round trips, buffer contents before and after, and every byte string", "why_tests_cant": "Unbounded contents and malformed inputs.", "anchors": ["include/common_robotics_utilities/dynamic_spatial_hashed_voxel_grid.hpp: BaseSerializeSelf, BaseDeserializeSelf, SerializeSelf, DeserializeSelf"]}
{"id": "C79", "title": "SplitMix64 full period", "statement": "SplitMix64 returns pairwise different values in any 2^64 consecutive draws without reseeding.", "quantifier": "every seed, history and window of up to 2^64 draws", "why_tests_cant": "No test can draw 2^64 values; the claim rests on the mixing function being a bijection of 64-bit words.", "anchors": ["include/common_robotics_utilities/simple_prngs.hpp:SplitMix64PRNG"]}
{"id": "C80", "title": "Clamping", "statement": "Clamping returns a value inside the given bounds, equal to the input when the input was already inside, and rejects bounds that are the wrong way round.", "quantifier": "every strict weak order, value and pair of bounds", "why_tests_cant": "All values, including equal bounds and bounds in the wrong order.", "anchors": ["include/common_robotics_utilities/utility.hpp: ClampValue"]}
{"id": "C81", "title": "Connect propagation is defined for every distance", "statement": "The RRT-Connect propagation function returns for every pair of states at finite distance, whatever the positive step size.", "quantifier": "every distance, interpolation and validity function that return, finite distance and positive step", "why_tests_cant": "The number of steps is converted to a 32-bit integer; only extreme ratios matter.", "anchors": ["include/common_robotics_utilities/simple_rrt_planner.hpp: MakeKinematicRRTConnectPropagationFunction, MakeKinematicRRTExtendPropagationFunction"]}
{"id": "C82", "title": "RRT tree serialization", "statement": "A serialized RRT tree deserializes to an equal tree if it is well linked and is refused otherwise; arbitrary bytes either raise or give a well-linked tree, without reading outside the buffer.", "quantifier": "every tree, state serializer that round trips, surrounding bytes, and every byte string", "why_tests_cant": "Unbounded trees and malformed inputs.", "anchors": ["include/common_robotics_utilities/simple_rrt_planner.hpp: SimpleRRTPlannerTree::Serialize, Deserialize, SimpleRRTPlannerState::Serialize, Deserialize"]}
{"id": "C83", "title": "Linear nearest neighbour function", "statement": "The nearest-neighbour function made for RRT planners returns the index of a tree node at minimal distance to the sampled state, and raises for an empty tree.", "quantifier": "every tree, sample and distance function with a strict weak order", "why_tests_cant": "All trees, ties included.", "anchors": ["include/common_robotics_utilities/simple_rrt_planner.hpp: MakeLinearRRTNearestNeighborsFunction, MakeKinematicLinearRRTNearestNeighborsFunction"]}
{"id": "C84", "title": "RRT sampling and selection helpers", "statement": "The state-and-goals sampler returns one of the goals exactly when the drawn number does not exceed the goal bias and otherwise what the state sampler returns; the tree sampler returns an index of the tree; the sample-type and active-tree selectors follow the drawn number; all of them reject probabilities outside [0,1].", "quantifier": "every random source with values in [0,1), bias, goal list and tree", "why_tests_cant": "The drawn number ranges over all doubles, where rounding could index past the end.", "anchors": ["include/common_robotics_utilities/simple_rrt_planner.hpp: MakeStateAndGoalsSamplingFunction, MakeUniformRandomBiRRTTreeSamplingFunction, MakeUniformRandomBiRRTSelectSampleTypeFunction, MakeUniformRandomBiRRTSelectActiveTreeFunction"]}
{"id": "C85", "title": "Timeout termination", "statement": "The timeout termination function answers no the first time and starts its clock; afterwards it answers yes exactly when more than the timeout has passed and, if the clock does not go back, never returns to no.", "quantifier": "every timeout and sequence of clock readings", "why_tests_cant": "Clock readings are unbounded and compared in floating point.", "anchors": ["include/common_robotics_utilities/simple_rrt_planner.hpp: TimeoutCheckHelper, MakeRRTTimeoutTerminationFunction, MakeBiRRTTimeoutTerminationFunction"]}
{"id": "C86", "title": "Roadmap query answers are valid paths", "statement": "A path returned by a roadmap query starts at a start state and ends at a goal state (or at roadmap states at zero distance from one when duplicates are not added), every step of it was accepted by the edge validity check, and its cost is not above the reported finite cost; otherwise the path is empty and the cost infinite.", "quantifier": "every consistent roadmap, start and goal lists, edge functions, neighbor count and search tie-breaking; for lazy queries any edge functions, for stored-weight queries symmetric ones and a roadmap of valid edges", "why_tests_cant": "every graph shape and callback", "anchors": ["include/common_robotics_utilities/simple_prm_planner.hpp:LazyQueryPath", "include/common_robotics_utilities/simple_prm_planner.hpp:QueryPath"]}
{"id": "C87", "title": "The selected primitive starts a cheapest plan", "statement": "With no heuristic, or one that does not overestimate, the primitive selected for the current outcomes starts a cheapest sequence of possible primitive outcomes that completes the task, taken over all current outcomes; on a finite state space the selection fails exactly if no current outcome can lead to completion.", "quantifier": "every set of primitives, outcome costs, heuristic, set of current outcomes and order of equal queue entries", "why_tests_cant": "All primitives, costs and tie-breaks.", "anchors": ["include/common_robotics_utilities/simple_task_planner.hpp: PlanTaskStateSequence, GetNextPrimitiveToExecute"]}
{"id": "C88", "title": "Joint bounds check", "statement": "CheckInContinuousRevoluteBounds accepts exactly the joint positions that are met when turning from the start to the end in positive direction; the start and the end themselves are always accepted.", "quantifier": "every start, end and value, as real numbers and as doubles", "why_tests_cant": "All angles, wrap-around and rounding at the ends included.", "anchors": ["src/common_robotics_utilities/math.cpp: CheckInContinuousRevoluteBounds, CheckInContinuousRevoluteRange, GetContinuousRevoluteRange"]}
{"id": "C89", "title": "Wrapping angles in double arithmetic", "statement": "Wrapping an angle in double arithmetic adds whole turns with no more error than one rounding, leaves angles that already are in range unchanged, and wrapping twice is the same as wrapping once.", "quantifier": "every finite double", "why_tests_cant": "Only a handful of doubles next to a half turn show a difference.", "anchors": ["src/common_robotics_utilities/math.cpp: EnforceContinuousRevoluteBounds"]}
{"id": "C90", "title": "Joint distance is a metric", "statement": "The continuous revolute distance is between zero and half a turn, zero exactly between equal joint positions, symmetric, and satisfies the triangle inequality.", "quantifier": "every triple of angles (exact arithmetic)", "why_tests_cant": "All angles.", "anchors": ["src/common_robotics_utilities/math.cpp: ContinuousRevoluteDistance"]}
{"id": "C91", "title": "Interpolating joint angles", "statement": "Interpolating joint angles starts at the first and ends at the second position, moves along the shorter arc in proportion to the ratio clamped to [0,1], and stays in the canonical range.", "quantifier": "every pair of angles and ratio (exact arithmetic; the range also in double arithmetic)", "why_tests_cant": "All angles, with the shorter arc crossing the wrap-around.", "anchors": ["src/common_robotics_utilities/math.cpp: InterpolateContinuousRevolute, AddContinuousRevoluteValues"]}
{"id": "C92", "title": "Interpolating numbers and vectors", "statement": "Interpolation returns the first end for ratios up to 0, the second for ratios from 1, and never leaves the interval between the two; vectors are interpolated componentwise and different sizes are rejected.", "quantifier": "every pair of values or vectors and every ratio, as real numbers and as doubles", "why_tests_cant": "Rounding over all doubles.", "anchors": ["src/common_robotics_utilities/math.cpp: Interpolate, InterpolateXd, Interpolate3d, Interpolate4d"]}
{"id": "C93", "title": "Standard deviation", "statement": "The standard deviation of at least two values squared times n-1 is the sum of the squared deviations from the mean; it is never negative and zero exactly for equal values; for one value it is zero and for none it raises.", "quantifier": "every list of values (exact arithmetic)", "why_tests_cant": "All lists.", "anchors": ["src/common_robotics_utilities/math.cpp: ComputeStdDevStdVectorDouble"]}
{"id": "C94", "title": "Interpolation in a cell", "statement": "Linear, bilinear and trilinear interpolation return the corner values at the corners, stay between the smallest and largest corner value inside the cell, and reproduce every function that is affine in each coordinate.", "quantifier": "every cell, corner values and query point (exact arithmetic)", "why_tests_cant": "All corner values and points.", "anchors": ["include/common_robotics_utilities/math.hpp: LinearInterpolate, BilinearInterpolate, TrilinearInterpolate"]}
{"id": "C95", "title": "Vector distance is a metric", "statement": "Distance between vectors is the Euclidean metric and rejects different sizes; in double arithmetic it is exactly symmetric for all inputs and zero from a finite vector to itself.", "quantifier": "every triple of vectors of any size, as real numbers; every pair of vectors of doubles including infinities and NaN", "why_tests_cant": "All sizes and values.", "anchors": ["src/common_robotics_utilities/math.cpp: SquaredDistance, Distance"]}
{"id": "C96", "title": "Conversion of a float channel to 8 bits", "statement": "For every float that is not a NaN, including infinities, the 8-bit value of the channel differs from 255 times the channel limited to [0,1] by at most one half plus 2^-17, a larger channel never has a smaller 8-bit value, and limiting a channel that is already in [0,1] does not change it.", "quantifier": "every float that is not a NaN, every ordered pair of floats", "why_tests_cant": "All floats and their roundings.", "anchors": ["include/common_robotics_utilities/color_builder.hpp: ColorChannelToHex, TrimColorValue"]}
{"id": "C97", "title": "The heat scale", "statement": "Interpolating a value between cold and hot gives, in exact arithmetic, the scale blue, cyan, green, yellow, red at the quarter points with linear transitions, constant beyond the limits; in floating point the colour is opaque and all channels lie in [0,1] for every value and every pair of limits accepted.", "quantifier": "every value and every pair of limits", "why_tests_cant": "Division by the range, rounding and cancellation for arbitrary doubles.", "anchors": ["include/common_robotics_utilities/color_builder.hpp: InterpolateHotToCold"]}
{"id": "C98", "title": "Unique colours are unique", "statement": "Two different codes of at most 20, and a code of at most 20 and one beyond, never get the same red, green and blue; every code with a numeric alpha gives a valid colour with the alpha asked for (0 for code 0) and codes beyond 20 are black.", "quantifier": "every code and every alpha", "why_tests_cant": "All codes and alphas, compared after rounding to float.", "anchors": ["include/common_robotics_utilities/color_builder.hpp: LookupUniqueColor"]}
{"id": "C99", "title": "Projection and rejection split a vector", "statement": "In exact arithmetic VectorProjection returns a multiple of the base vector and VectorRejection a vector orthogonal to the base; the two add up to the input, their squared norms add up to its squared norm, no other multiple of the base is nearer to the input, and a zero base gives a zero projection.", "quantifier": "every pair of vectors of one size, of any dimension", "why_tests_cant": "The identities hold for every vector of every dimension; tests check a few coordinate axes.", "anchors": ["include/common_robotics_utilities/math.hpp:VectorProjection", "include/common_robotics_utilities/math.hpp:VectorRejection"]}
{"id": "C100", "title": "Arbitrary orthogonal vectors are orthogonal", "statement": "GetArbitraryOrthogonalVector returns a non-zero vector orthogonal to its input whenever the dimension is at least two, throws std::runtime_error for a non-zero vector of dimension one and std::invalid_argument for an empty vector.", "quantifier": "every vector, in exact and in double arithmetic", "why_tests_cant": "Which unit vector survives depends on rounding of a squared norm; the failing inputs are rare and not on a test's list.", "anchors": ["include/common_robotics_utilities/math.hpp:GetArbitraryOrthogonalVector"]}
{"id": "C101", "title": "Hyperplanes give nearest points and distances", "statement": "A Hyperplane is refused when origin and normal differ in size; otherwise, in exact arithmetic, the projection of a point lies in the plane, no point of the plane is nearer, the reported distance and squared distance are the distance to it, and a vector is the sum of its projection (orthogonal to the normal) and its rejection (along the normal).", "quantifier": "every plane, point and vector of every dimension, including a zero normal", "why_tests_cant": "Nearest means compared with all points of the plane.", "anchors": ["include/common_robotics_utilities/math.hpp:Hyperplane"]}
{"id": "C102", "title": "ClampNorm bounds the norm and keeps the direction", "statement": "In exact arithmetic, for a non-negative bound, ClampNorm returns the vector scaled by a factor in [0, 1] with norm min(bound, norm of the input), and returns inputs within the bound unchanged.", "quantifier": "every vector and every non-negative bound", "why_tests_cant": "Needs every direction and norm.", "anchors": ["include/common_robotics_utilities/math.hpp:ClampNorm"]}
{"id": "C103", "title": "Hat and unhat are inverse and mean what they say", "statement": "Skew(v) is the matrix of the cross product with v, TwistHat(v, w) the matrix of the velocity field v + w cross x; Unskew and TwistUnhat undo them, exactly in double arithmetic.", "quantifier": "every vector and twist, in exact and in double arithmetic", "why_tests_cant": "The round trip has to be exact for every double.", "anchors": ["src/common_robotics_utilities/math.cpp:Skew", "src/common_robotics_utilities/math.cpp:Unskew", "src/common_robotics_utilities/math.cpp:TwistHat", "src/common_robotics_utilities/math.cpp:TwistUnhat"]}
{"id": "C104", "title": "Transforming twists is conjugation", "statement": "In exact arithmetic TransformTwist with a rigid motion T turns the twist xi into the one whose matrix is T hat(xi) T^-1; transforming with T U is transforming with U and then with T, and the inverse motion undoes it.", "quantifier": "every pair of rigid motions and every twist", "why_tests_cant": "The identity ranges over all of SE(3).", "anchors": ["src/common_robotics_utilities/math.cpp:AdjointFromTransform", "src/common_robotics_utilities/math.cpp:TransformTwist"]}
{"id": "C105", "title": "ExpTwist is a group of rigid motions", "statement": "In exact arithmetic ExpTwist never throws, gives the identity at time 0 and a rigid motion at every time, and the motion for s + t is the product of those for s and t.", "quantifier": "every twist and all times", "why_tests_cant": "The group law quantifies over all twists and pairs of times.", "anchors": ["src/common_robotics_utilities/math.cpp:ExpTwist", "src/common_robotics_utilities/math.cpp:ExpMatrixExact"]}
{"id": "C106", "title": "ExpTwist is the exponential of its twist", "statement": "In exact arithmetic ExpTwist(xi, t) as a function of t starts at the identity and has at every time the derivative hat(xi) ExpTwist(xi, t).", "quantifier": "every twist and every time", "why_tests_cant": "A differential equation cannot be tested at points.", "anchors": ["src/common_robotics_utilities/math.cpp:ExpTwist"]}
{"id": "C107", "title": "Weighted cosines are cosines", "statement": "For non-negative weights and vectors of positive weighted norm WeightedCosineAngleBetweenVectors returns the weighted dot product over the product of the weighted norms, a value in [-1, 1]; a zero weighted norm throws std::invalid_argument; in double arithmetic every result, for any input, is a number in [-1, 1].", "quantifier": "every pair of vectors and weights of one size; in doubles including infinities and NaN", "why_tests_cant": "acos of the result must be safe for all inputs.", "anchors": ["src/common_robotics_utilities/math.cpp:WeightedCosineAngleBetweenVectors"]}
{"id": "C108", "title": "Averages of vectors are componentwise averages", "statement": "AverageEigenVector gives in each component what AverageStdVectorDouble gives for the components, in double arithmetic bit for bit; in exact arithmetic that is the mean weighted with the absolute weights; it throws std::invalid_argument for no vectors, a wrong number of weights, or only zero weights.", "quantifier": "every list of vectors of one size and every list of weights", "why_tests_cant": "Ranges over all lists.", "anchors": ["include/common_robotics_utilities/math.hpp:AverageEigenVector"]}
{"id": "C109", "title": "Gaussian CDF and PDF belong together", "statement": "In exact arithmetic, for a positive deviation, the Gaussian CDF is strictly increasing with values strictly between 0 and 1 and 1/2 at the mean, its derivative is the Gaussian PDF, and IntegrateGaussian(a, b) is the integral of the PDF from a to b, a probability; limits in the wrong order throw std::invalid_argument.", "quantifier": "every mean, positive deviation and pair of limits", "why_tests_cant": "Statements about integrals and derivatives over all reals.", "anchors": ["include/common_robotics_utilities/gaussian_distributions.hpp:EvaluateGaussianCDF", "include/common_robotics_utilities/gaussian_distributions.hpp:EvaluateGaussianPDF", "include/common_robotics_utilities/gaussian_distributions.hpp:IntegrateGaussian"]}
{"id": "C110", "title": "Truncated Gaussian CDF and PDF are a distribution", "statement": "For a positive deviation and bounds lo < hi the truncated CDF is a number in [0, 1], non-decreasing, 0 up to lo and 1 from hi on; inside, its derivative is the truncated PDF, which integrates to 1 over the bounds, and IntegrateTruncatedGaussian is its integral between any two limits; bounds in the wrong order throw std::invalid_argument.", "quantifier": "every mean, deviation, pair of bounds and pair of limits", "why_tests_cant": "Needs integrals over all bounds, and in doubles bounds far from the mean.", "anchors": ["include/common_robotics_utilities/gaussian_distributions.hpp:EvaluateTruncatedGaussianCDF", "include/common_robotics_utilities/gaussian_distributions.hpp:EvaluateTruncatedGaussianPDF", "include/common_robotics_utilities/gaussian_distributions.hpp:IntegrateTruncatedGaussian"]}
{"id": "C111", "title": "Truncated Gaussian samples are in bounds", "statement": "A TruncatedGaussianDistribution built from any mean, non-negative deviation and non-empty bounds, finite or infinite, returns only samples between the bounds, for every sequence of draws of the underlying distributions, and returns once a draw fits.", "quantifier": "every mean, deviation, bounds, number of samples and sequence of draws", "why_tests_cant": "Random draws: the property is for all outcomes of the generator.", "anchors": ["include/common_robotics_utilities/gaussian_distributions.hpp:TruncatedGaussianDistribution"]}
{"id": "C112", "title": "Multivariate Gaussians accept matching sizes", "statement": "MultivariteGaussianDistribution accepts every mean with n rows and covariance with n rows and n columns.", "quantifier": "every dimension n", "why_tests_cant": "All dimensions; the header is not compiled by any test.", "anchors": ["include/common_robotics_utilities/gaussian_distributions.hpp:MultivariteGaussianDistribution"]}
{"id": "C113", "title": "Sampling a trajectory does not depend on what was sampled before", "statement": "What GetPositionVelocityTimePoint returns at a time is a function of the trajectory and the time only: earlier calls on it or on its clones, in any order and at any times, never change it.", "quantifier": "all trajectories that ParametrizePathTOTP returns, all histories of samplings and clonings, all times", "why_tests_cant": "the sampling position is cached in a mutable member, so the answer could depend on the whole history of calls", "anchors": ["src/common_robotics_utilities/time_optimal_trajectory_parametrization.cpp:GetTrajectorySegment", "src/common_robotics_utilities/time_optimal_trajectory_parametrization.cpp:GetPositionVelocity"]}
{"id": "C114", "title": "Sampling at an impossible time is refused", "statement": "GetPositionVelocityTimePoint answers every time that is not negative; a negative time or NaN is refused with an exception.", "quantifier": "all trajectories, all doubles as time", "why_tests_cant": "a test samples only a few times inside the trajectory", "anchors": ["src/common_robotics_utilities/time_optimal_trajectory_parametrization.cpp:GetTrajectorySegment", "include/common_robotics_utilities/time_optimal_trajectory_parametrization.hpp:PositionVelocityTimePoint"]}
{"id": "C115", "title": "Clones of a trajectory are independent", "statement": "A clone answers exactly as the original would have, however either was sampled, and also after the original was destroyed.", "quantifier": "all trajectories, all histories of sampling, cloning and destroying", "why_tests_cant": "whether a clone depends on its original shows only in particular orders of calls and destructions", "anchors": ["src/common_robotics_utilities/time_optimal_trajectory_parametrization.cpp:TOTPTrajectoryImpl::Clone", "src/common_robotics_utilities/time_optimal_trajectory_parametrization.cpp:GetTrajectorySegment"]}
{"id": "C116", "title": "Unusable arguments of ParametrizePathTOTP are refused", "statement": "Fewer than two waypoints, numbers that are not finite, limits that do not have one element per joint, and a time step that is not positive are refused with an exception; nothing undefined is done and the call returns.", "quantifier": "all lists of waypoints, limits, deviations and time steps", "why_tests_cant": "a missing check shows only with the one kind of argument it misses", "anchors": ["src/common_robotics_utilities/time_optimal_trajectory_parametrization.cpp:Trajectory::Trajectory", "src/common_robotics_utilities/time_optimal_trajectory_parametrization.cpp:Path::Path", "src/common_robotics_utilities/time_optimal_trajectory_parametrization.cpp:ParametrizePathTOTP"]}
{"id": "C117", "title": "The limit curves are the exact consequences of the joint limits", "statement": "At every point of the path the largest path velocity, the range of path accelerations and the acceleration limit curve are exactly those at which no joint exceeds its velocity or acceleration limit (with exact arithmetic).", "quantifier": "all paths, points, limits, path velocities and accelerations", "why_tests_cant": "optimality and feasibility must hold for every tangent, curvature and limit", "anchors": ["src/common_robotics_utilities/time_optimal_trajectory_parametrization.cpp:GetVelocityMaxPathVelocity", "src/common_robotics_utilities/time_optimal_trajectory_parametrization.cpp:GetMinMaxPathAcceleration", "src/common_robotics_utilities/time_optimal_trajectory_parametrization.cpp:GetAccelerationMaxPathVelocity"]}
{"id": "C118", "title": "The path stays within the maximum deviation", "statement": "The path starts at the first and ends at the last waypoint, comes within the maximum deviation of every waypoint, and all its points, and all positions ever sampled from the trajectory, are within the maximum deviation of the polyline through the waypoints (exact arithmetic; when blending, legs longer than two millionths and no exact reversal; otherwise a last leg of positive length).", "quantifier": "all lists of waypoints, deviations, times and sampling histories", "why_tests_cant": "blends depend on every angle and leg length, and a sample can be asked at any time", "anchors": ["src/common_robotics_utilities/time_optimal_trajectory_parametrization.cpp:Path::Path", "src/common_robotics_utilities/time_optimal_trajectory_parametrization.cpp:CircularPathSegment", "src/common_robotics_utilities/time_optimal_trajectory_parametrization.cpp:GetPathSegment"]}
{"id": "C119", "title": "Without blending the path is the polyline", "statement": "With a maximum deviation of zero or less the path is the polyline through the waypoints, parametrized by its arc length (exact arithmetic, last leg of positive length).", "quantifier": "all lists of waypoints", "why_tests_cant": "every number of waypoints and every leg length, also legs without length", "anchors": ["src/common_robotics_utilities/time_optimal_trajectory_parametrization.cpp:Path::Path", "src/common_robotics_utilities/time_optimal_trajectory_parametrization.cpp:LinearPathSegment"]}
{"id": "C120", "title": "Tangent and curvature are the derivatives of the configuration", "statement": "Along the path, except at finitely many places, the tangent is the derivative of the configuration by arc length and the curvature the derivative of the tangent; the tangent has length one everywhere, and the configuration never jumps by more than a millionth, without blending not at all (exact arithmetic).", "quantifier": "all lists of waypoints and deviations for which the path is defined, all points of the path", "why_tests_cant": "derivatives are statements about all points of all segments", "anchors": ["src/common_robotics_utilities/time_optimal_trajectory_parametrization.cpp:GetTangent", "src/common_robotics_utilities/time_optimal_trajectory_parametrization.cpp:GetCurvature", "src/common_robotics_utilities/time_optimal_trajectory_parametrization.cpp:CircularPathSegment", "src/common_robotics_utilities/time_optimal_trajectory_parametrization.cpp:LinearPathSegment"]}
{"id": "C121", "title": "The sampled velocity is the derivative of the sampled position", "statement": "The velocity that GetPositionVelocityTimePoint returns is the time derivative of the position it returns (exact arithmetic, except at steps and path junctions).", "quantifier": "all trajectories and all times", "why_tests_cant": "a derivative is a statement about all times near each time", "anchors": ["src/common_robotics_utilities/time_optimal_trajectory_parametrization.cpp:GetPositionVelocity"]}
{"id": "C122", "title": "A trajectory starts and ends at rest at the ends of the path", "statement": "At time zero the trajectory is at the first waypoint at rest; at Duration and at every later time it is at the last waypoint at rest.", "quantifier": "all trajectories and all times from Duration on", "why_tests_cant": "every trajectory and every later time", "anchors": ["src/common_robotics_utilities/time_optimal_trajectory_parametrization.cpp:GetPositionVelocity", "src/common_robotics_utilities/time_optimal_trajectory_parametrization.cpp:Duration", "src/common_robotics_utilities/time_optimal_trajectory_parametrization.cpp:GetTrajectorySegment"]}
{"id": "C123", "title": "No joint exceeds its velocity limit", "statement": "At every time of the trajectory no joint is faster than its velocity limit, and between two waypoints the motion never goes back.", "quantifier": "all waypoints, limits, time steps and times", "why_tests_cant": "the integration works with a time step, so limits can be exceeded between and at steps", "anchors": ["src/common_robotics_utilities/time_optimal_trajectory_parametrization.cpp:IntegrateForward", "src/common_robotics_utilities/time_optimal_trajectory_parametrization.cpp:IntegrateBackward", "src/common_robotics_utilities/time_optimal_trajectory_parametrization.cpp:GetPositionVelocity"]}
{"id": "C124", "title": "ParametrizePathTOTP always succeeds for distinct waypoints with positive limits", "statement": "For waypoints of which no two consecutive ones are equal, positive limits and a positive time step the call returns a trajectory.", "quantifier": "all such waypoints, limits and time steps", "why_tests_cant": "the integration loops have no bound, and the backward integration can fail to meet the forward one", "anchors": ["src/common_robotics_utilities/time_optimal_trajectory_parametrization.cpp:Trajectory::Trajectory", "src/common_robotics_utilities/time_optimal_trajectory_parametrization.cpp:IntegrateForward", "src/common_robotics_utilities/time_optimal_trajectory_parametrization.cpp:IntegrateBackward"]}
{"id": "C125", "title": "Roll, pitch and yaw mean what they say", "statement": "QuaternionFromRPY gives a unit quaternion that rotates v into Rx(roll) Ry(pitch) Rz(yaw) v, QuaternionFromUrdfRPY one that rotates v into Rz(yaw) Ry(pitch) Rx(roll) v; the transforms built from them are proper isometries with the given translation; a component vector whose size is not 6 is rejected.", "quantifier": "all angles and translations, all component vectors", "why_tests_cant": "the order of the products and the convention must be right for every triple of angles, not for single axes", "anchors": ["src/common_robotics_utilities/conversions.cpp:QuaternionFromRPY", "src/common_robotics_utilities/conversions.cpp:QuaternionFromUrdfRPY", "src/common_robotics_utilities/conversions.cpp:TransformFromRPY", "src/common_robotics_utilities/conversions.cpp:TransformFromUrdfRPY"]}
{"id": "C126", "title": "Euler angles give the rotation back", "statement": "TransformToRPY followed by TransformFromRPY returns the same isometry for every proper isometry, gimbal lock included; EulerAnglesFromQuaternion followed by QuaternionFromRPY returns the quaternion or its opposite; roll is in [0, pi], pitch and yaw in [-pi, pi].", "quantifier": "all proper isometries and unit quaternions", "why_tests_cant": "singular orientations form a set that sampling misses", "anchors": ["src/common_robotics_utilities/conversions.cpp:TransformToRPY", "src/common_robotics_utilities/conversions.cpp:EulerAnglesFromRotationMatrix", "src/common_robotics_utilities/conversions.cpp:EulerAnglesFromQuaternion"]}
{"id": "C127", "title": "Conversions between std::vector and Eigen types lose nothing", "statement": "Converting a Vector3d, VectorXd or quaternion to a std::vector and back, or the other way round, returns the same numbers in the same order (x, y, z, w for quaternions); vectors of the wrong size are rejected.", "quantifier": "all vectors of all sizes and all contents", "why_tests_cant": "sizes are unbounded", "anchors": ["src/common_robotics_utilities/conversions.cpp:StdVectorDoubleToEigenVector3d", "src/common_robotics_utilities/conversions.cpp:StdVectorDoubleToEigenVectorXd", "src/common_robotics_utilities/conversions.cpp:EigenVectorXdToStdVectorDouble", "src/common_robotics_utilities/conversions.cpp:StdVectorDoubleToEigenQuaterniond"]}
{"id": "C128", "title": "The distance of quaternions is a metric on rotations", "statement": "Distance of two unit quaternions is the angle between their rotations; it is symmetric, at most pi, the same for q and -q, unchanged when both are rotated by the same rotation, zero for the same rotation, and satisfies the triangle inequality.", "quantifier": "all unit quaternions; in double arithmetic all quaternions", "why_tests_cant": "triples of nearly equal rotations", "anchors": ["src/common_robotics_utilities/math.cpp:Distance(Quaterniond)"]}
{"id": "C129", "title": "Interpolation of quaternions stays on the shortest arc", "statement": "Interpolate on unit quaternions clamps the ratio to [0, 1], starts at the first, ends at the second (or its opposite), returns a unit quaternion, and the angles from the first and to the second are proportional to ratio and 1 - ratio.", "quantifier": "all unit quaternions and ratios", "why_tests_cant": "nearly parallel and nearly opposite quaternions take a different branch", "anchors": ["src/common_robotics_utilities/math.cpp:Interpolate(Quaterniond)"]}
{"id": "C130", "title": "Interpolation and distance of isometries", "statement": "Interpolate on isometries starts at the first and ends at the second exactly, moves the translation on the line and the rotation on the shortest arc; Distance is (1 - alpha) times the distance of the translations plus alpha times the angle, with alpha clamped to [0, 1], and symmetric.", "quantifier": "all proper isometries, ratios and weights", "why_tests_cant": "every pair of rotations, including those where the quaternion of a matrix takes another branch", "anchors": ["src/common_robotics_utilities/math.cpp:Interpolate(Isometry3d)", "src/common_robotics_utilities/math.cpp:Distance(Isometry3d)"]}
{"id": "C131", "title": "Random quaternions are unit quaternions and reach every rotation", "statement": "Whatever the generator draws, the random quaternion has length one; every unit quaternion other than those with x = y = 0 is the result of some draws.", "quantifier": "all generators with draws in [0, 1) and all unit quaternions", "why_tests_cant": "randomised: every draw matters", "anchors": ["include/common_robotics_utilities/random_rotation_generator.hpp:GenerateUniformRandomQuaternion", "include/common_robotics_utilities/random_rotation_generator.hpp:GetRawQuaternion"]}
{"id": "C132", "title": "Random Euler angles are in range and reach every rotation", "statement": "Roll and yaw are in [-pi, pi), pitch in [0, 2 pi); every rotation is the result of some draws; the pitch has the distribution of a uniformly distributed rotation.", "quantifier": "all generators with draws in [0, 1) and all rotations", "why_tests_cant": "randomised: every draw matters", "anchors": ["include/common_robotics_utilities/random_rotation_generator.hpp:GenerateUniformRandomEulerAngles", "include/common_robotics_utilities/random_rotation_generator.hpp:GetRawEulerAngles"]}
{"id": "C133", "title": "The average of quaternions agrees best with all of them", "statement": "AverageEigenQuaterniond returns a unit quaternion that maximises the sum of the squared weighted inner products; it does not depend on the order, on the signs of the quaternions or of the weights; equal quaternions give that quaternion or its opposite; no quaternions, a wrong number of weights and a single zero weight are rejected.", "quantifier": "all lists of two or more quaternions and weights, all eigenvalue solvers that return a basis of eigenvectors", "why_tests_cant": "optimality over all unit quaternions", "anchors": ["src/common_robotics_utilities/math.cpp:AverageEigenQuaterniond"]}
{"id": "C134", "title": "Weights of quaternions act as multiplicities", "statement": "Giving a quaternion the weight 2 has the same effect as giving it twice, and weights that are all zero are rejected, as in the other averages.", "quantifier": "all lists of quaternions and weights", "why_tests_cant": "every list of weights", "anchors": ["src/common_robotics_utilities/math.cpp:AverageEigenQuaterniond"]}
{"id": "C135", "title": "The average of isometries averages translations and rotations", "statement": "AverageEigenIsometry3d returns a proper isometry whose translation is the weighted mean of the translations and whose rotation is that of the quaternion that agrees best with the rotations; no transforms, a wrong number of weights and zero weights are rejected.", "quantifier": "all lists of proper isometries and weights", "why_tests_cant": "all lists", "anchors": ["src/common_robotics_utilities/math.cpp:AverageEigenIsometry3d"]}
{"id": "C136", "title": "Maps built from keys and values answer lookups with the last value given", "statement": "MakeFromKeysAndValues builds a map in which RetrieveOrDefault gives the value of the last pair with that key and the default for every other key; its keys are the given keys, each once, in increasing order; taking a map apart with GetKeysAndValues (or keys and values) and building again gives the same map; containers of different sizes are rejected with an exception.", "quantifier": "all key and value types with a strict weak order, all pair lists with repeated keys, all lookups", "why_tests_cant": "repeated and equivalent keys in any order form an unbounded family; tests use a few distinct keys", "anchors": ["include/common_robotics_utilities/utility.hpp: RetrieveOrDefault", "include/common_robotics_utilities/utility.hpp: MakeFromKeysAndValues", "include/common_robotics_utilities/utility.hpp: GetKeysAndValues"]}
{"id": "C137", "title": "ClampValue and SpreadValue respect their bounds for every value", "statement": "ClampValue returns the value of the interval nearest to its argument; SpreadValue never returns a value strictly between its thresholds, moves a value between them to the threshold on its side of the midpoint and leaves all others alone; thresholds out of order, or NaN, are rejected.", "quantifier": "all totally ordered types, all values and thresholds including equal ones and NaN", "why_tests_cant": "boundary values equal to thresholds and midpoint, and NaN, are easily missed by examples", "anchors": ["include/common_robotics_utilities/utility.hpp: ClampValueAndLog", "include/common_robotics_utilities/utility.hpp: SpreadValueAndLog"]}
{"id": "C138", "title": "CheckAllStringsForSubstring is exact", "statement": "The check says yes exactly when every string of the container contains the substring as consecutive characters.", "quantifier": "all containers of strings and all substrings, including empty ones and self-overlapping ones", "why_tests_cant": "the set of strings is unbounded", "anchors": ["include/common_robotics_utilities/utility.hpp: CheckAllStringsForSubstring"]}
{"id": "C139", "title": "A scope guard runs its function exactly once on every way out of the scope", "statement": "The function given to OnScopeExit runs exactly once, after everything the scope did, when the scope ends normally or by an exception at any point, and not at all if Disable was called before; an empty function is refused at construction; a function that throws ends the program.", "quantifier": "all scope bodies, all points at which they throw or disable the guard, all functions", "why_tests_cant": "every exit point of every body must be covered", "anchors": ["include/common_robotics_utilities/utility.hpp: OnScopeExit"]}
{"id": "C140", "title": "Copyable atomics count exactly and copy real values under every schedule", "statement": "Objects that threads only add to and subtract from end, for every interleaving, at the starting value plus everything added, modulo the size of the type; copying or assigning one stores a value the source held during the copy; copies are defined for every memory order the type can be given.", "quantifier": "all numbers of threads, operations and interleavings; all memory orders", "why_tests_cant": "schedules cannot be enumerated by tests; undefined behaviour need not show", "anchors": ["include/common_robotics_utilities/utility.hpp: CopyableMoveableAtomic"]}
{"id": "C141", "title": "Compression loses nothing", "statement": "DecompressBytes of what CompressBytes returns is the original bytes, for every input CompressBytes accepts, through its fixed-size buffer and whatever the zlib calls read and write at a time.", "quantifier": "all byte strings up to the accepted size, all zlib implementations keeping zlib's contract, all splits into calls, all uninitialised stack contents", "why_tests_cant": "inputs near 2^32 bytes and every split at the buffer boundary cannot be tried", "anchors": ["src/common_robotics_utilities/zlib_helpers.cpp:CompressBytes", "src/common_robotics_utilities/zlib_helpers.cpp:DecompressBytes"]}
{"id": "C142", "title": "Decompression of arbitrary bytes ends with the data or an exception", "statement": "DecompressBytes terminates on every input; it returns data exactly when the input begins with a complete stream, and that stream's data; cut or damaged streams, inputs of 2^32 bytes or more and failures of zlib throw.", "quantifier": "all byte strings, every point of truncation", "why_tests_cant": "all byte strings, and termination, are beyond tests", "anchors": ["src/common_robotics_utilities/zlib_helpers.cpp:DecompressBytes"]}
{"id": "C143", "title": "Compressed files load back or the failure is reported", "statement": "What CompressAndWriteToFile wrote loads back with LoadFromFileAndDecompress; if the file cannot be opened or written in full the caller learns of it; a file written in part never loads as wrong data; missing and unreadable files throw.", "quantifier": "all contents, all points at which writing stops", "why_tests_cant": "every possible failure point of the file system", "anchors": ["src/common_robotics_utilities/zlib_helpers.cpp:CompressAndWriteToFile", "src/common_robotics_utilities/zlib_helpers.cpp:LoadFromFileAndDecompress"]}
{"id": "C144", "title": "Changing the number of OpenMP threads is undone on every way out", "statement": "After any program using ChangeOmpNumThreadsWrapper and DisableOmpWrapper, nested and left by exceptions, parallel regions have as many threads as before and the setting is as before; in the scope they have the number asked for; wrappers in parallel regions or for no threads are refused without effect.", "quantifier": "all programs, settings and limits", "why_tests_cant": "all nestings and exits", "anchors": ["include/common_robotics_utilities/openmp_helpers.hpp:ChangeOmpNumThreadsWrapper", "include/common_robotics_utilities/openmp_helpers.hpp:DisableOmpWrapper"]}
{"id": "C145", "title": "Asking for the number of OpenMP threads is deterministic and free of data races", "statement": "GetNumOmpThreads and GetMaxNumOmpThreads return the size of a region and the setting, for every order in which the threads run, without a data race.", "quantifier": "all settings and schedules", "why_tests_cant": "races need not show in tests", "anchors": ["include/common_robotics_utilities/openmp_helpers.hpp:GetNumOmpThreads", "include/common_robotics_utilities/openmp_helpers.hpp:GetMaxNumOmpThreads"]}
{"id": "C146", "title": "Fitted planes minimise the squared distances", "statement": "FitPlaneToPoints returns a plane through the centroid of the points with a unit normal, and no other plane (through any point, with any nonzero normal) has a smaller sum of squared distances to the points; points that lie in some plane lie in the fitted one; an empty set of points is refused", "quantifier": "every nonempty list of points of every dimension, every singular value decomposition of the centred points", "why_tests_cant": "optimality compares the result with every other plane, of which there are infinitely many, and the decomposition is not unique", "anchors": ["src/common_robotics_utilities/math.cpp:FitPlaneToPoints", "include/common_robotics_utilities/math.hpp:Hyperplane"]}
{"id": "C147", "title": "The normed dot product is the cosine of the angle to the normal", "statement": "GetNormedDotProduct gives the cosine of the angle between the plane's normal and the direction from the plane's origin to the point: it lies in [-1, 1] and does not change along a ray from the origin", "quantifier": "every plane and every point", "why_tests_cant": "ranges over all planes, including those made with a normal that is not of unit length", "anchors": ["include/common_robotics_utilities/math.hpp:Hyperplane::GetNormedDotProduct"]}
{"id": "C148", "title": "CloseEnough means within the threshold", "statement": "CloseEnough(p1, p2, t) holds exactly when the distance of the numbers is at most the absolute value of t, does not depend on the order, holds for a value and itself, and accepts more when the threshold grows; for vectors it holds exactly when it holds for every component; Equal3d and Equal4d hold exactly when all components are equal", "quantifier": "all doubles, including infinities and NaN, and every threshold", "why_tests_cant": "rounding of the difference decides at the boundary, which tests sample only at a few points, and the claim is about every pair of doubles", "anchors": ["src/common_robotics_utilities/math.cpp:CloseEnough", "src/common_robotics_utilities/math.cpp:Equal3d", "src/common_robotics_utilities/math.cpp:Equal4d"]}
{"id": "C149", "title": "ColorsEqual compares every channel with the tolerance", "statement": "for colours made by the builder, ColorsEqual accepts colours whose channels differ by at most the tolerance, accepts others only within one rounding of the float difference, is symmetric, and with tolerance 0 is equality of the channels", "quantifier": "all valid colours and every finite tolerance", "why_tests_cant": "the claim covers all pairs of float colours and the rounding of each difference", "anchors": ["include/common_robotics_utilities/color_builder.hpp:ColorsEqual"]}
{"id": "C150", "title": "Vector arithmetic is elementwise IEEE arithmetic", "statement": "Add, Sub, Multiply and Divide of vectors give the correctly rounded result in every element and refuse vectors of different sizes; the scalar forms do the same; Norm is the Euclidean length and is a nonnegative number for vectors of numbers", "quantifier": "all vectors of doubles of every length and every scalar", "why_tests_cant": "the claim is about every double, including the ones whose inverse or square leaves the range of the format", "anchors": ["src/common_robotics_utilities/math.cpp:Divide", "src/common_robotics_utilities/math.cpp:Multiply", "src/common_robotics_utilities/math.cpp:Norm"]}
{"id": "C151", "title": "Point, vector and quaternion messages are copied exactly", "statement": "Converting a ROS point, vector or quaternion message to its Eigen type and back, or an Eigen value to a message and back, returns the same coordinates in the same places, whatever they are (NaN and infinities included); as a Vector4d a point carries 1 and a vector carries 0 in the last place, which is dropped on the way back.", "quantifier": "every coordinate value of any scalar type", "why_tests_cant": "a permuted pair of coordinates is invisible on symmetric test values, and a test covers finitely many values", "anchors": ["src/common_robotics_utilities/ros_conversions.cpp:13-106"]}
{"id": "C152", "title": "Pose and transform messages mean the motion they name", "statement": "In exact arithmetic a pose or transform message becomes the rigid motion v -> q v q* + t of its quaternion and position; an isometry converted to a message and back is the same isometry, and a message converted to an isometry and back has the same position and the same quaternion up to its sign.", "quantifier": "all positions, all quaternions, all proper isometries (all four branches of the matrix to quaternion conversion)", "why_tests_cant": "the conversion from a matrix has four branches chosen by the largest diagonal entry, and tests sample a few rotations", "anchors": ["src/common_robotics_utilities/ros_conversions.cpp:108-175"]}
{"id": "C153", "title": "Lists of messages are converted element by element", "statement": "The conversions of lists and of Matrix3Xd never throw, return as many elements as they are given, and the i-th result is the conversion of the i-th input; lists of points survive a round trip exactly, lists of proper isometries do in exact arithmetic.", "quantifier": "lists of any length and contents, empty ones included", "why_tests_cant": "lengths and contents are unbounded", "anchors": ["src/common_robotics_utilities/ros_conversions.cpp:188-300"]}
{"id": "C154", "title": "Stamps and frames", "statement": "Stamped messages carry the frame names they are given, the plain message, and the stamp of a new message; SetMessageTimestamps gives every message in the container the given stamp and changes neither their number, order, frames nor contents.", "quantifier": "all messages, frames, stamps and containers of any size", "why_tests_cant": "containers are unbounded, and that nothing else changes is a statement about every field", "anchors": ["src/common_robotics_utilities/ros_conversions.cpp:47-186", "include/common_robotics_utilities/ros_helpers.hpp:64-85"]}
{"id": "C155", "title": "Containers print as their elements in order", "statement": "For every container, nested to any depth, that is not empty, Print writes the texts of the elements in iteration order with the given separator between neighbours (never before the first or after the last), inside the brackets of the container's kind when delimiters are asked for; map entries print as key-value pairs, and an empty container prints nothing.", "quantifier": "all container types and nestings, all lengths, all separators, delimiters on and off", "why_tests_cant": "nesting depths and lengths are unbounded and each container kind has its own copy of the loop", "anchors": ["include/common_robotics_utilities/print.hpp:381-965"]}
{"id": "C156", "title": "Printed values can be told apart", "statement": "With delimiters, different values of the same type never print the same text.", "quantifier": "all values of all types built from numbers, truth values and strings with pairs, sequences, sets and maps, and all separators that cannot be confused with numbers or brackets", "why_tests_cant": "it compares every pair of values of every nested type", "anchors": ["include/common_robotics_utilities/print.hpp:28-38", "include/common_robotics_utilities/print.hpp:188-213", "include/common_robotics_utilities/print.hpp:381-965"]}
{"id": "C157", "title": "Eigen values print every entry in its place", "statement": "Two Eigen vectors, quaternions or non-empty matrices print the same text exactly when they have the same size and their entries print the same, entry by entry.", "quantifier": "all sizes and entries, every way of writing a number with the characters of numbers", "why_tests_cant": "sizes are unbounded; a dropped or swapped entry must show for every input", "anchors": ["include/common_robotics_utilities/print.hpp:215-350"]}
{"id": "C158", "title": "Acceleration limits are kept", "statement": "Between any two times of a trajectory no joint's velocity changes by more than its acceleration limit times the time between them.", "quantifier": "all waypoints, limits, time steps and pairs of times", "why_tests_cant": "a jump can happen between any two sampled times", "anchors": ["src/common_robotics_utilities/time_optimal_trajectory_parametrization.cpp:GetPositionVelocity", "src/common_robotics_utilities/time_optimal_trajectory_parametrization.cpp:GetAccelerationMaxPathVelocity", "src/common_robotics_utilities/time_optimal_trajectory_parametrization.cpp:GetNextSwitchingPoint"]}
{"id": "C159", "title": "TwistBetweenTransforms is the motion from start to end", "statement": "For rigid transforms start and end, the twist returned by TwistBetweenTransforms(start, end), followed for one unit of time from start in its own frame (start * ExpTwist(twist, 1)), ends at end; its rotation is at most half a turn; and if end was reached from start by following a twist that turns less than half a turn, that twist is returned. Every rigid motion is reached by some twist.", "quantifier": "all rigid transforms start and end and all twists, in exact arithmetic, for any matrix logarithm", "why_tests_cant": "needs uniqueness of solutions of a differential equation and Chasles' theorem over a continuum of motions", "anchors": ["src/common_robotics_utilities/math.cpp: TwistBetweenTransforms", "src/common_robotics_utilities/math.cpp: ExpTwist"]}
{"id": "C160", "title": "WeightedAngleBetweenVectors is the angle under the weights", "statement": "For vectors and non-negative weights of one size, WeightedAngleBetweenVectors returns the angle in [0, PI] whose cosine times both weighted lengths is the weighted inner product, is symmetric in the vectors, throws when a vector has weighted length zero, and in double arithmetic only ever takes the arc cosine of numbers in [-1, 1].", "quantifier": "all vectors and weights of any size, in exact and in double arithmetic", "why_tests_cant": "rounding in quotients just beyond 1 would make acos return NaN only for rare inputs", "anchors": ["src/common_robotics_utilities/math.cpp: WeightedAngleBetweenVectors", "src/common_robotics_utilities/math.cpp: WeightedCosineAngleBetweenVectors"]}
{"id": "C161", "title": "A ReferencingMaybe reads and writes the object it was last bound to", "statement": "In every sequence of creating, copying, moving, assigning and resetting ReferencingMaybes and of changing the referenced objects directly or through any of them: HasValue is true exactly when the maybe was last bound to an object, Value returns that object's latest value whoever wrote it, Value on an empty one throws std::runtime_error, no object is created, copied or destroyed, and nothing is undefined unless a reference to a destroyed object is followed.", "quantifier": "all histories of any number of objects and maybes", "why_tests_cant": "aliasing histories of unbounded length", "anchors": ["include/common_robotics_utilities/maybe.hpp: ReferencingMaybe"]}
{"id": "C162", "title": "Robot model distances are magnitudes and are measured from the current position", "statement": "For every implementation of SimpleRobotModelInterface, ComputePerDimensionConfigurationDistance has one entry per entry of the signed distance, its absolute value and never negative; it is symmetric if the signed distance changes only its sign; and after any sequence of SetPosition calls the ...DistanceTo functions measure from the position last set.", "quantifier": "all implementations, configurations and SetPosition histories, in IEEE binary64", "why_tests_cant": "quantifies over user-supplied implementations of the interface", "anchors": ["include/common_robotics_utilities/simple_robot_model_interface.hpp: ComputePerDimensionConfigurationDistance", "include/common_robotics_utilities/simple_robot_model_interface.hpp: ComputeConfigurationDistanceTo"]}
{"id": "C163", "title": "The direction of a blended path does not jump", "statement": "For a positive blend deviation and waypoints whose path is well defined, the direction (tangent) that the path reports starts along the first leg, ends along the last leg, and never jumps: the only jumps are those at corners that turn by less than a millionth, which the code leaves unblended, and they are no larger than that turn", "quantifier": "all numbers of waypoints and dimensions, all positive deviations, all arc lengths, all corners (exact arithmetic)", "why_tests_cant": "a test samples a few arc lengths of a few paths; a jump can hide at any junction of a straight piece and a blend, for any angle and any ratio of deviation to leg length", "anchors": ["time_optimal_trajectory_parametrization.cpp:Path::MakePath", "time_optimal_trajectory_parametrization.cpp:CircularPathSegment::MakeCircular", "time_optimal_trajectory_parametrization.hpp:Path::GetTangent"]}
{"id": "C164", "title": "A* between two states", "statement": "PerformAstarSearch given a start, a goal, a function listing the children of a state, an edge validity check, a distance and a heuristic returns a sequence of states from the start to the goal in which every step goes to a listed child over a valid edge, at a cost no smaller than the sum of the distances; with distances that are not negative and a heuristic that never overestimates the cost equals that sum and no other such sequence is cheaper; over a finite set of states the search ends and returns no path exactly when there is none; a negative distance is refused.", "quantifier": "all state types, functions, cost arithmetics satisfying the stated laws and queue tie-breaks", "why_tests_cant": "A test runs one graph and one heuristic; the optimality statement compares the result with every path.", "anchors": ["include/common_robotics_utilities/simple_astar_search.hpp:PerformAstarSearch"]}
{"id": "C165", "title": "Parent and children of a planning tree node", "statement": "After any sequence of SetParentIndex, AddChildIndex, RemoveChildIndex and ClearChildIndicies calls a planner state lists as children exactly those that were there or were added and have not been removed or cleared since, each once if that was so at the start, in the order in which they were added; its parent is the last one set and its value is unchanged.", "quantifier": "all states, starting lists and finite sequences of calls", "why_tests_cant": "A unit test makes a few calls; the statement is about the list after every history.", "anchors": ["include/common_robotics_utilities/simple_rrt_planner.hpp:SimpleRRTPlannerState"]}
{"id": "C166", "title": "Hashes agree with equality", "statement": "The std::hash specializations for GridIndex and ChunkRegion and those made by CRU_MAKE_HASHABLE give equal hashes for values that compare equal (0.0 and -0.0 included), so that a hash table looking only into the bucket of a key finds an entry exactly when one with an equal key is stored, whatever the number of buckets; values that differ only in their last member have different hashes when that member's hashes differ.", "quantifier": "all keys, all hash functions of the members meeting the requirements of the standard, all tables and bucket counts", "why_tests_cant": "A collision-free test says nothing about keys with equal but differently represented members, nor about every bucket count.", "anchors": ["include/common_robotics_utilities/utility.hpp:hash_combine", "include/common_robotics_utilities/utility.hpp:CRU_MAKE_HASHABLE", "include/common_robotics_utilities/voxel_grid.hpp:GridIndex", "include/common_robotics_utilities/dynamic_spatial_hashed_voxel_grid.hpp:ChunkRegion"]}
{"id": "C167", "title": "Logging does not change results", "statement": "ClampValueAndLog and SpreadValueAndLog return the same values as ClampValue and SpreadValue for every logging function that returns; the logging function is called exactly when the value returned differs from the value given, once, with the message naming both; its exceptions reach the caller, and only then.", "quantifier": "all value types with a total order, all arguments, all logging functions", "why_tests_cant": "Logging functions and values range over infinitely many.", "anchors": ["include/common_robotics_utilities/utility.hpp:ClampValueAndLog", "include/common_robotics_utilities/utility.hpp:SpreadValueAndLog"]}
{"id": "C168", "title": "Alignment checks", "statement": "CheckAlignment returns whether the address of the item is a multiple of the alignment, with or without a logging function; RequireAlignment and RequireEigenAlignment throw exactly when it is not.", "quantifier": "all addresses, alignments and logging functions", "why_tests_cant": "A test sees the few addresses its allocator hands out.", "anchors": ["include/common_robotics_utilities/utility.hpp:CheckAlignment", "include/common_robotics_utilities/utility.hpp:RequireAlignment", "include/common_robotics_utilities/utility.hpp:RequireEigenAlignment"]}
{"id": "C169", "title": "K-means averages only non-empty clusters", "statement": "The averaging function given to K-means is only asked for the average of at least one element (averages of nothing do not exist: the library's own averaging functions throw for an empty input), so its behaviour on empty clusters cannot influence the result.", "quantifier": "all data, weights, numbers of clusters, averaging functions, random draws and schedules", "why_tests_cant": "whether a cluster becomes empty depends on the whole history of passes over the data; tests use well separated data", "anchors": ["include/common_robotics_utilities/simple_kmeans_clustering.hpp: ClusterWeighted", "include/common_robotics_utilities/simple_kmeans_clustering.hpp: ComputeClusterCentersWeighted"]}
{"id": "C170", "title": "Single-path planning stops at the first solution, and planning otherwise stops only when told to", "statement": "RRTPlanSinglePath and BiRRTPlanSinglePath never ask for another sample after a state was accepted as a goal or a connection was accepted, return a non-empty path exactly when one was accepted, and otherwise return only because the termination function said so; the multi-path planners return only when the termination function says so, and return at least one path exactly when a solution was accepted.", "quantifier": "all callbacks (stateful, throwing, changing the trees where they may), all initial trees, all lengths of planning", "why_tests_cant": "a test runs one set of callbacks with one seed; the order of calls has to be right for every history of answers", "anchors": ["include/common_robotics_utilities/simple_rrt_planner.hpp:RRTPlanSinglePath", "include/common_robotics_utilities/simple_rrt_planner.hpp:BiRRTPlanSinglePath", "include/common_robotics_utilities/simple_rrt_planner.hpp:RRTPlanMultiPath", "include/common_robotics_utilities/simple_rrt_planner.hpp:BiRRTPlanMultiPath"]}
{"id": "C171", "title": "A value given to a grid's setter may be one the grid itself holds", "statement": "Giving SetIndex, SetDataIndex, ResetWithNewValue, ResetWithNewDefault, Initialize (VoxelGrid) or SetLocation (DynamicSpatialHashedVoxelGrid) a reference obtained from the same grid (a cell, the default value, the out-of-bounds value) has the effect of giving it a copy of that value. (It fails for ResetWithNewValue with a cell of the grid, Initialize with the grid's default as out-of-bounds value, and SetLocation of a chunk, or of a cell of a chunk filled as a whole, with a value of that chunk; every other use is safe.)", "quantifier": "every grid, cell, callback and reference into the grid", "why_tests_cant": "tests pass fresh values; a test that passes an own cell may still see the old memory contents", "anchors": ["include/common_robotics_utilities/voxel_grid.hpp:VoxelGridBase::ResetWithNewValue", "include/common_robotics_utilities/voxel_grid.hpp:VoxelGridBase::Initialize", "include/common_robotics_utilities/dynamic_spatial_hashed_voxel_grid.hpp:DynamicSpatialHashedVoxelGridBase::SetLocation4d"]}
{"id": "C172", "title": "Reading a hashed grid chunk by chunk agrees with reading it by location", "statement": "For every chunk of the grid (within 2^20 chunks of the origin) and every internal cell index, reading the grid at the location GetCellLocationInGridFrame gives returns what the chunk's GetIndexImmutable returns for that index; every value found by a location read is found in exactly one chunk at one index; GetChunkCenterInGridFrame lies in the chunk.", "quantifier": "every history of calls, chunk, cell index and cell size (2^-500 to 2^500), with binary64 rounding", "why_tests_cant": "the agreement depends on rounding of base plus offset for every chunk and cell", "anchors": ["include/common_robotics_utilities/dynamic_spatial_hashed_voxel_grid.hpp:DynamicSpatialHashedVoxelGridChunk::GetCellLocationInGridFrame", "include/common_robotics_utilities/dynamic_spatial_hashed_voxel_grid.hpp:DynamicSpatialHashedVoxelGridChunk::GetIndexImmutable", "include/common_robotics_utilities/dynamic_spatial_hashed_voxel_grid.hpp:DynamicSpatialHashedVoxelGridBase::GetImmutableInternalChunks"]}
{"id": "C173", "title": "Roadmap sampling is bounded and running out of tries is reported", "statement": "BuildRoadMap asks for at least one and at most max_valid_sample_tries samples per roadmap state; it either returns a roadmap, having found at least as many valid samples as states, or throws std::runtime_error, having used up all tries of some state; with duplicates allowed it returns a roadmap exactly when it found as many valid samples as states. Bad arguments throw before any callback is called.", "quantifier": "every sampling, validity, distance and edge function that returns, every provider of neighbours, size, K, number of tries and order of the parallel loops", "why_tests_cant": "depends on every sequence of sampled states and answers", "anchors": ["include/common_robotics_utilities/simple_prm_planner.hpp:BuildRoadMap", "include/common_robotics_utilities/simple_prm_planner.hpp:LinearGraphKNNProvider"]}
{"id": "C174", "title": "Grids made from lengths cover them", "statement": "GridSizes made from cell sizes and lengths have, along every axis, the least number of cells whose total size is at least the requested length; sizes are refused with std::invalid_argument exactly when a cell size or length is not positive and finite; sizes made from numbers of cells have exactly these numbers", "quantifier": "every cell size and length (all binary64 values), every number of cells", "why_tests_cant": "the number of cells is a rounded quotient rounded up: which lengths lose or gain a cell depends on the last bits of the operands", "anchors": ["include/common_robotics_utilities/voxel_grid.hpp:GridSizes::Initialize", "include/common_robotics_utilities/voxel_grid.hpp:GridSizes::GridSizes"]}
{"id": "C175", "title": "A location is put in the cell that contains it", "statement": "LocationInGridFrameToGridIndex maps every location to the cell whose cuboid contains it; locations further along an axis never get a lower index", "quantifier": "every grid and every location in the grid frame", "why_tests_cant": "the index is the floor of a rounded product with a rounded inverse; only an error analysis over all doubles says where it can be off", "anchors": ["include/common_robotics_utilities/voxel_grid.hpp:LocationInGridFrameToGridIndex4d", "include/common_robotics_utilities/voxel_grid.hpp:LocationInGridFrameToGridIndex3d"]}
{"id": "C176", "title": "Clustering gives the same result for every number of threads", "statement": "Two hierarchical clusterings of the same distances with the same strategy and bound return the same clusters in the same order and the same final distance: when no two pairs of items are equally far, for all backends, numbers of threads and schedules; with equal distances, for all runs without OpenMP (with any number of threads the result is that of one thread), and for each iteration of any loop in which lower-numbered threads take lower indices in increasing order.", "quantifier": "all distance matrices with nonnegative distances, bounds, strategies, thread counts and thread schedules", "why_tests_cant": "The winner of each search is merged from per-thread minima: a test sees a few schedules and one number of cores.", "anchors": ["include/common_robotics_utilities/simple_hierarchical_clustering.hpp: IndexClusterWithDistanceMatrix, Cluster", "include/common_robotics_utilities/parallelism.hpp: StaticParallelForRangeLoop"]}
{"id": "C177", "title": "K-means does not depend on the threads", "statement": "For one data set, one pair of distance and averaging functions and one sequence of random draws, the sets of labels ClusterWeighted and Cluster can return are the same for every build (with or without OpenMP), runtime, team size and degree of parallelism, under every schedule of the parallel loops; from the initial cluster centres on there is exactly one result.", "quantifier": "All data, weights, callbacks, draws, cluster counts, builds, team sizes, degrees of parallelism and schedules", "why_tests_cant": "The threads decide in which order every labelling and every averaging loop of every pass runs; tests see a few schedules on one machine", "anchors": ["include/common_robotics_utilities/simple_kmeans_clustering.hpp:ClusterWeighted", "include/common_robotics_utilities/simple_kmeans_clustering.hpp:Cluster", "include/common_robotics_utilities/parallelism.hpp:StaticParallelForIndexLoop"]}
{"id": "C178", "title": "Roadmaps do not depend on the order of the parallel loops", "statement": "Building a roadmap from the same samples gives the same roadmap, edge by edge, whatever the order in which the states are connected; adding a state, growing a roadmap, answering queries and updating edges have the same outcome and leave the same roadmap for every order in which the parallel loops run their items.", "quantifier": "All roadmaps, states, edge functions, providers of nearest neighbours that tell the truth and read only the states, and all orders of the items of every parallel loop", "why_tests_cant": "The order is chosen by the scheduler; a test sees a few of the n! orders", "anchors": ["include/common_robotics_utilities/simple_prm_planner.hpp:AddNodeToRoadmap", "include/common_robotics_utilities/simple_prm_planner.hpp:BuildRoadMap", "include/common_robotics_utilities/simple_prm_planner.hpp:UpdateRoadMapEdges"]}
{"id": "C179", "title": "Colour channels end up where they are asked for", "statement": "However a colour is made (any of the constructors and Make functions, from floats, bytes or a mixture) and whatever is set on it afterwards, each of red, green, blue and alpha holds what it was last given: a float limited to [0,1], or a byte that reads back as that byte and whose float value is within 2^-25 of a 255th of it; alpha is 1 when it is not given and 0 in the default colour. Setting a channel leaves the other three exactly as they were, and converting to another colour type changes nothing.", "quantifier": "every way of making a colour and every sequence of operations on it, with numbers and bytes as arguments", "why_tests_cant": "Four arguments of one type are easily exchanged, and tests with grey or with fixed colours do not see it.", "anchors": ["include/common_robotics_utilities/color_builder.hpp: RGBAColor, MakeFromFloatColors, MakeFromHexColors, MakeFromMixedColors, ConvertColor, SetR, SetRHex"]}
{"id": "C180", "title": "Grids placed anywhere in the world work like grids at the origin", "statement": "A grid whose origin transform is any rotation and translation gives, for every cell, the centre of that cell moved by the transform (up to 2^-46 of the scale of the scene), and asking for the cell at that location gives the cell back, so that reading, writing and referring by location acts on it. Any location of the world that lies well inside a cell (a quarter of its side from every face), also outside the grid, is found in that cell by all three ways of asking. This stays true after any sequence of operations, among them replacing the origin transform. A location whose fourth coordinate is not 1 is refused. A grid made without a transform is centred on the origin of the world.", "quantifier": "every grid reachable by any operations with any callbacks, every origin transform orthogonal up to 2^-48, every scale from 2^-900 to 2^900 with grid and translation at most the scale and cells at least its 2^40th part, every cell and location", "why_tests_cant": "Rotations and translations are rounded; tests take a few poses with round numbers, and a transform that is not updated together with its inverse is seen only after the pose is changed.", "anchors": ["include/common_robotics_utilities/voxel_grid.hpp:GridIndexToLocation", "include/common_robotics_utilities/voxel_grid.hpp:LocationToGridIndex4d", "include/common_robotics_utilities/voxel_grid.hpp:LocationToGridIndex3d", "include/common_robotics_utilities/voxel_grid.hpp:UpdateOriginTransform", "include/common_robotics_utilities/voxel_grid.hpp:Initialize"]}
{"id": "C181", "title": "Hashed grids placed anywhere in the world keep one value per cell", "statement": "In a hashed grid with any origin transform, two locations of the world that lie well inside the same cell read alike. Setting a cell at one of them makes the value readable at all of them; the other cells of the chunk read as they did before, or with the default value if the chunk did not exist; locations in other chunks read as before. Setting a chunk makes the value readable throughout the chunk and changes nothing elsewhere. This holds after any sequence of operations, among them replacing the origin transform, and on both sides of the origin of the grid.", "quantifier": "every hashed grid reachable by any operations, every origin transform orthogonal up to 2^-48, every scale from 2^-400 to 2^400 with chunks of at most 2^20 cells along an axis and of at least the 2^14th part of the scale, every pair of locations a quarter of a cell away from the faces", "why_tests_cant": "Which chunk and cell a rotated location belongs to is decided by rounded arithmetic, differently before and after zero; tests use a few poses and positive locations.", "anchors": ["include/common_robotics_utilities/dynamic_spatial_hashed_voxel_grid.hpp:SetLocation4d", "include/common_robotics_utilities/dynamic_spatial_hashed_voxel_grid.hpp:GetLocationImmutable4d", "include/common_robotics_utilities/dynamic_spatial_hashed_voxel_grid.hpp:GetContainingChunkRegion", "include/common_robotics_utilities/dynamic_spatial_hashed_voxel_grid.hpp:UpdateOriginTransform"]}
{"id": "C182", "title": "Nearest neighbours without ties do not depend on threads or library", "statement": "When no two items of the range are at the same distance from the query, the K nearest neighbours are the same list, entry by entry, for every implementation of std::partial_sort, for every number of threads without OpenMP under every schedule, and with OpenMP for every execution in which no thread number runs two shares.", "quantifier": "every item list, range, K, strict weak order of distances, pair of partial sort functions meeting the standard's contract, number of threads and schedule", "why_tests_cant": "Which of several correct answers is returned depends on library and schedule; a test sees one.", "anchors": ["include/common_robotics_utilities/simple_knearest_neighbors.hpp:GetKNearestNeighborsInRangeSerial", "include/common_robotics_utilities/simple_knearest_neighbors.hpp:GetKNearestNeighborsInRangeParallel", "include/common_robotics_utilities/simple_knearest_neighbors.hpp:GetKNearestNeighborsInRange"]}
{"id": "C183", "title": "Equal grid sizes are interchangeable", "statement": "Two GridSizes obtained in any way (default constructed, built from lengths or from cell counts, with cubic or other cells, or read from any byte buffer) compare equal with == exactly when they agree in everything a user can ask of them: cell lengths, cell counts, total lengths, inverse lengths, strides and totals; != is the exact opposite. UniformCellSize is true exactly when the three cell lengths are one and the same, and always when the sizes were built with a single cell length.", "quantifier": "all GridSizes obtainable from any constructor with any doubles and counts, or by deserializing any bytes", "why_tests_cant": "The comparison looks only at six of the stored fields; that the remaining fields cannot differ when these agree needs the invariants of every constructor and of deserialization over all doubles and all buffers.", "anchors": ["include/common_robotics_utilities/voxel_grid.hpp: GridSizes::operator==", "include/common_robotics_utilities/voxel_grid.hpp: GridSizes::UniformCellSize", "include/common_robotics_utilities/voxel_grid.hpp: GridSizes constructors"]}
{"id": "C184", "title": "Truncated Gaussian samples have the truncated Gaussian distribution", "statement": "For a positive deviation and non-empty bounds, finite or infinite, the numbers a TruncatedGaussianDistribution returns are distributed as the Gaussian restricted to the bounds: sampling repeats independent trials with fresh draws and returns what the first successful one returns, and the probability that a trial returns something between x and y is proportional to the Gaussian probability between x and y, for all x and y within the bounds; with finite bounds a successful trial lies between x and y with the probability IntegrateTruncatedGaussian gives.", "quantifier": "all means, positive deviations, bounds, all intervals within the bounds, all sequences of draws", "why_tests_cant": "A test can only compare finitely many samples with a histogram; the distribution is an integral over all draws for every mean, deviation and pair of bounds.", "anchors": ["include/common_robotics_utilities/gaussian_distributions.hpp: TruncatedGaussianDistribution::Sample", "include/common_robotics_utilities/gaussian_distributions.hpp: SimpleAcceptReject", "include/common_robotics_utilities/gaussian_distributions.hpp: NaiveAcceptReject"]}
{"id": "C185", "title": "Random indices are uniform up to rounding", "statement": "GetUniformRandomIndex returns the integer part of u times n, unless that product is short of the next integer by no more than one part in 2^53. Hence, of the 2^53 equally spaced numbers k/2^53 a uniform source can return, those that give one index follow each other and their number differs from the fair share 2^53/n by less than 2, and for n up to 2^52 every index is possible. The same holds for the numbers GetUniformRandomInRange returns.", "quantifier": "all sizes from 1 to 2^53 that fit the size type, all indices, all doubles in [0,1), all ranges with fewer than 2^53 + 1 numbers", "why_tests_cant": "The rounding of the product could favour or exclude single indices for some sizes; a test can neither enumerate 2^53 source values nor all sizes.", "anchors": ["include/common_robotics_utilities/utility.hpp: GetUniformRandomIndex", "include/common_robotics_utilities/utility.hpp: GetUniformRandomInRange"]}
{"id": "C186", "title": "Multivariate Gaussian samples have the mean and covariance asked for", "statement": "Every sample of a MultivariteGaussianDistribution has as many numbers as the mean and is made from that many fresh standard normal draws in order; with uncorrelated draws of mean 0 and variance 1 each number has the mean asked for and any two have the covariance asked for, for every symmetric positive semidefinite covariance, also when the Cholesky factorisation fails and the eigenvectors are used.", "quantifier": "all sizes, means, symmetric positive semidefinite covariances, all sources of draws", "why_tests_cant": "Moments of a sampler are expectations over all draws; a test only sees finitely many samples of a few covariances, and the fallback for singular covariances is rarely reached.", "anchors": ["include/common_robotics_utilities/gaussian_distributions.hpp: MultivariteGaussianDistribution::Sample", "include/common_robotics_utilities/gaussian_distributions.hpp: MultivariteGaussianDistribution::CalculateNormTransform"]}
{"id": "C187", "title": "The switching points of a path", "statement": "For every well posed list of waypoints and every path deviation, the switching points that a path reports are in order and lie on the path before its end; the points marked as discontinuities are exactly the places where a segment of the path begins, and at every other place the tangent is the derivative of the configuration, the curvature is the derivative of the tangent and is continuous; at every point that is not marked some joint has velocity zero, and wherever a joint has velocity zero the place is listed or the joint stands still around it. The next switching point after any position is the first listed one beyond it, a discontinuity if there is one at that place, and the end of the path if there is none.", "quantifier": "every dimension, every list of waypoints without repeated points and reversals, every path deviation, every position asked about, in exact arithmetic", "why_tests_cant": "a test can look at one path; that no discontinuity and no turning joint is ever missed is a statement about every point of every path, and a missed one silently makes trajectories violate the acceleration limits", "anchors": ["src/common_robotics_utilities/time_optimal_trajectory_parametrization.cpp:CircularPathSegment::GetSwitchingPoints", "src/common_robotics_utilities/time_optimal_trajectory_parametrization.cpp:Path::Path", "src/common_robotics_utilities/time_optimal_trajectory_parametrization.cpp:Path::GetNextSwitchingPoint", "src/common_robotics_utilities/time_optimal_trajectory_parametrization.cpp:Path::SwitchingPoints"]}
{"id": "C188", "title": "Planners tell their callbacks every new state and every solution once", "statement": "When planning returns there is one path for every call of the goal-reached (goal-bridge) callback, in order, each leading to the node (from the start-tree node to the goal-tree node) the callback was told; single-path planning returns the path to the first node told, and no path if the callback was not called. If the callbacks do not change the tree, the state-added callback is called exactly once for every new node, in order, with its index, and each solution is told right after its node was added, or at the start if it was in the tree given.", "quantifier": "all states, samples, user functions (random, failing, with data of their own), trees and lengths of planning; both planners, single- and multi-path", "why_tests_cant": "Needs the whole history of callback calls of an unbounded planning run, for arbitrary user functions", "anchors": ["include/common_robotics_utilities/simple_rrt_planner.hpp:RRTPlanMultiPath", "include/common_robotics_utilities/simple_rrt_planner.hpp:BiRRTPlanMultiPath", "include/common_robotics_utilities/simple_rrt_planner.hpp:RRTPlanSinglePath", "include/common_robotics_utilities/simple_rrt_planner.hpp:BiRRTPlanSinglePath"]}
{"id": "C189", "title": "Where a time-optimal profile switches", "statement": "The next switching point used beyond an arc length is the first usable minimum of the acceleration limit curve among the switching points of the path, or a point of the speed limit curve, located to a millionth, from which that curve can be followed and which lies before every such minimum; if such a minimum exists the point is also within the acceleration limit. No switching point is reported only if there is no usable minimum. Where integrating forward runs above a limit curve, the last state kept is within the limits and at most a millionth before a state that is not.", "quantifier": "all paths through well-posed waypoints of any dimension and length, all limits, all arc lengths and all amounts of work allowed to the searches (exact arithmetic)", "why_tests_cant": "tests follow a few waypoint lists and look at the final trajectory only; whether a switching point is skipped depends on the shape of the limit curves of every path", "anchors": ["src/common_robotics_utilities/time_optimal_trajectory_parametrization.cpp:GetNextSwitchingPoint", "src/common_robotics_utilities/time_optimal_trajectory_parametrization.cpp:GetNextAccelerationSwitchingPoint", "src/common_robotics_utilities/time_optimal_trajectory_parametrization.cpp:GetNextVelocitySwitchingPoint", "src/common_robotics_utilities/time_optimal_trajectory_parametrization.cpp:IntegrateForward"]}
{"id": "C190", "title": "Random rotations are uniform", "statement": "From independent draws uniform over [0, 1), GenerateUniformRandomQuaternion and GenerateUniformRandomEulerAngles (turned into a rotation by QuaternionFromRPY or QuaternionFromUrdfRPY) make uniformly distributed rotations: everywhere the map from draws to unit quaternions stretches volume by the same factor (the volume of the sphere of unit quaternions, 2 PI^2, for quaternions; half of it, which is all rotations, for Euler angles), different draws give different results, and every rotation is drawn but for a set of lower dimension (exact arithmetic; sin, cos and acos the real functions).", "quantifier": "all draws in [0, 1) and all rotations", "why_tests_cant": "a histogram of samples cannot tell uniform from nearly uniform, and misses small regions drawn twice or never", "anchors": ["include/common_robotics_utilities/random_rotation_generator.hpp:GenerateUniformRandomQuaternion", "include/common_robotics_utilities/random_rotation_generator.hpp:GenerateUniformRandomEulerAngles", "src/common_robotics_utilities/conversions.cpp:QuaternionFromRPY", "src/common_robotics_utilities/conversions.cpp:QuaternionFromUrdfRPY"]}
{"id": "C191", "title": "Printed graphs can be read back", "statement": "The text of a graph lists its nodes in order, one per line, and two graphs with the same text have the same number of nodes and, node by node, values with the same text and the same incoming and outgoing edges in the same order: both ends, the scratchpad and the text of the weight. The text of an overlay says in addition of each index whether its node is in the overlay. Texts of values contain no opening bracket.", "quantifier": "all graphs, overlays, edges, node values and weights, whatever follows the text", "why_tests_cant": "whether two different graphs are ever printed alike is a question about all pairs of graphs", "anchors": ["include/common_robotics_utilities/simple_graph.hpp:Print", "include/common_robotics_utilities/simple_graph.hpp:operator<<"]}
