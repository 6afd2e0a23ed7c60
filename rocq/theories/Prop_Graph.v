(** Properties C12-C16 (simple_graph.hpp). *)
From Coq Require Import Permutation.
From Verif Require Import Base SerializationModel SerializationSpec SerializationProof
  ParallelismModel GraphModel GraphSpec GraphProof GraphProof2.
Local Open Scope Z_scope.

(** C12: whatever sequence of node-value and edge additions (failed calls and
    reads included) is run on an empty graph, the result is linked. *)
Theorem C12_built_graphs_are_linked :
  forall (V W : Type) (ops : list (op V W)), Forall building ops ->
  linked (snd (run_ops graph_op [] ops)) /\ consistent (snd (run_ops graph_op [] ops)).
Proof. exact (@build_linked). Qed.
Print Assumptions C12_built_graphs_are_linked.

(** C12: also from any linked graph (deserialized, pruned, ...). *)
Theorem C12_additions_keep_graphs_linked :
  forall (V W : Type) (ops : list (op V W)) g, Forall building ops -> linked g ->
  linked (snd (run_ops graph_op g ops)).
Proof. exact (@keep_linked). Qed.
Print Assumptions C12_additions_keep_graphs_linked.

(** C12: exact effect of adding an edge; otherwise an exception. *)
Theorem C12_add_edge_effect :
  forall (V W : Type) (g : list (GraphNode V W)) a b w,
  (0 <= a < Size g -> 0 <= b < Size g -> a <> b ->
   exists g', AddEdgeBetweenNodes g a b w = Ok g' /\ length g' = length g /\
     forall i n, node_at g i n -> node_at g' i
       (mkNode (value n) (in_edges n ++ (if i =? b then [mkEdge a b w 0%N] else []))
                         (out_edges n ++ (if i =? a then [mkEdge a b w 0%N] else [])))) /\
  (~ (0 <= a < Size g /\ 0 <= b < Size g /\ a <> b) ->
   exists e, AddEdgeBetweenNodes g a b w = Throw e).
Proof. exact (@add_edge_effect). Qed.
Print Assumptions C12_add_edge_effect.

(** C12: adding edges both ways is adding one edge and then the reverse edge. *)
Theorem C12_add_edges_effect :
  forall (V W : Type) (g : list (GraphNode V W)) a b w,
  AddEdgesBetweenNodes g a b w =
  do g1 <- AddEdgeBetweenNodes g a b w; AddEdgeBetweenNodes g1 b a w.
Proof. exact (@add_edges_effect). Qed.
Print Assumptions C12_add_edges_effect.

Example C12_nonvacuous : Forall building sample_ops /\ length sample_graph = 3%nat /\
  map (fun n => length (out_edges n)) sample_graph = [2; 0; 2]%nat.
Proof. exact sample_building. Qed.

(** C13: the linkage check decides consistency of every node list. *)
Theorem C13_linkage_check_exact :
  forall (V W : Type) (g : list (GraphNode V W)),
  exists b, CheckGraphLinkage (as_graph_like g) = Ok b /\ (b = true <-> consistent g).
Proof. exact (@linkage_check). Qed.
Print Assumptions C13_linkage_check_exact.

(** C13: constructing a graph from nodes accepts exactly the consistent ones. *)
Theorem C13_graph_from_nodes :
  forall (V W : Type) (g : list (GraphNode V W)),
  (consistent g /\ GraphFromNodes g = Ok g) \/
  (~ consistent g /\ GraphFromNodes g = Throw InvalidArgument).
Proof. exact (@from_nodes). Qed.
Print Assumptions C13_graph_from_nodes.

Example C13_nonvacuous_good : linked sample_graph.
Proof. exact sample_linked. Qed.
Example C13_nonvacuous_bad : ~ consistent bad_graph.
Proof. exact bad_inconsistent. Qed.

(** C14: whatever order the parallel pass runs in, pruning gives the surviving
    nodes in order with exactly the surviving edges renumbered, and keeps the
    graph consistent. *)
Theorem C14_prune :
  forall (V W : Type) (g : list (GraphNode V W)) prune order, consistent g ->
  NoDup prune -> (forall p, In p prune -> 0 <= p < Size g) ->
  Permutation order (seqZ 0 (Size g - Z.of_nat (length prune))) ->
  exists g', PruneGraph (as_graph_like g) prune order = Ok g' /\ is_pruning_of prune g g' /\
    consistent g' /\ (linked g -> linked g').
Proof. exact (@prune_graph). Qed.
Print Assumptions C14_prune.

(** C14: the parallel schedule does not matter. *)
Theorem C14_prune_schedule_independent :
  forall (V W : Type) (g : list (GraphNode V W)) prune o1 o2, consistent g ->
  NoDup prune -> (forall p, In p prune -> 0 <= p < Size g) ->
  Permutation o1 (seqZ 0 (Size g - Z.of_nat (length prune))) ->
  Permutation o2 (seqZ 0 (Size g - Z.of_nat (length prune))) ->
  PruneGraph (as_graph_like g) prune o1 = PruneGraph (as_graph_like g) prune o2.
Proof. exact (@prune_order_free). Qed.
Print Assumptions C14_prune_schedule_independent.

Example C14_nonvacuous : let P := [1] in consistent sample_graph /\ NoDup P /\
  (forall p, In p P -> 0 <= p < Size sample_graph) /\
  Permutation [1; 0] (seqZ 0 (Size sample_graph - Z.of_nat (length P))) /\
  PruneGraph (as_graph_like sample_graph) P [1; 0] =
    Ok [mkNode 10 [mkEdge 1 0 5 0%N] [mkEdge 0 1 5 0%N]; mkNode 30 [mkEdge 0 1 5 0%N] [mkEdge 1 0 5 0%N]].
Proof. exact sample_prune. Qed.

(** C15: any operation sequence on an overlay gives the results of the same
    sequence on a copy (exceptions may differ in class), reads agree afterwards,
    and the base is what it was. The base may itself be an overlay. *)
Theorem C15_overlay_is_a_private_copy :
  forall (V W : Type) (base : graph_like V W) (g : list (GraphNode V W)) ops,
  gl_size base = Size g -> (forall i, gl_get base i = GetNode g i) ->
  Forall2 same_result (fst (run_ops graph_op g ops)) (fst (run_ops overlay_op (MakeOverlay base) ops)) /\
  base_graph (snd (run_ops overlay_op (MakeOverlay base) ops)) = base /\
  overlay_size (snd (run_ops overlay_op (MakeOverlay base) ops)) = Size (snd (run_ops graph_op g ops)) /\
  (forall i, OverlayGetNode (snd (run_ops overlay_op (MakeOverlay base) ops)) i =
             GetNode (snd (run_ops graph_op g ops)) i).
Proof. exact (@overlay_like_copy). Qed.
Print Assumptions C15_overlay_is_a_private_copy.

Example C15_nonvacuous :
  fst (run_ops overlay_op (MakeOverlay (as_graph_like sample_graph)) [OpAddEdge 1 0 9; OpRead 1; OpRead 2; OpSize]) =
  [Ok RUnit; Ok (RNode (mkNode 20 [mkEdge 2 1 7 0%N; mkEdge 0 1 4 0%N] [mkEdge 1 0 9 0%N]));
   (do n <- GetNode sample_graph 2; Ok (RNode n)); Ok (RIndex 3)].
Proof. exact overlay_sample. Qed.

(** C16: a serialized graph comes back equal if it is consistent and is refused
    otherwise, with any bytes around it. *)
Theorem C16_graph_round_trip :
  forall (V W : Type) (le : bool) (maxn maxe : N) (dbl : memcpyable W) domw sv dv domv
    (g : list (GraphNode V W)) before after,
  lawful dbl domw -> round_trips (T := V) sv dv domv -> graph_ok maxn maxe domv domw g ->
  fits_vector (snd (SerializeGraph le dbl sv g before) ++ after) ->
  (exists bytes, bytes <> [] /\ snd (SerializeGraph le dbl sv g before) = before ++ bytes /\
     fst (SerializeGraph le dbl sv g before) = len64 bytes) /\
  (consistent g ->
     DeserializeGraph le maxn maxe dbl dv (snd (SerializeGraph le dbl sv g before) ++ after) (len64 before)
     = Ok (g, fst (SerializeGraph le dbl sv g before))) /\
  (~ consistent g ->
     DeserializeGraph le maxn maxe dbl dv (snd (SerializeGraph le dbl sv g before) ++ after) (len64 before)
     = Throw InvalidArgument).
Proof. exact (@graph_serialization). Qed.
Print Assumptions C16_graph_round_trip.

(** C16: from arbitrary bytes deserialization throws or returns a consistent
    graph, and never reads outside the buffer. *)
Theorem C16_graph_from_any_bytes :
  forall (V W : Type) (le : bool) (maxn maxe : N) (dbl : memcpyable W) (dv : Deserializer V) buf off,
  (0 < msize dbl)%nat -> (N.of_nat (msize dbl) < 2 ^ 63)%N -> stays_inside dv ->
  is_bytes buf -> fits_vector buf -> (off < 2 ^ 64)%N ->
  (exists e, DeserializeGraph le maxn maxe dbl dv buf off = Throw e) \/
  (exists g n, DeserializeGraph le maxn maxe dbl dv buf off = Ok (g, n) /\ consistent g /\
     (0 < n)%N /\ (off + n <= len64 buf)%N).
Proof. exact (@graph_hostile). Qed.
Print Assumptions C16_graph_from_any_bytes.

Example C16_nonvacuous : forall le,
  lawful (int64_rep le) int64_ok /\
  round_trips (SerializeMemcpyable (int64_rep le)) (DeserializeMemcpyable (int64_rep le)) int64_ok /\
  graph_ok 100 100 int64_ok int64_ok sample_graph /\ consistent sample_graph /\
  fits_vector (snd (SerializeGraph le (int64_rep le) (SerializeMemcpyable (int64_rep le)) sample_graph [1%N; 2%N]) ++ [3%N]).
Proof. exact graph_ser_sample. Qed.
