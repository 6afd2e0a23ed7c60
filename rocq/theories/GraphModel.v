(** Model of include/common_robotics_utilities/simple_graph.hpp.

    Indices are int64_t values (Z).  Node values and edge weights are abstract
    types [V] and [W]. Memory exhaustion (std::bad_alloc while a vector grows)
    is not modelled. Print and operator<< are not modelled. *)
From Verif Require Import Base SerializationModel ParallelismModel.
Local Open Scope Z_scope.

(** GraphEdge, simple_graph.hpp:25-141. *)
Record GraphEdge (W : Type) : Type := mkEdge {
  from_index : Z; to_index : Z; weight : W; scratchpad : N }.
Arguments mkEdge {W} _ _ _ _.
Arguments from_index {W} _. Arguments to_index {W} _.
Arguments weight {W} _. Arguments scratchpad {W} _.

(** GraphNode, simple_graph.hpp:144-298. *)
Record GraphNode (V W : Type) : Type := mkNode {
  value : V; in_edges : list (GraphEdge W); out_edges : list (GraphEdge W) }.
Arguments mkNode {V W} _ _ _.
Arguments value {V W} _. Arguments in_edges {V W} _. Arguments out_edges {V W} _.

(** GraphEdge::SetFromIndex, SetToIndex, SetWeight, simple_graph.hpp:128-135. *)
Definition SetFromIndex {W} (e : GraphEdge W) (i : Z) : GraphEdge W :=
  mkEdge i (to_index e) (weight e) (scratchpad e).
Definition SetToIndex {W} (e : GraphEdge W) (i : Z) : GraphEdge W :=
  mkEdge (from_index e) i (weight e) (scratchpad e).
Definition SetWeight {W} (e : GraphEdge W) (w : W) : GraphEdge W :=
  mkEdge (from_index e) (to_index e) w (scratchpad e).

(** GraphNode::AddInEdge, AddOutEdge, simple_graph.hpp:262-270. *)
Definition AddInEdge {V W} (n : GraphNode V W) (e : GraphEdge W) : GraphNode V W :=
  mkNode (value n) (in_edges n ++ [e]) (out_edges n).
Definition AddOutEdge {V W} (n : GraphNode V W) (e : GraphEdge W) : GraphNode V W :=
  mkNode (value n) (in_edges n) (out_edges n ++ [e]).

(** Graph: its nodes_ vector, simple_graph.hpp:549-759. *)
Notation Graph V W := (list (GraphNode V W)) (only parsing).

(** What the algorithms use of a graph or overlay: Size() and
    GetNodeImmutable(index). *)
Record graph_like (V W : Type) : Type := mkGraphLike {
  gl_size : Z; gl_get : Z -> outcome (GraphNode V W) }.
Arguments mkGraphLike {V W} _ _. Arguments gl_size {V W} _. Arguments gl_get {V W} _ _.

(** Graph::Size, simple_graph.hpp:679. *)
Definition Size {V W} (g : Graph V W) : Z := Z.of_nat (length g).

(** Graph::IndexInRange, simple_graph.hpp:681-691. *)
Definition IndexInRange (size index : Z) : bool := (0 <=? index) && (index <? size).

(** Graph::GetNodeImmutable / GetNodeMutable, simple_graph.hpp:702-710: the cast
    of a negative index to size_t is out of range as well. *)
Definition GetNode {V W} (g : Graph V W) (index : Z) : outcome (GraphNode V W) :=
  if index <? 0 then Throw OutOfRange else at_get g (Z.to_nat index).

(** Modification of a node through the reference returned by GetNodeMutable. *)
Definition UpdateNode {V W} (g : Graph V W) (index : Z)
    (f : GraphNode V W -> GraphNode V W) : outcome (Graph V W) :=
  do n <- GetNode g index; at_set g (Z.to_nat index) (f n).

Definition as_graph_like {V W} (g : Graph V W) : graph_like V W :=
  mkGraphLike (Size g) (GetNode g).

(** Graph::AddNode(const NodeType&), simple_graph.hpp:712-716. *)
Definition AddNode {V W} (g : Graph V W) (n : GraphNode V W) : Z * Graph V W :=
  let g' := g ++ [n] in (Size g' - 1, g').

(** Graph::AddNode(const NodeValueType&), simple_graph.hpp:718-722. *)
Definition AddNodeValue {V W} (g : Graph V W) (v : V) : Z * Graph V W :=
  AddNode g (mkNode v [] []).

(** Graph::AddEdgeBetweenNodes, simple_graph.hpp:724-738. *)
Definition AddEdgeBetweenNodes {V W} (g : Graph V W) (from to : Z) (w : W)
    : outcome (Graph V W) :=
  do _ <- GetNode g from;
  do _ <- GetNode g to;
  if from =? to then Throw InvalidArgument
  else
    let new_edge := mkEdge from to w 0%N in
    do g1 <- UpdateNode g from (fun n => AddOutEdge n new_edge);
    UpdateNode g1 to (fun n => AddInEdge n new_edge).

(** Graph::AddEdgesBetweenNodes, simple_graph.hpp:740-758. *)
Definition AddEdgesBetweenNodes {V W} (g : Graph V W) (first second : Z) (w : W)
    : outcome (Graph V W) :=
  do _ <- GetNode g first;
  do _ <- GetNode g second;
  if first =? second then Throw InvalidArgument
  else
    let first_edge := mkEdge first second w 0%N in
    let second_edge := mkEdge second first w 0%N in
    do g1 <- UpdateNode g first (fun n => AddOutEdge n first_edge);
    do g2 <- UpdateNode g1 second (fun n => AddInEdge n first_edge);
    do g3 <- UpdateNode g2 second (fun n => AddOutEdge n second_edge);
    UpdateNode g3 first (fun n => AddInEdge n second_edge).

(** Loop over the in edges in CheckGraphLinkage, simple_graph.hpp:344-380. *)
Fixpoint check_in_edges {V W} (g : graph_like V W) (idx : Z) (edges : list (GraphEdge W))
    : outcome bool :=
  match edges with
  | [] => Ok true
  | e :: rest =>
    if (from_index e <? 0) || (gl_size g <=? from_index e) then Ok false
    else if negb (to_index e =? idx) then Ok false
    else if from_index e =? to_index e then Ok false
    else
      do from_node <- gl_get g (from_index e);
      if existsb (fun o => to_index o =? idx) (out_edges from_node)
      then check_in_edges g idx rest else Ok false
  end.

(** Loop over the out edges in CheckGraphLinkage, simple_graph.hpp:381-419. *)
Fixpoint check_out_edges {V W} (g : graph_like V W) (idx : Z) (edges : list (GraphEdge W))
    : outcome bool :=
  match edges with
  | [] => Ok true
  | e :: rest =>
    if negb (from_index e =? idx) then Ok false
    else if (to_index e <? 0) || (gl_size g <=? to_index e) then Ok false
    else if from_index e =? to_index e then Ok false
    else
      do to_node <- gl_get g (to_index e);
      if existsb (fun i => from_index i =? idx) (in_edges to_node)
      then check_out_edges g idx rest else Ok false
  end.

(** Loop over the nodes in CheckGraphLinkage, simple_graph.hpp:338-421. *)
Fixpoint check_nodes {V W} (g : graph_like V W) (indices : list Z) : outcome bool :=
  match indices with
  | [] => Ok true
  | idx :: rest =>
    do current_node <- gl_get g idx;
    do a <- check_in_edges g idx (in_edges current_node);
    if negb a then Ok false
    else
      do b <- check_out_edges g idx (out_edges current_node);
      if negb b then Ok false else check_nodes g rest
  end.

(** CheckGraphLinkage, simple_graph.hpp:335-422. *)
Definition CheckGraphLinkage {V W} (g : graph_like V W) : outcome bool :=
  check_nodes g (seqZ 0 (gl_size g)).

(** Graph(const NodeVector&), simple_graph.hpp:582-595. *)
Definition GraphFromNodes {V W} (nodes : list (GraphNode V W)) : outcome (Graph V W) :=
  do ok <- CheckGraphLinkage (as_graph_like nodes);
  if (ok : bool) then Ok nodes else Throw InvalidArgument.

(** std::sort of the node numbers, simple_graph.hpp:434: any sorting function
    gives the same result on int64_t values; insertion sort here. *)
Fixpoint insertZ (x : Z) (l : list Z) : list Z :=
  match l with
  | [] => [x]
  | y :: r => if x <=? y then x :: l else y :: insertZ x r
  end.
Definition sortZ (l : list Z) : list Z := fold_right insertZ [] l.

(** nodes_to_prune.count(x) *)
Definition set_count (x : Z) (s : list Z) : bool := existsb (Z.eqb x) s.

(** Renumbering loop of PruneGraph, simple_graph.hpp:472-490 and 512-530. *)
Fixpoint renumber (sorted : list Z) (original new_index : Z) : outcome Z :=
  match sorted with
  | [] => Ok new_index
  | p :: rest =>
    if p <? original then renumber rest original (new_index - 1)
    else if original <? p then Ok new_index
    else Throw RuntimeError
  end.

(** In-edge loop of per_item_work, simple_graph.hpp:461-495. *)
Fixpoint prune_in_edges {W} (prune sorted : list Z) (kept : Z) (edges : list (GraphEdge W))
    : outcome (list (GraphEdge W)) :=
  match edges with
  | [] => Ok []
  | e :: rest =>
    if set_count (from_index e) prune then prune_in_edges prune sorted kept rest
    else
      do new_from <- renumber sorted (from_index e) (from_index e);
      do r <- prune_in_edges prune sorted kept rest;
      Ok (SetFromIndex (SetToIndex e kept) new_from :: r)
  end.

(** Out-edge loop of per_item_work, simple_graph.hpp:501-535. *)
Fixpoint prune_out_edges {W} (prune sorted : list Z) (kept : Z) (edges : list (GraphEdge W))
    : outcome (list (GraphEdge W)) :=
  match edges with
  | [] => Ok []
  | e :: rest =>
    if set_count (to_index e) prune then prune_out_edges prune sorted kept rest
    else
      do new_to <- renumber sorted (to_index e) (to_index e);
      do r <- prune_out_edges prune sorted kept rest;
      Ok (SetToIndex (SetFromIndex e kept) new_to :: r)
  end.

(** per_item_work of PruneGraph, simple_graph.hpp:453-540; [g] is pruned_graph. *)
Definition prune_item {V W} (prune sorted : list Z) (g : Graph V W) (kept : Z)
    : outcome (Graph V W) :=
  do n <- GetNode g kept;
  do ins <- prune_in_edges prune sorted kept (in_edges n);
  do outs <- prune_out_edges prune sorted kept (out_edges n);
  UpdateNode g kept (fun n => mkNode (value n) ins outs).

(** First pass of PruneGraph, simple_graph.hpp:441-449. *)
Definition prune_nodes {V W} (g : graph_like V W) (prune : list Z) : outcome (Graph V W) :=
  mfold (fun acc idx =>
           if set_count idx prune then Ok acc
           else do n <- gl_get g idx; Ok (snd (AddNode acc n)))
        [] (seqZ 0 (gl_size g)).

(** PruneGraph, simple_graph.hpp:424-547. [prune] lists the distinct members of
    the unordered_set in iteration order.  The second pass is a
    StaticParallelForIndexLoop, which runs each item once in some order
    ([order]); items touch disjoint nodes.  reserve() of a negative size throws
    std::length_error. *)
Definition PruneGraph {V W} (g : graph_like V W) (prune : list Z) (order : list Z)
    : outcome (Graph V W) :=
  let sorted := sortZ prune in
  if gl_size g - Z.of_nat (length prune) <? 0 then Throw LengthError
  else
    do kept <- prune_nodes g prune;
    mfold (prune_item prune sorted) kept order.

(** NonOwningGraphOverlay, simple_graph.hpp:761-775: base graph (read only),
    overlay_ map as an association list with distinct keys, size_. *)
Record GraphOverlay (V W : Type) : Type := mkOverlay {
  base_graph : graph_like V W;
  overlay : list (Z * GraphNode V W);
  overlay_size : Z }.
Arguments mkOverlay {V W} _ _ _. Arguments base_graph {V W} _.
Arguments overlay {V W} _. Arguments overlay_size {V W} _.

(** NonOwningGraphOverlay(const GraphType&), simple_graph.hpp:781-796. *)
Definition MakeOverlay {V W} (g : graph_like V W) : GraphOverlay V W :=
  mkOverlay g [] (gl_size g).

Fixpoint omap_find {A} (k : Z) (m : list (Z * A)) : option A :=
  match m with
  | [] => None
  | (k', v) :: r => if k =? k' then Some v else omap_find k r
  end.

Fixpoint omap_set {A} (k : Z) (v : A) (m : list (Z * A)) : list (Z * A) :=
  match m with
  | [] => []
  | (k', v') :: r => if k =? k' then (k, v) :: r else (k', v') :: omap_set k v r
  end.

(** unordered_map::emplace: no effect if the key is present. *)
Definition omap_emplace {A} (k : Z) (v : A) (m : list (Z * A)) : list (Z * A) :=
  match omap_find k m with Some _ => m | None => m ++ [(k, v)] end.

(** NonOwningGraphOverlay::GetNodeImmutable, simple_graph.hpp:819-830. *)
Definition OverlayGetNode {V W} (o : GraphOverlay V W) (index : Z) : outcome (GraphNode V W) :=
  match omap_find index (overlay o) with
  | Some n => Ok n
  | None => gl_get (base_graph o) index
  end.

Definition overlay_graph_like {V W} (o : GraphOverlay V W) : graph_like V W :=
  mkGraphLike (overlay_size o) (OverlayGetNode o).

(** NonOwningGraphOverlay::GetNodeMutable, simple_graph.hpp:832-847: migrate the
    node to the overlay. *)
Definition OverlayMigrate {V W} (o : GraphOverlay V W) (index : Z) : outcome (GraphOverlay V W) :=
  match omap_find index (overlay o) with
  | Some _ => Ok o
  | None =>
    do n <- gl_get (base_graph o) index;
    Ok (mkOverlay (base_graph o) (omap_emplace index n (overlay o)) (overlay_size o))
  end.

(** Modification through a reference into the overlay map. *)
Definition OverlayModify {V W} (o : GraphOverlay V W) (index : Z)
    (f : GraphNode V W -> GraphNode V W) : outcome (GraphOverlay V W) :=
  match omap_find index (overlay o) with
  | Some n => Ok (mkOverlay (base_graph o) (omap_set index (f n) (overlay o)) (overlay_size o))
  | None => UB
  end.

(** GetNodeMutable followed by a modification. *)
Definition OverlayUpdateNode {V W} (o : GraphOverlay V W) (index : Z)
    (f : GraphNode V W -> GraphNode V W) : outcome (GraphOverlay V W) :=
  do o1 <- OverlayMigrate o index; OverlayModify o1 index f.

(** NonOwningGraphOverlay::AddNode, simple_graph.hpp:849-863. *)
Definition OverlayAddNode {V W} (o : GraphOverlay V W) (n : GraphNode V W)
    : Z * GraphOverlay V W :=
  (overlay_size o,
   mkOverlay (base_graph o) (omap_emplace (overlay_size o) n (overlay o)) (overlay_size o + 1)).

(** NonOwningGraphOverlay::AddEdgeBetweenNodes, simple_graph.hpp:865-887. *)
Definition OverlayAddEdge {V W} (o : GraphOverlay V W) (from to : Z) (w : W)
    : outcome (GraphOverlay V W) :=
  if from =? to then Throw InvalidArgument
  else if negb (IndexInRange (overlay_size o) from) || negb (IndexInRange (overlay_size o) to)
  then Throw InvalidArgument
  else
    let new_edge := mkEdge from to w 0%N in
    do o1 <- OverlayMigrate o from;
    do o2 <- OverlayMigrate o1 to;
    do o3 <- OverlayModify o2 from (fun n => AddOutEdge n new_edge);
    OverlayModify o3 to (fun n => AddInEdge n new_edge).

(** NonOwningGraphOverlay::AddEdgesBetweenNodes, simple_graph.hpp:889-916. *)
Definition OverlayAddEdges {V W} (o : GraphOverlay V W) (first second : Z) (w : W)
    : outcome (GraphOverlay V W) :=
  if first =? second then Throw InvalidArgument
  else if negb (IndexInRange (overlay_size o) first) || negb (IndexInRange (overlay_size o) second)
  then Throw InvalidArgument
  else
    let first_edge := mkEdge first second w 0%N in
    let second_edge := mkEdge second first w 0%N in
    do o1 <- OverlayMigrate o first;
    do o2 <- OverlayMigrate o1 second;
    do o3 <- OverlayModify o2 first (fun n => AddOutEdge n first_edge);
    do o4 <- OverlayModify o3 second (fun n => AddInEdge n first_edge);
    do o5 <- OverlayModify o4 second (fun n => AddOutEdge n second_edge);
    OverlayModify o5 first (fun n => AddInEdge n second_edge).

(** int64_t as a bit pattern and back. *)
Definition int64_to_bits (z : Z) : N := Z.to_N (z mod 2 ^ 64).
Definition int64_of_bits (n : N) : Z :=
  if Z.of_N n <? 2 ^ 63 then Z.of_N n else Z.of_N n - 2 ^ 64.
Definition int64_rep (le : bool) : memcpyable Z :=
  {| msize := 8; to_obj := fun z => to_obj (uint_rep le 8) (int64_to_bits z);
     of_obj := fun b => int64_of_bits (of_obj (uint_rep le 8) b) |}.

(** GraphEdge::SerializeSelf, simple_graph.hpp:63-74; weights are memcpy-able
    ([dbl] is the representation of double). *)
Definition SerializeEdge {W} (le : bool) (dbl : memcpyable W) : Serializer (GraphEdge W) :=
  fun e buf =>
    let b1 := snd (SerializeMemcpyable (int64_rep le) (from_index e) buf) in
    let b2 := snd (SerializeMemcpyable (int64_rep le) (to_index e) b1) in
    let b3 := snd (SerializeMemcpyable dbl (weight e) b2) in
    let b4 := snd (SerializeMemcpyable (uint_rep le 8) (scratchpad e) b3) in
    written buf b4.

(** GraphEdge::DeserializeSelf and Deserialize, simple_graph.hpp:39-46, 76-103. *)
Definition DeserializeEdge {W} (le : bool) (dbl : memcpyable W) : Deserializer (GraphEdge W) :=
  fun buf off =>
    do (f, n1) <- DeserializeMemcpyable (int64_rep le) buf off;
    let p1 := wrap (off + n1) in
    do (t, n2) <- DeserializeMemcpyable (int64_rep le) buf p1;
    let p2 := wrap (p1 + n2) in
    do (w, n3) <- DeserializeMemcpyable dbl buf p2;
    let p3 := wrap (p2 + n3) in
    do (s, n4) <- DeserializeMemcpyable (uint_rep le 8) buf p3;
    let p4 := wrap (p3 + n4) in
    MakeDeserialized (mkEdge f t w s) (sub64 p4 off).

(** GraphNode::SerializeSelf, simple_graph.hpp:187-204. *)
Definition SerializeNode {V W} (le : bool) (dbl : memcpyable W) (sv : Serializer V)
    : Serializer (GraphNode V W) :=
  fun n buf =>
    let b1 := snd (sv (value n) buf) in
    let b2 := snd (SerializeVectorLike false le (SerializeEdge le dbl) (in_edges n) b1) in
    let b3 := snd (SerializeVectorLike false le (SerializeEdge le dbl) (out_edges n) b2) in
    written buf b3.

(** GraphNode::DeserializeSelf and Deserialize, simple_graph.hpp:167-176,
    206-231; [maxe] is max_size() of the edge vectors. *)
Definition DeserializeNode {V W} (le : bool) (maxe : N) (dbl : memcpyable W) (dv : Deserializer V)
    : Deserializer (GraphNode V W) :=
  fun buf off =>
    do (v, n1) <- dv buf off;
    let p1 := wrap (off + n1) in
    do (ins, n2) <- DeserializeVectorLike false le maxe (DeserializeEdge le dbl) buf p1;
    let p2 := wrap (p1 + n2) in
    do (outs, n3) <- DeserializeVectorLike false le maxe (DeserializeEdge le dbl) buf p2;
    let p3 := wrap (p2 + n3) in
    MakeDeserialized (mkNode v ins outs) (sub64 p3 off).

(** Graph::SerializeSelf, simple_graph.hpp:604-620. *)
Definition SerializeGraph {V W} (le : bool) (dbl : memcpyable W) (sv : Serializer V)
    : Serializer (Graph V W) :=
  fun g buf => written buf (snd (SerializeVectorLike false le (SerializeNode le dbl sv) g buf)).

(** Graph::DeserializeSelf and Deserialize, simple_graph.hpp:571-580, 622-649. *)
Definition DeserializeGraph {V W} (le : bool) (maxn maxe : N) (dbl : memcpyable W)
    (dv : Deserializer V) : Deserializer (Graph V W) :=
  fun buf off =>
    do (nodes, n) <- DeserializeVectorLike false le maxn (DeserializeNode le maxe dbl dv) buf off;
    do ok <- CheckGraphLinkage (as_graph_like nodes);
    if (ok : bool) then MakeDeserialized nodes n else Throw InvalidArgument.
