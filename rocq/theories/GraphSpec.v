(** Specification vocabulary for graphs (C12-C16). *)
From Verif Require Import Base GraphModel SerializationModel SerializationSpec.
Local Open Scope Z_scope.

(** Node number [i] of the node list is [n]. *)
Definition node_at {V W} (g : list (GraphNode V W)) (i : Z) (n : GraphNode V W) : Prop :=
  0 <= i /\ nth_error g (Z.to_nat i) = Some n.

(** Strong consistency of a graph built by the library: every edge leaves the
    node that lists it as out edge, enters the node that lists it as in edge,
    joins two different existing nodes, and between any two nodes the list of
    out edges of the one is the list of in edges of the other. *)
Definition linked {V W} (g : list (GraphNode V W)) : Prop :=
  (forall i n e, node_at g i n -> In e (out_edges n) ->
     from_index e = i /\ to_index e <> i /\ exists m, node_at g (to_index e) m) /\
  (forall i n e, node_at g i n -> In e (in_edges n) ->
     to_index e = i /\ from_index e <> i /\ exists m, node_at g (from_index e) m) /\
  (forall i j n m, node_at g i n -> node_at g j m ->
     filter (fun e => to_index e =? j) (out_edges n) =
     filter (fun e => from_index e =? i) (in_edges m)).

(** Linkage as CheckGraphLinkage documents it: the opposite node must list some
    edge back. *)
Definition consistent {V W} (g : list (GraphNode V W)) : Prop :=
  (forall i n e, node_at g i n -> In e (in_edges n) ->
     to_index e = i /\ from_index e <> i /\
     exists m, node_at g (from_index e) m /\ exists o, In o (out_edges m) /\ to_index o = i) /\
  (forall i n e, node_at g i n -> In e (out_edges n) ->
     from_index e = i /\ to_index e <> i /\
     exists m, node_at g (to_index e) m /\ exists o, In o (in_edges m) /\ from_index o = i).

(** Client programs: what a user can do with a graph or an overlay. *)
Inductive op (V W : Type) : Type :=
| OpAddValue (v : V)
| OpAddNode (n : GraphNode V W)
| OpAddEdge (from to : Z) (w : W)
| OpAddEdges (first second : Z) (w : W)
| OpRead (i : Z)
| OpWrite (i : Z) (f : GraphNode V W -> GraphNode V W)
| OpSize
| OpInRange (i : Z)
| OpCheckLinkage.
Arguments OpAddValue {V W} _. Arguments OpAddNode {V W} _. Arguments OpAddEdge {V W} _ _ _.
Arguments OpAddEdges {V W} _ _ _. Arguments OpRead {V W} _. Arguments OpWrite {V W} _ _.
Arguments OpSize {V W}. Arguments OpInRange {V W} _. Arguments OpCheckLinkage {V W}.

Inductive result (V W : Type) : Type :=
| RUnit | RIndex (i : Z) | RNode (n : GraphNode V W) | RBool (b : bool).
Arguments RUnit {V W}. Arguments RIndex {V W} _. Arguments RNode {V W} _. Arguments RBool {V W} _.

(** A call that fails leaves the object as it was. *)
Definition or_keep {A R} (s : A) (r : R) (x : outcome A) : outcome R * A :=
  match x with Ok s' => (Ok r, s') | Throw e => (Throw e, s) | UB => (UB, s) | Diverge => (Diverge, s) end.

Definition map_ok {A B} (f : A -> B) (x : outcome A) : outcome B := do a <- x; Ok (f a).

(** One operation on a graph object. *)
Definition graph_op {V W} (g : list (GraphNode V W)) (o : op V W)
    : outcome (result V W) * list (GraphNode V W) :=
  match o with
  | OpAddValue v => let (i, g') := AddNodeValue g v in (Ok (RIndex i), g')
  | OpAddNode n => let (i, g') := AddNode g n in (Ok (RIndex i), g')
  | OpAddEdge a b w => or_keep g RUnit (AddEdgeBetweenNodes g a b w)
  | OpAddEdges a b w => or_keep g RUnit (AddEdgesBetweenNodes g a b w)
  | OpRead i => (map_ok RNode (GetNode g i), g)
  | OpWrite i f => or_keep g RUnit (UpdateNode g i f)
  | OpSize => (Ok (RIndex (Size g)), g)
  | OpInRange i => (Ok (RBool (IndexInRange (Size g) i)), g)
  | OpCheckLinkage => (map_ok RBool (CheckGraphLinkage (as_graph_like g)), g)
  end.

(** The same operation on an overlay. *)
Definition overlay_op {V W} (g : GraphOverlay V W) (o : op V W)
    : outcome (result V W) * GraphOverlay V W :=
  match o with
  | OpAddValue v => let (i, g') := OverlayAddNode g (mkNode v [] []) in (Ok (RIndex i), g')
  | OpAddNode n => let (i, g') := OverlayAddNode g n in (Ok (RIndex i), g')
  | OpAddEdge a b w => or_keep g RUnit (OverlayAddEdge g a b w)
  | OpAddEdges a b w => or_keep g RUnit (OverlayAddEdges g a b w)
  | OpRead i => (map_ok RNode (OverlayGetNode g i), g)
  | OpWrite i f => or_keep g RUnit (OverlayUpdateNode g i f)
  | OpSize => (Ok (RIndex (overlay_size g)), g)
  | OpInRange i => (Ok (RBool (IndexInRange (overlay_size g) i)), g)
  | OpCheckLinkage => (map_ok RBool (CheckGraphLinkage (overlay_graph_like g)), g)
  end.

(** Run a sequence, collecting the results. *)
Fixpoint run_ops {S O R} (step : S -> O -> outcome R * S) (s : S) (ops : list O)
    : list (outcome R) * S :=
  match ops with
  | [] => ([], s)
  | o :: rest =>
    let (r, s1) := step s o in
    let (rs, s2) := run_ops step s1 rest in (r :: rs, s2)
  end.

(** Equal values, or both an exception. *)
Definition same_result {R} (a b : outcome R) : Prop :=
  match a, b with
  | Ok x, Ok y => x = y
  | Throw _, Throw _ => True
  | _, _ => False
  end.

(** Operations that build a graph from values and edges (no prebuilt nodes, no
    mutable references). *)
Definition building {V W} (o : op V W) : Prop :=
  match o with OpAddNode _ | OpWrite _ _ => False | _ => True end.

(** Pruning. *)
Definition survives (prune : list Z) (i : Z) : bool := negb (existsb (Z.eqb i) prune).

Fixpoint upto (n : nat) : list Z :=
  match n with O => [] | S m => upto m ++ [Z.of_nat m] end.

(** Old numbers of the surviving nodes, in order. *)
Definition survivors (prune : list Z) (n : nat) : list Z := filter (survives prune) (upto n).

(** New number of old node [i]: how many survivors precede it. *)
Definition new_number (prune : list Z) (i : Z) : Z :=
  Z.of_nat (length (filter (survives prune) (upto (Z.to_nat i)))).

Definition moved {W} (prune : list Z) (e : GraphEdge W) : GraphEdge W :=
  mkEdge (new_number prune (from_index e)) (new_number prune (to_index e)) (weight e) (scratchpad e).

Definition edge_survives {W} (prune : list Z) (e : GraphEdge W) : bool :=
  survives prune (from_index e) && survives prune (to_index e).

Definition pruned {V W} (prune : list Z) (n : GraphNode V W) : GraphNode V W :=
  mkNode (value n)
    (map (moved prune) (filter (edge_survives prune) (in_edges n)))
    (map (moved prune) (filter (edge_survives prune) (out_edges n))).

(** [g'] consists of exactly the surviving nodes of [g] in order, each with
    exactly its surviving edges. *)
Definition is_pruning_of {V W} (prune : list Z) (g g' : list (GraphNode V W)) : Prop :=
  length g' = length (survivors prune (length g)) /\
  forall k i n, nth_error (survivors prune (length g)) k = Some i -> node_at g i n ->
    nth_error g' k = Some (pruned prune n).

(** Graphs that can be serialized: indices fit int64_t, edge vectors and the
    node vector fit their max_size(), values and weights are ones their own
    serializers handle. *)
Definition int64_ok (z : Z) : Prop := - 2 ^ 63 <= z < 2 ^ 63.

Definition edge_ok {W} (domw : W -> Prop) (e : GraphEdge W) : Prop :=
  int64_ok (from_index e) /\ int64_ok (to_index e) /\ domw (weight e) /\ (scratchpad e < 2 ^ 64)%N.

Definition node_ok {V W} (maxe : N) domv domw (n : GraphNode V W) : Prop :=
  domv (value n) /\
  (Forall (edge_ok domw) (in_edges n) /\ (len64 (in_edges n) < 2 ^ 64)%N /\ (len64 (in_edges n) <= maxe)%N) /\
  (Forall (edge_ok domw) (out_edges n) /\ (len64 (out_edges n) < 2 ^ 64)%N /\ (len64 (out_edges n) <= maxe)%N).

Definition graph_ok {V W} (maxn maxe : N) domv domw (g : list (GraphNode V W)) : Prop :=
  Forall (node_ok maxe domv domw) g /\ (len64 g < 2 ^ 64)%N /\ (len64 g <= maxn)%N.


(** The object [b] (a graph or an overlay) reads as the node list [g]. *)
Definition behaves_like {V W} (b : graph_like V W) (g : list (GraphNode V W)) : Prop :=
  gl_size b = Size g /\ forall i, gl_get b i = GetNode g i.
