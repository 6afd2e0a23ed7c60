(** Model of the text of graphs: Print of GraphEdge, GraphNode, Graph and
    NonOwningGraphOverlay, simple_graph.hpp.  The text of a node's value (print::Print) and
    of a weight (std::to_string of a double) are parameters. *)
From Coq Require Import String Ascii ZArith.
From Verif Require Import Base GraphModel PrintModel.
Local Open Scope string_scope.

Section Print.
Context {V W : Type} (print_value : V -> string) (to_string : W -> string).
(** GraphEdge::Print, simple_graph.hpp:113-118. *)
Definition PrintEdge (e : GraphEdge W) : string :=
  "(" ++ print_integer (from_index e) ++ "->" ++ print_integer (to_index e) ++ ") : " ++ to_string (weight e) ++ " ["
  ++ print_integer (Z.of_N (scratchpad e)) ++ "]".
(** The loops over the edges, simple_graph.hpp:237-244 and 246-253. *)
Fixpoint edges_rest (l : list (GraphEdge W)) (strm : string) : string :=
  match l with [] => strm | e :: r => edges_rest r (strm ++ (", " ++ PrintEdge e)) end.
Definition print_edges (l : list (GraphEdge W)) (strm : string) : string :=
  match l with [] => strm | e :: r => edges_rest r (strm ++ PrintEdge e) end.
(** GraphNode::Print, simple_graph.hpp:233-256. *)
Definition PrintNode (n : GraphNode V W) : string :=
  let strm := "Node : " ++ print_value (value n) ++ " In Edges : [" in
  let strm := print_edges (in_edges n) strm in
  let strm := strm ++ "] Out Edges : [" in
  let strm := print_edges (out_edges n) strm in
  strm ++ "]".
(** Graph::Print, simple_graph.hpp:651-664. *)
Definition newline : string := String "010" "".
Fixpoint nodes_rest (l : list (GraphNode V W)) (strm : string) : string :=
  match l with [] => strm | n :: r => nodes_rest r (strm ++ (newline ++ PrintNode n)) end.
Definition PrintGraph (g : list (GraphNode V W)) : string :=
  let strm := "Graph - Nodes : " in
  match g with [] => strm | n :: r => nodes_rest r (strm ++ PrintNode n) end.
(** NonOwningGraphOverlay::Print, simple_graph.hpp:918-948: get_node_string, and the loop
    over n more indices from idx. *)
Definition get_node_string (o : GraphOverlay V W) (index : Z) : outcome string :=
  match omap_find index (overlay o) with
  | Some overlay_node => Ok ("(overlay) " ++ PrintNode overlay_node)
  | None => do n <- gl_get (base_graph o) index; Ok ("(base) " ++ PrintNode n)
  end.
Fixpoint overlay_rest (o : GraphOverlay V W) (n : nat) (idx : Z) (strm : string) : outcome string :=
  match n with
  | O => Ok strm
  | S n => do s <- get_node_string o idx; overlay_rest o n (idx + 1) (strm ++ (newline ++ s))
  end.
Definition PrintOverlay (o : GraphOverlay V W) : outcome string :=
  let strm := "Overlaid Graph - Nodes : " in
  if (0 <? overlay_size o)%Z then
    do s <- get_node_string o 0;
    overlay_rest o (Z.to_nat (overlay_size o - 1)) 1 (strm ++ s)
  else Ok strm.
End Print.
