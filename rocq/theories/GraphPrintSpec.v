(** Vocabulary for C191: what a printed graph tells. *)
From Coq Require Import String Ascii ZArith.
From Verif Require Import Base GraphModel.

Section Content.
Context {V W : Type} (print_value : V -> string) (to_string : W -> string).
(** Of an edge: both ends, the text of the weight, the scratchpad; of a node: the text of its
    value and its edges in order. *)
Definition edge_content (e : GraphEdge W) : Z * Z * string * N := (from_index e, to_index e, to_string (weight e), scratchpad e).
Definition node_content (n : GraphNode V W) := (print_value (value n), map edge_content (in_edges n), map edge_content (out_edges n)).
(** Of an overlay at an index: whether the node is in the overlay, and its content. *)
Definition in_overlay (o : GraphOverlay V W) (i : Z) : bool := existsb (fun x => (i =? fst x)%Z) (overlay o).
(** Every index below the size has a node. *)
Definition all_there (o : GraphOverlay V W) : Prop := forall i, (0 <= i < overlay_size o)%Z -> exists n, OverlayGetNode o i = Ok n.
End Content.
(** A text without an opening bracket. *)
Definition no_bracket (s : string) : Prop := ~ In "["%char (list_ascii_of_string s).
