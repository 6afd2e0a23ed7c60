(** Vocabulary for C165: the calls on one node of a planning tree. *)
From Verif Require Import Base RrtModel.
Local Open Scope Z_scope.

Inductive node_call : Type := SetParent (p : Z) | AddChild (c : Z) | RemoveChild (c : Z) | ClearChildren.
(** The method each call stands for, simple_rrt_planner.hpp:107-141. *)
Definition node_after_call {S} (n : rrt_node S) (call : node_call) : rrt_node S :=
  match call with
  | SetParent p => SetParentIndex n p
  | AddChild c => AddChildIndex n c
  | RemoveChild c => RemoveChildIndex n c
  | ClearChildren => ClearChildIndices n
  end.
Definition node_after {S} (n : rrt_node S) (calls : list node_call) : rrt_node S := fold_left node_after_call calls n.

(** No call in [calls] takes child [c] away. *)
Definition never_drops (c : Z) (calls : list node_call) : Prop := ~ In (RemoveChild c) calls /\ ~ In ClearChildren calls.
(** [c] was a child at the start, or was added, and has not been taken away since. *)
Definition still_child (at_start : list Z) (calls : list node_call) (c : Z) : Prop :=
  (In c at_start /\ never_drops c calls) \/
  exists before after, calls = before ++ AddChild c :: after /\ never_drops c after.
(** The parent the calls leave: the last one set, else the one at the start. *)
Definition last_parent (at_start : Z) (calls : list node_call) (p : Z) : Prop :=
  (p = at_start /\ forall q, ~ In (SetParent q) calls) \/
  exists before after, calls = before ++ SetParent p :: after /\ forall q, ~ In (SetParent q) after.
(** [x] stands before [y]. *)
Definition listed_before (l : list Z) (x y : Z) : Prop := exists a b c, l = a ++ x :: b ++ y :: c.
