(** Vocabulary for A* with children, validity and distance functions (C164). *)
From Verif Require Import Base SearchModel SearchSpec.

(** [t] is offered as a child of [s], the edge is valid, and the distance function gives its cost. *)
Definition usable {T C} (children : T -> list T) (valid : T -> T -> bool) (distance : T -> T -> C) (s t : T) (w : C) : Prop :=
  In t (children s) /\ valid s t = true /\ w = distance s t.
(** [path] leads from [start] to [goal] over usable edges and costs [c]. *)
Definition way {T C} (ops : cost_ops C) children valid (distance : T -> T -> C) (start goal : T) (path : list T) (c : C) : Prop :=
  walk ops (usable children valid distance) start (czero ops) path goal c.
(** The heuristic does not overestimate the cost of any way on to the goal, and is not negative there. *)
Definition never_over {T C} (ops : cost_ops C) children valid (distance heuristic : T -> T -> C) (goal : T) : Prop :=
  (forall n c l d, cle ops (czero ops) c -> walk ops (usable children valid distance) n c l goal d ->
     cle ops (cadd ops c (heuristic n goal)) d) /\
  cle ops (czero ops) (heuristic goal goal).
