(** Vocabulary for C178. *)
From Verif Require Import Base GraphModel PrmModel.
Local Open Scope Z_scope.

(** The provider's answers depend on the states in the roadmap, not on its edges. *)
Definition knn_reads_states {V C} (knn : @knn_provider V C) : Prop :=
  forall (g g' : list (GraphNode V C)) state K dir max, map value g = map value g' ->
    knn (as_graph_like g) state K dir max = knn (as_graph_like g') state K dir max.
