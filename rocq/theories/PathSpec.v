(** Vocabulary for path processing (C54-C56). *)
From Coq Require Import ZArith Reals.
From Flocq Require Import Core BinarySingleNaN.
From Verif Require Import Base Double.
Local Open Scope Z_scope.

(** Every edge of the path is accepted by the validity function; a path of one
    state is checked as the edge from the state to itself. *)
Definition edges_valid {V} (edge_valid : V -> V -> bool) (path : list V) : Prop :=
  forall l1 a b l2, path = l1 ++ a :: b :: l2 -> edge_valid a b = true.
Definition path_valid {V} (edge_valid : V -> V -> bool) (path : list V) : Prop :=
  edges_valid edge_valid path /\ forall q, path = [q] -> edge_valid q q = true.

(** Same first and last state. *)
Definition same_ends {V} (path path' : list V) : Prop :=
  forall a l b, path = a :: l -> last path a = b -> exists l', path' = a :: l' /\ last path' a = b.

(** Number of segments of an edge: the distance over the spacing, in double
    arithmetic, rounded up. *)
Definition segments {V} (distance : V -> V -> double) (spacing : double) (a b : V) : Z :=
  Zceil (B2R (BinarySingleNaN.Bdiv mode_NE (distance a b) spacing)).

(** [l] is made of one block for each edge of the path p, rest; block and edge are
    related by [P]. *)
Inductive blocks {V} (P : V -> V -> list V -> Prop) : V -> list V -> list V -> Prop :=
| blocks_end p : blocks P p [] []
| blocks_edge p q rest block l : P p q block -> blocks P q rest l -> blocks P p (q :: rest) (block ++ l).

(** What resampling puts in the place of an edge: the end of the edge when there
    is one segment, otherwise the interpolated states at k/n. *)
Definition resampled_edge {V} (distance : V -> V -> double) (interpolate : V -> V -> double -> V) (spacing : double)
    (a b : V) (block : list V) : Prop :=
  let n := segments distance spacing a b in
  Z.of_nat (length block) = n /\
  (forall k, 1 <= k <= n -> nth_error block (Z.to_nat (k - 1)) = Some (if n =? 1 then b else interpolate a b (ddiv (d_of_Z k) (d_of_Z n)))).
