(** Vocabulary for C176: when two runs of a clustering must agree. *)
From Verif Require Import Base Double ParallelismModel KnnModel DistModel.
Local Open Scope Z_scope.

(** No two pairs of items are equally far from each other: of the distances of two
    different pairs, one is smaller. *)
Definition all_different (n : Z) (d : Z -> Z -> double) : Prop :=
  forall i j k l, 0 <= i < j -> j < n -> 0 <= k < l -> l < n -> (i, j) <> (k, l) ->
  dlt (d i j) (d k l) = true \/ dlt (d k l) (d i j) = true.

(** The indices thread [t] worked on, in the order in which it began them. *)
Definition indices_of (t : Z) (calls : list (Z * (Z * Z))) : list Z :=
  flat_map (fun c => if fst c =? t then [fst (snd c)] else []) calls.

(** Reading the work of thread 0, then of thread 1, and so on, one finds the indices
    0, 1, ..., k-1 in order: every thread takes consecutive indices in increasing
    order, and a thread with a larger number takes larger indices. *)
Definition in_turn (num_threads k : Z) (tr : list event) : Prop :=
  flat_map (fun t => indices_of t (loop_calls tr)) (seqZ 0 num_threads) = seqZ 0 k.
