(** Vocabulary for hierarchical clustering (C57, C58). *)
From Coq Require Import Permutation Relations.
From Verif Require Import Base Double ParallelismModel DistModel DistSpec.
Local Open Scope Z_scope.

(** Non-empty disjoint clusters that hold each of 0 .. n-1 once. *)
Definition partition (n : Z) (clusters : list (list Z)) : Prop :=
  ~ In [] clusters /\ Permutation (concat clusters) (seqZ 0 n).

(** The matrix holds the distances [d]. *)
Definition distances (m : mat (option double)) (n : Z) (d : Z -> Z -> double) : Prop :=
  matrix_is m n n (fun i j => Some (d i j)).

(** What is true of [d] between different indices. *)
Definition between (n : Z) (P : Z -> Z -> Prop) : Prop :=
  forall i j, 0 <= i < n -> 0 <= j < n -> i <> j -> P i j.

Definition same_cluster (clusters : list (list Z)) (i j : Z) : Prop :=
  exists c, In c clusters /\ In i c /\ In j c.

(** Joined by a chain of indices, each within the bound of the next. *)
Definition linked (n : Z) (d : Z -> Z -> double) (bound : double) : Z -> Z -> Prop :=
  clos_refl_trans Z (fun i j => 0 <= i < n /\ 0 <= j < n /\ i <> j /\ dle (d i j) bound = true).
