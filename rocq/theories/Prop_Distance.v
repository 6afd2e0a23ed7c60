(** Properties C63, C64 (Hausdorff distance) and C65 (pairwise distance matrix).
    Model in DistModel.v, vocabulary in DistSpec.v and KnnSpec.v. *)
From Coq Require Import Reals.
From Flocq Require Import Core BinarySingleNaN.
From Verif Require Import Base Double SearchDouble ParallelismModel ParallelismSpec KnnModel KnnSpec DistModel DistSpec DistProof DistProof2.
Local Open Scope Z_scope.

(** C63 (full claim: the result is the Hausdorff distance).  False: only the
    distances from the first set to the second are considered. *)
Theorem C63_hausdorff_refuted : exists (z : nat -> nat -> Z) (first second : list nat) v v',
  (forall a b, z a b = Z.abs (Z.of_nat a - Z.of_nat b)) /\
  (forall n tr r, IsParallel n = false ->
     ComputeDistance dlt d0 dinf (fun a b => d_of_Z (z a b)) first second n tr r = Ok v) /\
  hausdorff_distance dlt (fun a b => d_of_Z (z a b)) first second v' /\ dlt v v' = true.
Proof. exact hausdorff_directed_only. Qed.
Print Assumptions C63_hausdorff_refuted.

(** C63, proved part: it is when the distance from the second set to the first is
    no larger. *)
Theorem C63_hausdorff_partial : forall (A B : Type) (dist : A -> B -> double) first second,
  first <> [] -> second <> [] ->
  (forall a b, In a first -> In b second -> nonneg (dist a b) = true) ->
  forall spurious omp_in_build team num_threads tr r,
  valid_call num_threads 0 (Z.of_nat (length first)) team ->
  index_loop_execution spurious omp_in_build team num_threads (Z.of_nat (length first)) tr r ->
  exists v, ComputeDistance dlt d0 dinf dist first second num_threads tr r = Ok v /\
    forall v2, directed_distance dlt (fun b a => dist a b) second first v2 ->
      leD dlt v2 v -> hausdorff_distance dlt dist first second v.
Proof. intros A B. exact double_hausdorff. Qed.
Print Assumptions C63_hausdorff_partial.

(** C64: for non-negative distances (infinity allowed), any number of threads and
    any schedule the value is the directed distance; *)
Theorem C64_directed_value : forall (A B : Type) (dist : A -> B -> double) first second,
  first <> [] -> second <> [] ->
  (forall a b, In a first -> In b second -> nonneg (dist a b) = true) ->
  forall spurious omp_in_build team num_threads tr r,
  valid_call num_threads 0 (Z.of_nat (length first)) team ->
  index_loop_execution spurious omp_in_build team num_threads (Z.of_nat (length first)) tr r ->
  exists v, ComputeDistance dlt d0 dinf dist first second num_threads tr r = Ok v /\
    directed_distance dlt dist first second v.
Proof. intros A B. exact double_compute. Qed.
Print Assumptions C64_directed_value.

(** likewise from a precomputed distance matrix; *)
Theorem C64_directed_value_from_matrix : forall (A B : Type) (dist : A -> B -> double) first second,
  first <> [] -> second <> [] ->
  (forall a b, In a first -> In b second -> nonneg (dist a b) = true) ->
  forall spurious omp_in_build team num_threads tr r m,
  distances_of dist first second m ->
  valid_call num_threads 0 (Z.of_nat (length first)) team ->
  index_loop_execution spurious omp_in_build team num_threads (Z.of_nat (length first)) tr r ->
  exists v, ComputeDistanceWithMatrix dlt d0 dinf m first second num_threads tr r = Ok v /\
    directed_distance dlt dist first second v.
Proof. intros A B. exact double_compute_matrix. Qed.
Print Assumptions C64_directed_value_from_matrix.

(** and every schedule gives the serial value. *)
Theorem C64_parallel_equals_serial : forall (A B : Type) (dist : A -> B -> double) first second,
  first <> [] -> second <> [] ->
  (forall a b, In a first -> In b second -> nonneg (dist a b) = true) ->
  forall spurious omp_in_build team num_threads tr r tr' r',
  valid_call num_threads 0 (Z.of_nat (length first)) team ->
  index_loop_execution spurious omp_in_build team num_threads (Z.of_nat (length first)) tr r ->
  exists p s, ComputeDistance dlt d0 dinf dist first second num_threads tr r = Ok p /\
    ComputeDistance dlt d0 dinf dist first second 1 tr' r' = Ok s /\ sameD dlt p s.
Proof. intros A B. exact double_agree. Qed.
Print Assumptions C64_parallel_equals_serial.

Theorem C64_bad_arguments_throw : forall (D A B : Type) (ltb : D -> D -> bool) (zero inf : D) (dist : A -> B -> D)
    (m : mat D) first second num_threads tr r,
  (first = [] \/ second = [] ->
   ComputeDistance ltb zero inf dist first second num_threads tr r = Throw InvalidArgument) /\
  (first = [] \/ second = [] \/ m_rows m <> Z.of_nat (length first) \/ m_cols m <> Z.of_nat (length second) ->
   ComputeDistanceWithMatrix ltb zero inf m first second num_threads tr r = Throw InvalidArgument).
Proof. exact @hausdorff_rejects. Qed.
Print Assumptions C64_bad_arguments_throw.

Example C64_nonvacuous : valid_call 2 0 2 1 /\ index_loop_execution false false 1 2 2 two_index_trace (Ok tt) /\
  ComputeDistance Z.ltb 0 1000 (fun a b => Z.abs (a - b)) [4; 9] [1; 5; 6] 2 two_index_trace (Ok tt) = Ok 3.
Proof. split; [exact two_index_valid|]. split; [exact (two_index_run false)|reflexivity]. Qed.

(** C65: for every schedule the matrix is the same: symmetric, zero on the
    diagonal, distance(i,j) at (i,j) for i < j; no cell is uninitialised. *)
Theorem C65_pairwise_matrix : forall (D A : Type) (zero : D) (dist : A -> A -> D) (data : list A)
    spurious omp_in_build team num_threads tr r,
  valid_call num_threads 0 (Z.of_nat (length data)) team ->
  index_loop_execution spurious omp_in_build team num_threads (Z.of_nat (length data)) tr r ->
  exists m, BuildPairwiseDistanceMatrix zero dist data tr r = Ok m /\
    m_rows m = Z.of_nat (length data) /\ m_cols m = Z.of_nat (length data) /\
    (forall i, (i < length data)%nat -> m_cell m (Z.of_nat i) (Z.of_nat i) = Some zero) /\
    (forall i j a b, (i < j)%nat -> nth_error data i = Some a -> nth_error data j = Some b ->
       m_cell m (Z.of_nat i) (Z.of_nat j) = Some (dist a b) /\
       m_cell m (Z.of_nat j) (Z.of_nat i) = Some (dist a b)).
Proof. exact @pairwise_matrix. Qed.
Print Assumptions C65_pairwise_matrix.

(** Two datasets: distance(data1[i], data2[j]) at (i,j). *)
Theorem C65_pairwise_matrix_two_datasets : forall (D A B : Type) (dist : A -> B -> D) (data1 : list A) (data2 : list B)
    spurious omp_in_build team num_threads tr r,
  valid_call num_threads 0 (Z.of_nat (length data1)) team ->
  index_loop_execution spurious omp_in_build team num_threads (Z.of_nat (length data1)) tr r ->
  exists m, BuildPairwiseDistanceMatrix2 dist data1 data2 tr r = Ok m /\
    m_rows m = Z.of_nat (length data1) /\ m_cols m = Z.of_nat (length data2) /\
    (forall i j a b, nth_error data1 i = Some a -> nth_error data2 j = Some b ->
       m_cell m (Z.of_nat i) (Z.of_nat j) = Some (dist a b)).
Proof. exact @pairwise2_matrix. Qed.
Print Assumptions C65_pairwise_matrix_two_datasets.

(** No data race: calls for different indices touch different cells. *)
Theorem C65_calls_touch_different_cells : forall (D A : Type) (zero : D) (dist : A -> A -> D) (data : list A) m i j m1 m2,
  i <> j -> m_rows m = Z.of_nat (length data) -> m_cols m = Z.of_nat (length data) ->
  fill_pairs zero dist data m i = Ok m1 -> fill_pairs zero dist data m j = Ok m2 ->
  forall a b, m_cell m1 a b = m_cell m a b \/ m_cell m2 a b = m_cell m a b.
Proof. exact @pairs_no_race. Qed.
Print Assumptions C65_calls_touch_different_cells.

Example C65_nonvacuous : exists m,
  BuildPairwiseDistanceMatrix 0 (fun a b => a - b) [7; 4] two_index_trace (Ok tt) = Ok m /\
  m_cell m 1 0 = Some 3 /\ m_cell m 0 1 = Some 3 /\ m_cell m 1 1 = Some 0.
Proof. eexists. split; [reflexivity|]. repeat split. Qed.
