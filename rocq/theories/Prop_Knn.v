(** Properties C23 and C24 (K nearest neighbours).  Model in KnnModel.v,
    vocabulary in KnnSpec.v. *)
From Verif Require Import Base ParallelismModel ParallelismSpec KnnModel KnnSpec KnnProof.
From Coq Require Import Permutation.
From Verif Require SearchModel SearchDouble.
Local Open Scope Z_scope.

(** C23 *)
Theorem C23_serial_returns_k_nearest :
  forall (D Item : Type) (ltb : D -> D -> bool)
    (infinity : D) (items : list Item) (dist : Item -> D) psort,
  partial_sort_contract ltb psort ->
  forall range_start range_end K,
  0 <= range_start -> range_start <= range_end -> range_end <= Z.of_nat (length items) -> 0 <= K ->
  exists sel,
    GetKNearestNeighborsInRangeSerial infinity items dist psort range_start range_end K = Ok sel /\
    k_nearest ltb items dist range_start range_end K sel.
Proof. intros D Item. exact serial_nearest. Qed.
Print Assumptions C23_serial_returns_k_nearest.

Theorem C23_bad_arguments_throw :
  forall (D Item : Type) (infinity : D) (items : list Item) (dist : Item -> D) psort range_start range_end K,
  range_end < range_start \/ Z.of_nat (length items) < range_end \/ K < 0 ->
  GetKNearestNeighborsInRangeSerial infinity items dist psort range_start range_end K = Throw InvalidArgument.
Proof. intros D Item. exact serial_rejects. Qed.
Print Assumptions C23_bad_arguments_throw.

(** The hypotheses are met: integers and binary64 are ordered, sorting everything
    is a partial sort; a query with a tie. *)
Example C23_nonvacuous : order_laws Z.ltb /\ partial_sort_contract Z.ltb full_sort /\
  order_laws (SearchModel.cltb SearchDouble.double_cost) /\
  GetKNearestNeighborsInRangeSerial 99 [7; 5; 8; 5; 9] (fun d => d) full_sort 1 5 3
    = Ok [(1, 5); (3, 5); (2, 8)].
Proof. exact (conj Z_order (conj full_sort_contract (conj double_order serial_sample))). Qed.

(** C24 (full claim: whatever team of threads the runtime grants, the parallel
    query returns the distances the serial query returns).  False: when OpenMP
    grants fewer threads than requested, one thread runs several shares and each
    overwrites the result of the one before: wrong answer, *)
Theorem C24_parallel_equals_serial_refuted :
  exists items : list Z, exists tr,
    parallel_execution false true 1 2 0 4 1 tr (Ok tt) /\
    parallel_result 99 items (fun d => d) full_sort 2 0 4 1 tr (Ok tt) = Ok [(2, 8)] /\
    GetKNearestNeighborsInRangeSerial 99 items (fun d => d) full_sort 0 4 1 = Ok [(0, 1)].
Proof. destruct parallel_wrong_answer as [items H]. exact (ex_intro _ items (ex_intro _ _ H)). Qed.
Print Assumptions C24_parallel_equals_serial_refuted.

(** or undefined behaviour (std::partial_sort past the end). *)
Theorem C24_parallel_is_defined_refuted :
  exists items : list Z, exists tr,
    parallel_execution false true 1 2 0 4 3 tr (Ok tt) /\
    parallel_result 99 items (fun d => d) full_sort 2 0 4 3 tr (Ok tt) = UB.
Proof. destruct parallel_undefined as [items H]. exact (ex_intro _ items (ex_intro _ _ H)). Qed.
Print Assumptions C24_parallel_is_defined_refuted.

(** C24, proved part: executions in which no thread number is given two shares
    (with n <= K, every execution): the result is a correct K-nearest answer and
    its distances are those of the serial query, position by position. *)
Theorem C24_parallel_equals_serial_partial :
  forall (D Item : Type) (ltb : D -> D -> bool), order_laws ltb ->
  forall (infinity : D) (items : list Item) (dist : Item -> D) psort,
  partial_sort_contract ltb psort ->
  forall spurious omp_in_build team num_threads range_start range_end K tr r,
  0 <= range_start -> range_end <= Z.of_nat (length items) -> 0 <= K ->
  valid_call num_threads range_start range_end team ->
  parallel_execution spurious omp_in_build team num_threads range_start range_end K tr r ->
  range_end - range_start <= K \/ NoDup (thread_numbers tr) ->
  exists p s,
    parallel_result infinity items dist psort num_threads range_start range_end K tr r = Ok p /\
    GetKNearestNeighborsInRangeSerial infinity items dist psort range_start range_end K = Ok s /\
    k_nearest ltb items dist range_start range_end K p /\
    Forall2 (fun a b => sameD ltb (snd a) (snd b)) p s.
Proof. intros D Item. exact parallel_ok. Qed.
Print Assumptions C24_parallel_equals_serial_partial.

(** C24, proved part: without OpenMP (std::async) every execution. *)
Theorem C24_parallel_async_equals_serial_partial :
  forall (D Item : Type) (ltb : D -> D -> bool), order_laws ltb ->
  forall (infinity : D) (items : list Item) (dist : Item -> D) psort,
  partial_sort_contract ltb psort ->
  forall spurious team num_threads range_start range_end K tr r,
  0 <= range_start -> range_end <= Z.of_nat (length items) -> 0 <= K ->
  valid_call num_threads range_start range_end team ->
  parallel_execution spurious false team num_threads range_start range_end K tr r ->
  exists p s,
    parallel_result infinity items dist psort num_threads range_start range_end K tr r = Ok p /\
    GetKNearestNeighborsInRangeSerial infinity items dist psort range_start range_end K = Ok s /\
    k_nearest ltb items dist range_start range_end K p /\
    Forall2 (fun a b => sameD ltb (snd a) (snd b)) p s.
Proof. intros D Item. exact parallel_async_ok. Qed.
Print Assumptions C24_parallel_async_equals_serial_partial.

(** The entry point that chooses: asked for one thread, or none, it answers as the serial
    query does, whatever the loop would do; otherwise as above. *)
Theorem C24_dispatch :
  forall (D Item : Type) (ltb : D -> D -> bool), order_laws ltb ->
  forall (infinity : D) (items : list Item) (dist : Item -> D) psort,
  partial_sort_contract ltb psort ->
  forall spurious team num_threads range_start range_end K tr r,
  0 <= range_start <= range_end -> range_end <= Z.of_nat (length items) -> 0 <= K ->
  (1 < num_threads -> valid_call num_threads range_start range_end team /\
     parallel_execution spurious false team num_threads range_start range_end K tr r) ->
  exists p s,
    dispatch_result infinity items dist psort num_threads range_start range_end K tr r = Ok p /\
    GetKNearestNeighborsInRangeSerial infinity items dist psort range_start range_end K = Ok s /\
    (num_threads <= 1 -> p = s) /\
    k_nearest ltb items dist range_start range_end K p /\
    Forall2 (fun a b => sameD ltb (snd a) (snd b)) p s.
Proof.
  intros D Item ltb OL infinity items dist psort PS spurious team nt rs re K tr r RS RE HK HP.
  unfold dispatch_result, IsParallel. destruct (Z.ltb_spec 1 nt) as [G|G].
  - destruct (HP G) as [V E]. destruct (C24_parallel_async_equals_serial_partial D Item ltb OL infinity items dist psort PS spurious team nt rs re K tr r (proj1 RS) RE HK V E) as (p & s & A & B & C & F).
    exists p, s. split; [exact A|]. split; [exact B|]. split; [lia|]. split; [exact C|exact F].
  - destruct (C23_serial_returns_k_nearest D Item ltb infinity items dist psort PS rs re K (proj1 RS) (proj2 RS) RE HK) as (s & A & B).
    exists s, s. split; [exact A|]. split; [exact A|]. split; [reflexivity|]. split; [exact B|].
    clear - OL. induction s as [|a s IH]; constructor; [|exact IH]. split; apply OL.
Qed.
Print Assumptions C24_dispatch.

Theorem C24_bad_arguments_throw :
  forall (D Item : Type) (infinity : D) (items : list Item) (dist : Item -> D) psort
    num_threads range_start range_end K tr r,
  range_end < range_start \/ Z.of_nat (length items) < range_end \/ K < 0 ->
  parallel_result infinity items dist psort num_threads range_start range_end K tr r = Throw InvalidArgument.
Proof. intros D Item. exact parallel_rejects. Qed.
Print Assumptions C24_bad_arguments_throw.

(** An execution with two overlapping calls. *)
Example C24_nonvacuous :
  valid_call 2 0 4 1 /\ parallel_execution false false 1 2 0 4 3 two_thread_trace (Ok tt) /\
  parallel_result 99 [7; 5; 8; 5] (fun d => d) full_sort 2 0 4 3 two_thread_trace (Ok tt)
    = Ok [(1, 5); (3, 5); (0, 7)].
Proof. exact two_thread_ok. Qed.
