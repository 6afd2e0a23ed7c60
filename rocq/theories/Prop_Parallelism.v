(** Properties C08-C11, C73, C74 (parallel loops).  Statements only; model in
    ParallelismModel.v, observable vocabulary in ParallelismSpec.v. *)
From Verif Require Import Base ParallelismModel ParallelismSpec ParallelismProof ParallelismProof2.
Local Open Scope Z_scope.

(** C08: there are boundaries a(0) = start, ..., a(n) = end such that thread k
    gets exactly [a(k), a(k+1)): consecutive, disjoint, covering, and of sizes
    that differ by at most one. *)
Theorem C08_static_partition : forall rs re n : Z,
  -9223372036854775808 <= rs -> rs <= re -> re <= 9223372036854775807 -> re - rs <= 9223372036854775807 ->
  1 <= n -> n <= 9223372036854775807 -> (re - rs < 9223372036854775807 \/ 1 < n) ->
  exists a : Z -> Z,
    a 0 = rs /\ a n = re /\
    (forall k, 0 <= k < n ->
       CalcStaticThreadRangeStartAndEnd rs re n k = Ok (a k, a (k + 1)) /\ a k <= a (k + 1)) /\
    (forall j k, 0 <= j < n -> 0 <= k < n -> (a (k + 1) - a k) - (a (j + 1) - a j) <= 1).
Proof. exact static_partition. Qed.
Print Assumptions C08_static_partition.

(** C08: an index lies in [start, end) exactly when one and only one thread's
    range contains it. *)
Theorem C08_static_unique_owner : forall rs re n i : Z,
  -9223372036854775808 <= rs -> rs <= re -> re <= 9223372036854775807 -> re - rs <= 9223372036854775807 ->
  1 <= n -> n <= 9223372036854775807 -> (re - rs < 9223372036854775807 \/ 1 < n) ->
  (rs <= i < re <->
   exists k, (0 <= k < n /\ exists lo hi,
     CalcStaticThreadRangeStartAndEnd rs re n k = Ok (lo, hi) /\ lo <= i < hi) /\
     forall k', 0 <= k' < n -> forall lo hi,
       CalcStaticThreadRangeStartAndEnd rs re n k' = Ok (lo, hi) -> lo <= i < hi -> k' = k).
Proof. exact static_unique_owner. Qed.
Print Assumptions C08_static_unique_owner.

Theorem C08_static_bad_arguments_throw : forall rs re n k : Z,
  re < rs \/ n < 1 \/ k < 0 \/ n <= k ->
  CalcStaticThreadRangeStartAndEnd rs re n k = Throw InvalidArgument.
Proof. exact static_bad_args. Qed.
Print Assumptions C08_static_bad_arguments_throw.

(** The one excluded corner is a real signed overflow: a range of 2^63-1 indices
    on one thread. *)
Example C08_overflow_corner : CalcStaticThreadRangeStartAndEnd 0 9223372036854775807 1 0 = UB.
Proof. exact calc_overflow. Qed.

Example C08_nonvacuous :
  CalcStaticThreadRangeStartAndEnd 3 13 4 0 = Ok (3, 6) /\
  CalcStaticThreadRangeStartAndEnd 3 13 4 1 = Ok (6, 9) /\
  CalcStaticThreadRangeStartAndEnd 3 13 4 2 = Ok (9, 11) /\
  CalcStaticThreadRangeStartAndEnd 3 13 4 3 = Ok (11, 13).
Proof. exact calc_sample. Qed.

(** C09: whatever the backend, OpenMP team size and interleaving, a static loop
    that returns has visited every index once; if it throws, it throws an
    exception of the work function and no index was visited twice. *)
Theorem C09_static_loop_visits_each_index_once :
  forall body, loop_body body ->
  forall spurious omp_in_build team n rs re bk tr r,
  valid_call n rs re team ->
  run body spurious (StaticParallelForLoop body omp_in_build team n rs re bk) tr (SFinal r) ->
  (r = Ok tt /\ thrown tr = [] /\ each_once rs re tr) \/
  (exists e, r = Throw e /\ In e (thrown tr) /\ at_most_once rs re tr).
Proof. exact static_visits. Qed.
Print Assumptions C09_static_loop_visits_each_index_once.

(** C09: at every moment thread numbers are in [0, n) and belong to at most one
    running call. *)
Theorem C09_static_loop_thread_numbers :
  forall body, loop_body body ->
  forall spurious omp_in_build team n rs re bk tr s,
  valid_call n rs re team ->
  run body spurious (StaticParallelForLoop body omp_in_build team n rs re bk) tr s ->
  at_most_once rs re tr /\ Forall (fun t => 0 <= t < n) (thread_numbers tr) /\
  NoDup (map fst (running tr)) /\ Z.of_nat (length (running tr)) <= n.
Proof. exact static_always. Qed.
Print Assumptions C09_static_loop_thread_numbers.

Example C09_nonvacuous : valid_call 4 0 100 2 /\ valid_call 3 (-7) 11 1.
Proof. exact sample_zero_valid. Qed.

(** C10 (full claim: every dynamic loop visits each index of [start, end) once).
    False for the ASYNC backend when start is not 0: the worker gets the number
    of workers dispatched so far instead of start plus that number. *)
Theorem C10_dynamic_loop_visits_each_index_once_refuted :
  exists n rs re team tr, valid_call n rs re team /\
    run index_body false (DynamicParallelForLoop index_body true team n rs re ASYNC) tr (SFinal (Ok tt)) /\
    ~ each_once rs re tr /\ times_visited tr rs = 0%nat /\ times_visited tr 0 = 1%nat.
Proof. exact dynamic_refuted. Qed.
Print Assumptions C10_dynamic_loop_visits_each_index_once_refuted.

(** In fact every such execution is wrong. *)
Theorem C10_dynamic_async_nonzero_start_always_wrong_refuted :
  forall body, loop_body body ->
  forall spurious omp_in_build team n rs re tr,
  valid_call n rs re team -> 1 < n -> 1 < re - rs -> rs <> 0 ->
  run body spurious (DynamicParallelForLoop body omp_in_build team n rs re ASYNC) tr (SFinal (Ok tt)) ->
  ~ each_once rs re tr.
Proof. exact dynamic_async_wrong. Qed.
Print Assumptions C10_dynamic_async_nonzero_start_always_wrong_refuted.

(** C10, proved part: ranges starting at 0 on every backend; every range on
    OpenMP, on one thread, or of at most one index. *)
Theorem C10_dynamic_loop_visits_each_index_once_partial :
  forall body, loop_body body ->
  forall spurious omp_in_build team n rs re bk tr r,
  valid_call n rs re team ->
  rs = 0 \/ bk = OPENMP \/ (bk = BEST_AVAILABLE /\ omp_in_build = true) \/ n = 1 \/ re - rs <= 1 ->
  run body spurious (DynamicParallelForLoop body omp_in_build team n rs re bk) tr (SFinal r) ->
  (r = Ok tt /\ thrown tr = [] /\ each_once rs re tr) \/
  (exists e, r = Throw e /\ In e (thrown tr) /\ at_most_once rs re tr).
Proof. exact dynamic_visits. Qed.
Print Assumptions C10_dynamic_loop_visits_each_index_once_partial.

(** C11: at every moment of every execution the running calls have pairwise
    different thread numbers, in [0, n), and there are at most n of them. *)
Theorem C11_dynamic_thread_numbers_exclusive :
  forall body, loop_body body ->
  forall spurious omp_in_build team n rs re bk tr s,
  valid_call n rs re team ->
  run body spurious (DynamicParallelForLoop body omp_in_build team n rs re bk) tr s ->
  NoDup (map fst (running tr)) /\ Forall (fun t => 0 <= t < n) (thread_numbers tr) /\
  Z.of_nat (length (running tr)) <= n.
Proof. exact dynamic_always. Qed.
Print Assumptions C11_dynamic_thread_numbers_exclusive.

Example C11_nonvacuous :
  valid_call 2 5 7 2 /\ forall spurious,
  run index_body spurious (DynamicParallelForLoop index_body true 2 2 5 7 ASYNC)
      sample_trace (SFinal (Ok tt)).
Proof. exact (conj sample_valid sample_run). Qed.

(** C73: when a parallel loop returns or throws no call of the work function is
    still running; it returns normally exactly when no call threw, and otherwise
    throws one of the thrown exceptions. *)
Theorem C73_loop_joins_and_propagates :
  forall body, loop_body body ->
  forall (dynamic : bool) spurious omp_in_build team n rs re bk tr r,
  valid_call n rs re team ->
  run body spurious ((if dynamic then DynamicParallelForLoop else StaticParallelForLoop)
                       body omp_in_build team n rs re bk) tr (SFinal r) ->
  running tr = [] /\
  (r = Ok tt <-> thrown tr = []) /\
  (thrown tr <> [] -> exists e, r = Throw e /\ In e (thrown tr)).
Proof. exact loop_returns_quiet. Qed.
Print Assumptions C73_loop_joins_and_propagates.

(** C74: no deadlock and no lost wake-up -- from every state any execution can
    get into, the loop can still complete with no further exception, even if
    condition variables never wake up spuriously. *)
Theorem C74_static_loop_never_stuck :
  forall body, loop_body body ->
  forall spurious omp_in_build team n rs re bk tr s,
  valid_call n rs re team ->
  run body spurious (StaticParallelForLoop body omp_in_build team n rs re bk) tr s ->
  exists tr' r,
    run body spurious (StaticParallelForLoop body omp_in_build team n rs re bk) (tr ++ tr') (SFinal r) /\ thrown tr' = [].
Proof. exact static_progress. Qed.
Print Assumptions C74_static_loop_never_stuck.

Theorem C74_dynamic_loop_never_stuck :
  forall body, loop_body body ->
  forall spurious omp_in_build team n rs re bk tr s,
  valid_call n rs re team ->
  run body spurious (DynamicParallelForLoop body omp_in_build team n rs re bk) tr s ->
  exists tr' r,
    run body spurious (DynamicParallelForLoop body omp_in_build team n rs re bk) (tr ++ tr') (SFinal r) /\ thrown tr' = [].
Proof. exact dynamic_progress. Qed.
Print Assumptions C74_dynamic_loop_never_stuck.
