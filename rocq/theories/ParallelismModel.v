(** Model of include/common_robotics_utilities/parallelism.hpp.

    The two kinds of parallel-for loop are transition systems: one step is one
    action of the calling thread or of one worker thread, so an execution is any
    interleaving of them.  Observable events are the beginnings and endings of
    calls of the user's work function. *)
From Verif Require Import Base.
Local Open Scope Z_scope.

Definition int64_min : Z := - 2 ^ 63.
Definition int64_max : Z := 2 ^ 63 - 1.

(** Checked int64_t arithmetic: signed overflow is undefined behaviour. *)
Definition i64 (z : Z) : outcome Z :=
  if (int64_min <=? z) && (z <=? int64_max) then Ok z else UB.

(** DegreeOfParallelism(int32_t), parallelism.hpp:32-45; the object is its
    num_threads_. *)
Definition DegreeOfParallelism (num_threads : Z) : outcome Z :=
  if 1 <=? num_threads then Ok num_threads else Throw InvalidArgument.

(** DegreeOfParallelism::IsParallel, parallelism.hpp:47. *)
Definition IsParallel (num_threads : Z) : bool := 1 <? num_threads.

(** CalcStaticThreadRangeStartAndEnd, parallelism.hpp:58-103. *)
Definition CalcStaticThreadRangeStartAndEnd
    (range_start range_end num_threads thread_num : Z) : outcome (Z * Z) :=
  if range_end <? range_start then Throw InvalidArgument
  else if num_threads <? 1 then Throw InvalidArgument
  else if (thread_num <? 0) || (num_threads <=? thread_num) then Throw InvalidArgument
  else
    do range_size <- i64 (range_end - range_start);
    do quotient <- i64 (Z.quot range_size num_threads);
    do remainder <- i64 (Z.rem range_size num_threads);
    do remainder_range <- i64 (quotient + 1);
    if thread_num <? remainder then
      do offset <- i64 (thread_num * remainder_range);
      do thread_range_start <- i64 (range_start + offset);
      do thread_range_end <- i64 (thread_range_start + remainder_range);
      Ok (thread_range_start, thread_range_end)
    else
      do a <- i64 (remainder * remainder_range);
      do b <- i64 (range_start + a);
      do c <- i64 (thread_num - remainder);
      do d <- i64 (c * quotient);
      do thread_range_start <- i64 (b + d);
      do thread_range_end <- i64 (thread_range_start + quotient);
      Ok (thread_range_start, thread_range_end).

(** ThreadWorkRange constructor, parallelism.hpp:110-124. *)
Definition ThreadWorkRange (range_start range_end thread_num : Z) : outcome (Z * Z * Z) :=
  if range_end <? range_start then Throw InvalidArgument
  else if thread_num <? 0 then Throw InvalidArgument
  else Ok (range_start, range_end, thread_num).

(** Beginning and ending of one call of the user's work function by thread
    number [t] on the indices [lo, hi); an ending carries the exception the call
    threw, if any. *)
Inductive event : Type :=
| EvBegin (t lo hi : Z)
| EvEnd (t lo hi : Z) (thrown : option exn).

(** The work function handed to a Range loop is called once with the whole work
    range (parallelism.hpp:161, 186, 211, 268, 289, 392). *)
Definition range_body (lo hi : Z) : list (Z * Z) := [(lo, hi)].

(** [lo, lo+1, ..., lo+n-1] *)
Fixpoint seq_from (lo : Z) (n : nat) : list Z :=
  match n with O => [] | S m => lo :: seq_from (lo + 1) m end.
Definition seqZ (lo hi : Z) : list Z := seq_from lo (Z.to_nat (hi - lo)).

(** The ranged_functor of the Index loops calls the user's work function once
    per index of the work range (parallelism.hpp:430-438, 453-461). *)
Definition index_body (lo hi : Z) : list (Z * Z) :=
  map (fun i => (i, i + 1)) (seqZ lo hi).

(** Where a worker is in its work: between calls, inside a call, stopped by an
    exception, or in undefined behaviour. *)
Inductive phase : Type :=
| Idle | InCall (lo hi : Z) | Failed (e : exn) | Undefined.

(** A thread executing one work range: its thread number, calls still to be
    made, and its phase. *)
Record worker : Type := mkWorker { w_thread : Z; w_todo : list (Z * Z); w_phase : phase }.

(** One step of a worker; the user's function may return or throw. *)
Inductive wstep : worker -> event -> worker -> Prop :=
| wstep_begin t lo hi todo :
    wstep (mkWorker t ((lo, hi) :: todo) Idle) (EvBegin t lo hi)
          (mkWorker t todo (InCall lo hi))
| wstep_return t lo hi todo :
    wstep (mkWorker t todo (InCall lo hi)) (EvEnd t lo hi None) (mkWorker t todo Idle)
| wstep_throw t lo hi todo e :
    wstep (mkWorker t todo (InCall lo hi)) (EvEnd t lo hi (Some e)) (mkWorker t todo (Failed e)).

(** The work range was processed, or an exception left it. *)
Definition finished (w : worker) : Prop :=
  match w_phase w with
  | Idle => w_todo w = []
  | Failed _ => True
  | _ => False
  end.

Section Body.
(** [body] is [range_body] for the Range loops and [index_body] for the Index
    loops. *)
Variable body : Z -> Z -> list (Z * Z).

(** Construct the ThreadWorkRange and enter the functor. *)
Definition start_range (r : outcome (Z * Z)) (t : Z) : worker :=
  match (do (lo, hi) <- r; ThreadWorkRange lo hi t) with
  | Ok (lo, hi, _) => mkWorker t (body lo hi) Idle
  | Throw e => mkWorker t [] (Failed e)
  | _ => mkWorker t [] Undefined
  end.

(** Loop body of the static backends, parallelism.hpp:180-186 and 204-212:
    share number [k] of the range, run by thread number [t]. *)
Definition start_share (range_start range_end real_num_threads k t : Z) : worker :=
  start_range (CalcStaticThreadRangeStartAndEnd range_start range_end real_num_threads k) t.

(** Loop body of the dynamic backends, parallelism.hpp:287-289 and 391-393. *)
Definition start_index (index t : Z) : worker :=
  start_range (do e <- i64 (index + 1); Ok (index, e)) t.

(** Life of a dynamic ASYNC worker after its functor is done: OnScopeExit first
    decrements num_live_workers under the mutex, then calls notify_all
    (parallelism.hpp:380-389), then the future becomes ready. *)
Inductive stage : Type := Live | Exited | Notified | Ready.

(** Where the calling thread is inside the dynamic ASYNC loop
    (parallelism.hpp:347-417): loop head, scan for completed workers at position
    [k] of the list, dispatch, evaluate the wait predicate with the mutex held,
    asleep in cv.wait, or leaving the scope with an exception. *)
Inductive dpc : Type :=
| PLoop | PScan (k : nat) | PDispatch | PWait | PAsleep | PUnwind (e : exn).

(** Shared state of the dynamic ASYNC loop (parallelism.hpp:304-345). *)
Record dyn : Type := mkDyn {
  d_pc : dpc;
  d_dispatched : Z;                       (* workers_dispatched *)
  d_live : Z;                             (* num_live_workers *)
  d_keeper : list Z;                      (* thread_number_queue_ *)
  d_active : list (worker * stage) }.     (* active_workers *)

(** State of a loop call. *)
Inductive state : Type :=
(* functor called inline, parallelism.hpp:158-163 and 254-259 *)
| SSerial (w : worker)
(* OpenMP: iterations not yet taken, team threads with their current iteration,
   loop_exception; parallelism.hpp:176-201 and 276-303 *)
| SOmp (mk : Z -> Z -> worker) (items : list Z) (threads : list (Z * option worker))
       (loop_exception : option exn)
(* std::async static loop: next thread number to dispatch, real_num_threads,
   workers whose future was already taken with get(), the other workers;
   parallelism.hpp:204-229 *)
| SAsync (mk : Z -> worker) (next real : Z) (got rest : list worker)
(* leaving the static async loop with an exception: the destructor of the
   vector of futures waits for every worker *)
| SAsyncUnwind (e : exn) (workers : list worker)
(* std::async dynamic loop with real_num_threads and total_range *)
| SDyn (real total : Z) (d : dyn)
(* the loop function returned or threw *)
| SFinal (r : outcome unit).

(** Move of all threads after notify_all: a sleeping caller wakes up and
    re-evaluates its predicate. *)
Definition wake (pc : dpc) : dpc := match pc with PAsleep => PWait | _ => pc end.

(** One step of a loop call.  [spurious] says whether condition variables may
    wake up spuriously. *)
Inductive step (spurious : bool) : state -> list event -> state -> Prop :=
(* --- serial --- *)
| step_serial_work w ev w' :
    wstep w ev w' -> step spurious (SSerial w) [ev] (SSerial w')
| step_serial_return t :
    step spurious (SSerial (mkWorker t [] Idle)) [] (SFinal (Ok tt))
| step_serial_throw t todo e :
    step spurious (SSerial (mkWorker t todo (Failed e))) [] (SFinal (Throw e))
(* --- OpenMP: any idle team thread may take any remaining iteration; this
   covers schedule(static) and schedule(dynamic) --- *)
| step_omp_take mk i1 i i2 a t b ex :
    step spurious (SOmp mk (i1 ++ i :: i2) (a ++ (t, None) :: b) ex) []
         (SOmp mk (i1 ++ i2) (a ++ (t, Some (mk i t)) :: b) ex)
| step_omp_work mk items a t w ev w' b ex :
    wstep w ev w' ->
    step spurious (SOmp mk items (a ++ (t, Some w) :: b) ex) [ev]
         (SOmp mk items (a ++ (t, Some w') :: b) ex)
| step_omp_iteration_done mk items a t w b ex :
    finished w ->
    step spurious (SOmp mk items (a ++ (t, Some w) :: b) ex) []
         (SOmp mk items (a ++ (t, None) :: b)
               (match w_phase w with Failed e => Some e | _ => ex end))
| step_omp_return mk threads ex :
    Forall (fun th => snd th = None) threads ->
    step spurious (SOmp mk [] threads ex) []
         (SFinal (match ex with Some e => Throw e | None => Ok tt end))
(* --- static async --- *)
| step_async_dispatch mk next real rest :
    next < real ->
    step spurious (SAsync mk next real [] rest) []
         (SAsync mk (next + 1) real [] (rest ++ [mk next]))
| step_async_work mk next real got a w ev w' b :
    wstep w ev w' ->
    step spurious (SAsync mk next real got (a ++ w :: b)) [ev]
         (SAsync mk next real got (a ++ w' :: b))
| step_async_get mk next real got t rest :
    real <= next ->
    step spurious (SAsync mk next real got (mkWorker t [] Idle :: rest)) []
         (SAsync mk next real (got ++ [mkWorker t [] Idle]) rest)
| step_async_get_throws mk next real got t todo e rest :
    real <= next ->
    step spurious (SAsync mk next real got (mkWorker t todo (Failed e) :: rest)) []
         (SAsyncUnwind e (mkWorker t todo (Failed e) :: rest))
| step_async_return mk next real got :
    real <= next ->
    step spurious (SAsync mk next real got []) [] (SFinal (Ok tt))
| step_async_unwind_work e a w ev w' b :
    wstep w ev w' ->
    step spurious (SAsyncUnwind e (a ++ w :: b)) [ev] (SAsyncUnwind e (a ++ w' :: b))
| step_async_unwound e workers :
    Forall finished workers ->
    step spurious (SAsyncUnwind e workers) [] (SFinal (Throw e))
(* --- dynamic async: worker threads --- *)
| step_dyn_work real total pc n live keep a w ev w' b :
    wstep w ev w' ->
    step spurious (SDyn real total (mkDyn pc n live keep (a ++ (w, Live) :: b))) [ev]
         (SDyn real total (mkDyn pc n live keep (a ++ (w', Live) :: b)))
| step_dyn_decrement real total pc n live keep a w b :
    finished w ->
    step spurious (SDyn real total (mkDyn pc n live keep (a ++ (w, Live) :: b))) []
         (SDyn real total (mkDyn pc n (live - 1) keep (a ++ (w, Exited) :: b)))
| step_dyn_notify real total pc n live keep a w b :
    step spurious (SDyn real total (mkDyn pc n live keep (a ++ (w, Exited) :: b))) []
         (SDyn real total (mkDyn (wake pc) n live keep (a ++ (w, Notified) :: b)))
| step_dyn_ready real total pc n live keep a w b :
    step spurious (SDyn real total (mkDyn pc n live keep (a ++ (w, Notified) :: b))) []
         (SDyn real total (mkDyn pc n live keep (a ++ (w, Ready) :: b)))
(* --- dynamic async: calling thread --- *)
| step_dyn_continue real total n live keep act :
    act <> [] \/ n < total ->
    step spurious (SDyn real total (mkDyn PLoop n live keep act)) []
         (SDyn real total (mkDyn (PScan 0) n live keep act))
| step_dyn_return real total n live keep :
    total <= n ->
    step spurious (SDyn real total (mkDyn PLoop n live keep [])) [] (SFinal (Ok tt))
| step_dyn_reap real total k n live keep a t b :
    length a = k ->
    step spurious (SDyn real total
            (mkDyn (PScan k) n live keep (a ++ (mkWorker t [] Idle, Ready) :: b))) []
         (SDyn real total (mkDyn (PScan k) n live (keep ++ [t]) (a ++ b)))
| step_dyn_reap_throws real total k n live keep a t todo e b :
    length a = k ->
    step spurious (SDyn real total
            (mkDyn (PScan k) n live keep (a ++ (mkWorker t todo (Failed e), Ready) :: b))) []
         (SDyn real total
            (mkDyn (PUnwind e) n live keep (a ++ (mkWorker t todo (Failed e), Ready) :: b)))
| step_dyn_skip real total k n live keep a w sg b :
    length a = k -> sg <> Ready ->
    step spurious (SDyn real total (mkDyn (PScan k) n live keep (a ++ (w, sg) :: b))) []
         (SDyn real total (mkDyn (PScan (S k)) n live keep (a ++ (w, sg) :: b)))
| step_dyn_scanned real total k n live keep act :
    length act = k ->
    step spurious (SDyn real total (mkDyn (PScan k) n live keep act)) []
         (SDyn real total (mkDyn PDispatch n live keep act))
(* the index given to the worker is workers_dispatched, parallelism.hpp:402 *)
| step_dyn_dispatch real total n live t keep act :
    Z.of_nat (length act) < real -> n < total ->
    step spurious (SDyn real total (mkDyn PDispatch n live (t :: keep) act)) []
         (SDyn real total
            (mkDyn PDispatch (n + 1) (live + 1) keep (act ++ [(start_index n t, Live)])))
(* CheckoutThreadNumber throws, parallelism.hpp:333-336 *)
| step_dyn_no_number real total n live act :
    Z.of_nat (length act) < real -> n < total ->
    step spurious (SDyn real total (mkDyn PDispatch n live [] act)) []
         (SDyn real total (mkDyn (PUnwind RuntimeError) n (live + 1) [] act))
| step_dyn_dispatched real total n live keep act :
    real <= Z.of_nat (length act) \/ total <= n ->
    step spurious (SDyn real total (mkDyn PDispatch n live keep act)) []
         (SDyn real total
            (mkDyn (match act with [] => PLoop | _ => PWait end) n live keep act))
(* cv.wait(lock, predicate), parallelism.hpp:408-416 *)
| step_dyn_wait_done real total n live keep act :
    live < Z.of_nat (length act) ->
    step spurious (SDyn real total (mkDyn PWait n live keep act)) []
         (SDyn real total (mkDyn PLoop n live keep act))
| step_dyn_wait_sleep real total n live keep act :
    Z.of_nat (length act) <= live ->
    step spurious (SDyn real total (mkDyn PWait n live keep act)) []
         (SDyn real total (mkDyn PAsleep n live keep act))
| step_dyn_spurious real total n live keep act :
    spurious = true ->
    step spurious (SDyn real total (mkDyn PAsleep n live keep act)) []
         (SDyn real total (mkDyn PWait n live keep act))
(* the destructor of active_workers waits for every future *)
| step_dyn_unwound real total e n live keep act :
    Forall (fun p => snd p = Ready) act ->
    step spurious (SDyn real total (mkDyn (PUnwind e) n live keep act)) [] (SFinal (Throw e)).

(** enum class ParallelForBackend, parallelism.hpp:135. *)
Inductive backend : Type := OPENMP | ASYNC | BEST_AVAILABLE.

(** Choice of implementation, parallelism.hpp:171-174 and 267-270;
    [omp_in_build] is openmp_helpers::IsOmpEnabledInBuild(). *)
Definition use_omp (omp_in_build : bool) (bk : backend) : bool :=
  match bk with OPENMP => true | ASYNC => false | BEST_AVAILABLE => omp_in_build end.

(** Threads 0..T-1 of the OpenMP team, all without work.  The runtime gives at
    most [real] of the requested threads ([team] is its choice); without OpenMP
    the pragma is ignored and thread number 0 runs everything
    (openmp_helpers.hpp:42-49). *)
Definition omp_team (omp_in_build : bool) (team : nat) (real : Z) : list (Z * option worker) :=
  map (fun t => (t, None))
      (seq_from 0 (if omp_in_build then Nat.min team (Z.to_nat real) else 1)).

(** StaticParallelForRangeLoop, parallelism.hpp:139-230 (with [index_body]:
    StaticParallelForIndexLoop, 422-441): state in which the loop starts. *)
Definition StaticParallelForLoop (omp_in_build : bool) (team : nat) (num_threads : Z)
    (range_start range_end : Z) (bk : backend) : state :=
  if range_end <? range_start then SFinal (Throw RuntimeError)
  else match i64 (range_end - range_start) with
  | Ok total_range =>
    if total_range =? 0 then SFinal (Ok tt)
    else if negb (IsParallel num_threads) || (total_range =? 1) then
      SSerial (start_range (Ok (range_start, range_end)) 0)
    else
      let real_num_threads := Z.min num_threads total_range in
      if use_omp omp_in_build bk then
        SOmp (fun k t => start_share range_start range_end real_num_threads k t)
             (seqZ 0 real_num_threads) (omp_team omp_in_build team real_num_threads) None
      else
        SAsync (fun k => start_share range_start range_end real_num_threads k k)
               0 real_num_threads [] []
  | _ => SFinal UB
  end.

(** DynamicParallelForRangeLoop, parallelism.hpp:235-418 (with [index_body]:
    DynamicParallelForIndexLoop, 445-464): state in which the loop starts. *)
Definition DynamicParallelForLoop (omp_in_build : bool) (team : nat) (num_threads : Z)
    (range_start range_end : Z) (bk : backend) : state :=
  if range_end <? range_start then SFinal (Throw RuntimeError)
  else match i64 (range_end - range_start) with
  | Ok total_range =>
    if total_range =? 0 then SFinal (Ok tt)
    else if negb (IsParallel num_threads) || (total_range =? 1) then
      SSerial (start_range (Ok (range_start, range_end)) 0)
    else
      let real_num_threads := Z.min num_threads total_range in
      if use_omp omp_in_build bk then
        SOmp start_index (seqZ range_start range_end)
             (omp_team omp_in_build team real_num_threads) None
      else
        SDyn real_num_threads total_range
             (mkDyn PLoop 0 0 (seqZ 0 real_num_threads) [])
  | _ => SFinal UB
  end.

(** An execution: a sequence of steps with the events it produced, in order. *)
Inductive run (spurious : bool) (s : state) : list event -> state -> Prop :=
| run_start : run spurious s [] s
| run_step tr s1 ev s2 :
    run spurious s tr s1 -> step spurious s1 ev s2 -> run spurious s (tr ++ ev) s2.

End Body.
