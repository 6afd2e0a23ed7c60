(** Model of include/common_robotics_utilities/openmp_helpers.hpp, in a build with OpenMP. *)
From Verif Require Import Base.
Local Open Scope Z_scope.

(** The part of OpenMP's state (internal control variables) the helpers use: the number of
    threads asked for by new parallel regions, the most the runtime will give, and whether
    the caller is in a parallel region.  Nested parallelism and dynamic adjustment are off,
    as they are by default. *)
Record omp : Type := mkOmp { nthreads : Z; thread_limit : Z; in_parallel : bool }.
(** The number of threads of a parallel region started now (OpenMP specification). *)
Definition team_size (o : omp) : Z := if in_parallel o then 1 else Z.min (nthreads o) (thread_limit o).
Definition omp_set_num_threads (o : omp) (n : Z) : omp := mkOmp n (thread_limit o) (in_parallel o).
(** The threads of a region write to the one variable of the function, one after the other
    in some order. *)
Definition run_writes (init : Z) (writes : list Z) : Z := fold_left (fun _ w => w) writes init.
(** GetNumOmpThreads, openmp_helpers.hpp:113-125, with GetContextNumOmpThreads (74-89): every
    thread of the region writes the size of the region, or throws (out of the region, which
    ends the program).  [order] is the order in which the threads get there. *)
Definition GetNumOmpThreads (o : omp) (order : list nat) : outcome Z :=
  if (0 <? team_size o) then Ok (run_writes 0 (map (fun _ => team_size o) order)) else Throw RuntimeError.
(** GetMaxNumOmpThreads, 95-107, with GetContextMaxNumOmpThreads (54-69). *)
Definition GetMaxNumOmpThreads (o : omp) (order : list nat) : outcome Z :=
  if (0 <? nthreads o) then Ok (run_writes 0 (map (fun _ => nthreads o) order)) else Throw RuntimeError.
(** The memory accesses of these two regions: thread, and whether it writes; all to the same
    variable, not atomic and not ordered. *)
Definition region_accesses (o : omp) : list (nat * bool) := map (fun t => (t, true)) (seq 0 (Z.to_nat (team_size o))).

(** Programs that use the wrappers: ask for the number of threads, open a scope with a wrapper
    (ChangeOmpNumThreadsWrapper, 150-180; DisableOmpWrapper, 186-190, is the one with 1), run
    a parallel region (one of its threads), throw. *)
Inductive prog : Type :=
| Skip
| Seq (p q : prog)
| Ask
| Wrapper (num_threads : Z) (body : prog)
| Region (body : prog)
| Fail (e : exn).
Definition DisableOmp (body : prog) : prog := Wrapper 1 body.
(** Running a program: the state, the answers to Ask, and the exception it left with.  The
    destructor (171-176) runs on every way out of the scope.  Threads of a region have their
    own copy of the setting. *)
Fixpoint run (p : prog) (o : omp) : omp * list Z * option exn :=
  match p with
  | Skip => (o, [], None)
  | Seq p q =>
      let '(o, a, e) := run p o in
      match e with
      | Some e => (o, a, Some e)
      | None => let '(o, b, e) := run q o in (o, a ++ b, e)
      end
  | Ask => (o, [team_size o], None)
  | Wrapper num_threads body =>
      if in_parallel o then (o, [], Some RuntimeError)
      else if num_threads <=? 0 then (o, [], Some InvalidArgument)
      else
        let starting_num_omp_threads := team_size o in
        let '(o, a, e) := run body (omp_set_num_threads o num_threads) in
        (omp_set_num_threads o starting_num_omp_threads, a, e)
  | Region body =>
      let '(_, a, e) := run body (mkOmp (nthreads o) (thread_limit o) true) in (o, a, e)
  | Fail e => (o, [], Some e)
  end.
