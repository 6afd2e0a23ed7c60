(** Model of simple_task_planner.hpp: the collection of action primitives, the
    selection of the next primitive and the execution loop.

    Costs are abstract ([cost_ops], see SearchModel.v).  Primitives and callbacks
    may depend on and change the world: a value of type [W] is threaded through
    the calls; planning only reads it (IsCandidate and GetOutcomes are const).
    The collection itself does not change while a task is executed.  A
    std::shared_ptr is an option (null: None).  Log messages are represented by
    the name they mention.  OutcomeWithPrimitiveIndexHash (222-236) returns bool,
    which makes a poor hash but has no other effect. *)
From Coq Require Import String.
From Verif Require Import Base SearchModel.
Local Open Scope Z_scope.
Local Open Scope list_scope.

Definition int32_max : Z := 2147483647.

Section Task.
Context {State C W : Type} (ops : cost_ops C) (state_equaler : State -> State -> bool).

(** ActionPrimitiveInterface, simple_task_planner.hpp:30-54; the wrapper
    (64-102) forwards to four stored functions. *)
Record primitive : Type := mkPrimitive {
  Name : string;
  IsCandidate : W -> State -> bool;
  GetOutcomes : W -> State -> outcome (list (State * C));
  Execute : W -> State -> outcome (list State * W) }.

(** ActionPrimitiveCollection::Log, simple_task_planner.hpp:119-125. *)
Definition Log (logging_fn : option (string -> outcome unit)) (name : string) : outcome unit :=
  match logging_fn with Some f => f name | None => Ok tt end.

(** ActionPrimitiveCollection::RegisterPrimitive, simple_task_planner.hpp:127-142:
    the outcome of the call and the primitives afterwards. *)
Definition RegisterPrimitive (logging_fn : option (string -> outcome unit)) (primitives : list primitive)
    (new_primitive : option primitive) : outcome unit * list primitive :=
  match new_primitive with
  | None => (UB, primitives)
  | Some p =>
    if existsb (fun q => String.eqb (Name q) (Name p)) primitives then (Throw InvalidArgument, primitives)
    else match Log logging_fn (Name p) with
         | Ok _ => (Ok tt, primitives ++ [p])
         | o => (o, primitives)
         end
  end.

(** Loop of UnregisterPrimitivesByName, simple_task_planner.hpp:147-157. *)
Fixpoint keep_others (logging_fn : option (string -> outcome unit)) (names : list string)
    (primitives : list primitive) : outcome (list primitive) :=
  match primitives with
  | [] => Ok []
  | p :: rest =>
    if existsb (String.eqb (Name p)) names
    then do _ <- Log logging_fn (Name p); keep_others logging_fn names rest
    else do kept <- keep_others logging_fn names rest; Ok (p :: kept)
  end.

(** ActionPrimitiveCollection::UnregisterPrimitivesByName,
    simple_task_planner.hpp:144-159; UnregisterPrimitiveByName (161-164) passes
    one name. *)
Definition UnregisterPrimitivesByName (logging_fn : option (string -> outcome unit)) (primitives : list primitive)
    (names : list string) : outcome unit * list primitive :=
  match keep_others logging_fn names primitives with
  | Ok kept => (Ok tt, kept)
  | Throw e => (Throw e, primitives)
  | UB => (UB, primitives)
  | Diverge => (Diverge, primitives)
  end.
Definition UnregisterPrimitiveByName (logging_fn : option (string -> outcome unit)) (primitives : list primitive)
    (name : string) : outcome unit * list primitive :=
  UnregisterPrimitivesByName logging_fn primitives [name].

(** ActionPrimitiveCollection::ClearPrimitives, simple_task_planner.hpp:166. *)
Definition ClearPrimitives (primitives : list primitive) : outcome unit * list primitive := (Ok tt, []).

(** OutcomeWithPrimitiveIndexEqual, simple_task_planner.hpp:239-256.  An
    OutcomeWithPrimitiveIndex (191-210) is a pair. *)
Definition outcome_equal (a b : State * Z) : bool :=
  (snd a =? snd b) && state_equaler (fst a) (fst b).

(** The loop over the outcomes of one primitive, simple_task_planner.hpp:303-308:
    the StateWithCost constructor refuses negative costs. *)
Fixpoint package (index : Z) (outcomes : list (State * C)) : outcome (list ((State * Z) * C)) :=
  match outcomes with
  | [] => Ok []
  | (s, c) :: rest =>
    do x <- MakeStateWithCost ops (s, index) c;
    do xs <- package index rest; Ok (x :: xs)
  end.

(** generate_children_function, simple_task_planner.hpp:286-313, from primitive
    number [index] on. *)
Fixpoint generate_children (world : W) (index : Z) (primitives : list primitive) (current : State)
    : outcome (list ((State * Z) * C)) :=
  match primitives with
  | [] => Ok []
  | p :: rest =>
    do here <- (if IsCandidate p world current
                then do outcomes <- GetOutcomes p world current; package index outcomes
                else Ok []);
    do there <- generate_children world (index + 1) rest current;
    Ok (here ++ there)
  end.

(** PlanTaskStateSequence, simple_task_planner.hpp:264-349. *)
Definition PlanTaskStateSequence (world : W) (primitives : list primitive) (task_sequence_complete_fn : W -> State -> bool)
    (start_states : list State) (state_heuristic_fn : option (W -> State -> C))
    (pick : picker (pq_elem (State * Z) C)) (fuel : nat) : outcome (list (State * Z) * C) :=
  PerformAstarSearch ops outcome_equal
    (map (fun s => ((s, -1), czero ops)) start_states)
    (fun o => task_sequence_complete_fn world (fst o))
    (fun o => generate_children world 0 primitives (fst o))
    (fun o => match state_heuristic_fn with Some h => h world (fst o) | None => czero ops end)
    true pick fuel.

(** Search for the selected outcome, simple_task_planner.hpp:421-429. *)
Fixpoint find_outcome (s : State) (index : Z) (states : list State) : Z :=
  match states with
  | [] => -1
  | t :: rest => if state_equaler s t then index else find_outcome s (index + 1) rest
  end.

(** GetNextPrimitiveToExecute, simple_task_planner.hpp:393-457.  The result
    (NextPrimitiveToExecute, 353-391) is the planning result, the primitive
    (None: none) and the index of the selected outcome. *)
Definition GetNextPrimitiveToExecute (world : W) (primitives : list primitive) (task_sequence_complete_fn : W -> State -> bool)
    (potential_outcome_states : list State) (state_heuristic_fn : option (W -> State -> C))
    (pick : picker (pq_elem (State * Z) C)) (fuel : nat)
    : outcome ((list (State * Z) * C) * option primitive * Z) :=
  match potential_outcome_states with
  | [] => Throw InvalidArgument
  | _ =>
    do (path, cost) <- PlanTaskStateSequence world primitives task_sequence_complete_fn potential_outcome_states
                         state_heuristic_fn pick fuel;
    if cisinf ops cost then Throw RuntimeError
    else
      do first <- at_get path 0;
      let best_outcome_index := find_outcome (fst first) 0 potential_outcome_states in
      if best_outcome_index <? 0 then Throw RuntimeError
      else if (1 <? length path)%nat then
        do next <- at_get path 1;
        do p <- at_index primitives (snd next);
        Ok ((path, cost), Some p, best_outcome_index)
      else Ok ((path, cost), None, best_outcome_index)
  end.

(** What an execution does, in order: it plans for the current outcomes in some
    world, selecting one of them and the next primitive, and it executes a
    primitive in some world. *)
Inductive event : Type :=
| Plans (world : W) (outcomes : list State) (selected : State) (next : option primitive)
| Executes (world : W) (p : primitive) (on : State).

(** The optional user callbacks, simple_task_planner.hpp:459-476; they see the
    world and may change it or throw. *)
Record callbacks : Type := mkCallbacks {
  pre_execution : option (W -> State -> primitive -> (list (State * Z) * C) -> outcome W);
  post_execution : option (W -> list State -> outcome W);
  post_outcome : option (W -> list State -> Z -> (list (State * Z) * C) -> outcome W) }.

Definition logged {A} (e : event) (x : list event * A) : list event * A := (e :: fst x, snd x).

(** The loop of PerformSingleTaskExecution, simple_task_planner.hpp:494-555:
    events and result (the trace of selected states and the final world).
    [pick_of] and [search_fuel] are the oracles and the iteration bound of the
    searches; [fuel] bounds the loop. *)
Section Execution.
Context (logging_fn : option (string -> outcome unit)) (primitives : list primitive)
  (task_sequence_complete_fn : W -> State -> bool) (max_primitive_executions : Z)
  (state_heuristic_fn : option (W -> State -> C)) (cbs : callbacks)
  (pick_of : nat -> picker (pq_elem (State * Z) C)) (search_fuel : nat).

Fixpoint execution_loop (fuel planned : nat) (world : W) (current_outcomes : list State) (task_state_trace : list State)
    (num_primitive_executions : Z) : list event * outcome (list State * W) :=
  if negb ((num_primitive_executions <? max_primitive_executions) || (max_primitive_executions <? 0))
  then ([], Ok (task_state_trace, world))
  else
    match fuel with
    | O => ([], Diverge)
    | S fuel' =>
      match GetNextPrimitiveToExecute world primitives task_sequence_complete_fn current_outcomes
              state_heuristic_fn (pick_of planned) search_fuel with
      | Ok (plan, next_primitive, index) =>
        match at_index current_outcomes index with
        | Ok selected_outcome =>
          let task_state_trace := task_state_trace ++ [selected_outcome] in
          logged (Plans world current_outcomes selected_outcome next_primitive)
          (match (match post_outcome cbs with Some f => f world current_outcomes index plan | None => Ok world end) with
           | Ok world =>
             match next_primitive with
             | None => ([], Ok (task_state_trace, world))
             | Some p =>
               match (match pre_execution cbs with Some f => f world selected_outcome p plan | None => Ok world end) with
               | Ok world =>
                 match Log logging_fn (Name p) with
                 | Ok _ =>
                   if num_primitive_executions =? int32_max then ([], UB)
                   else
                     logged (Executes world p selected_outcome)
                     (match Execute p world selected_outcome with
                      | Ok (outcomes, world) =>
                        match (match post_execution cbs with Some f => f world outcomes | None => Ok world end) with
                        | Ok world =>
                          execution_loop fuel' (S planned) world outcomes task_state_trace (num_primitive_executions + 1)
                        | Throw e => ([], Throw e) | UB => ([], UB) | Diverge => ([], Diverge)
                        end
                      | Throw e => ([], Throw e) | UB => ([], UB) | Diverge => ([], Diverge)
                      end)
                 | Throw e => ([], Throw e) | UB => ([], UB) | Diverge => ([], Diverge)
                 end
               | Throw e => ([], Throw e) | UB => ([], UB) | Diverge => ([], Diverge)
               end
             end
           | Throw e => ([], Throw e) | UB => ([], UB) | Diverge => ([], Diverge)
           end)
        | Throw e => ([], Throw e) | UB => ([], UB) | Diverge => ([], Diverge)
        end
      | Throw e => ([], Throw e) | UB => ([], UB) | Diverge => ([], Diverge)
      end
    end.

(** PerformSingleTaskExecution, simple_task_planner.hpp:478-556; the overload with
    one start state (558-584) passes a container with that state. *)
Definition PerformSingleTaskExecution (fuel : nat) (world : W) (start_states : list State)
    : list event * outcome (list State * W) :=
  execution_loop fuel 0 world start_states [] 0.
Definition PerformSingleTaskExecutionFrom (fuel : nat) (world : W) (start_state : State)
    : list event * outcome (list State * W) :=
  PerformSingleTaskExecution fuel world [start_state].

End Execution.
End Task.
Arguments primitive : clear implicits.
Arguments event : clear implicits.
Arguments callbacks : clear implicits.
