(** Specification vocabulary for the task planner (C66, C67, C87). *)
From Coq Require Import String.
From Verif Require Import Base SearchModel SearchSpec TaskModel.
Local Open Scope Z_scope.
Local Open Scope list_scope.

(** * The collection of primitives *)
Section Registry.
Context {State C W : Type}.
Notation primitive := (primitive State C W).

Inductive registry_op : Type :=
| Register (p : primitive)
| Unregister (names : list string)
| Clear.

(** One call on the collection: its outcome and the primitives afterwards. *)
Definition call (logging_fn : option (string -> outcome unit)) (primitives : list primitive) (o : registry_op)
    : outcome unit * list primitive :=
  match o with
  | Register p => RegisterPrimitive logging_fn primitives (Some p)
  | Unregister names => UnregisterPrimitivesByName logging_fn primitives names
  | Clear => ClearPrimitives primitives
  end.

(** The primitives after a sequence of calls, whether they throw or not. *)
Fixpoint after (logging_fn : option (string -> outcome unit)) (primitives : list primitive) (l : list registry_op)
    : list primitive :=
  match l with
  | [] => primitives
  | o :: rest => after logging_fn (snd (call logging_fn primitives o)) rest
  end.

Definition removes (o : registry_op) (name : string) : Prop :=
  match o with Register _ => False | Unregister names => In name names | Clear => True end.
Definition registers (o : registry_op) (name : string) : Prop :=
  match o with Register p => Name p = name | _ => False end.

(** Call number [i] registers [p], no earlier call left the name in use, and no
    later call removes it. *)
Definition registered_by (l : list registry_op) (i : nat) (p : primitive) : Prop :=
  nth_error l i = Some (Register p) /\
  (forall j o, (j > i)%nat -> nth_error l j = Some o -> ~ removes o (Name p)) /\
  (forall j o, (j < i)%nat -> nth_error l j = Some o -> registers o (Name p) ->
     exists k o', (j < k < i)%nat /\ nth_error l k = Some o' /\ removes o' (Name p)).
End Registry.
Arguments registry_op : clear implicits.

(** * Plans *)
Section Plans.
Context {State C W : Type} (ops : cost_ops C).
Notation primitive := (primitive State C W).

(** In world [w], [p] is registered, can be executed on [s] and may lead to [t]
    at cost [c]. *)
Definition may_lead (primitives : list primitive) (w : W) (p : primitive) (s t : State) (c : C) : Prop :=
  In p primitives /\ IsCandidate p w s = true /\
  exists outcomes, GetOutcomes p w s = Ok outcomes /\ In (t, c) outcomes.
Definition task_step (primitives : list primitive) (w : W) (s t : State) (c : C) : Prop :=
  exists p, may_lead primitives w p s t c.

(** Some sequence of possible outcomes leads from [s] to a state that completes
    the task, and costs [d]. *)
Definition completes_at (primitives : list primitive) (w : W) (complete : W -> State -> bool) (s : State) (d : C) : Prop :=
  exists l t, walk ops (task_step primitives w) s (czero ops) l t d /\ complete w t = true.
(** The same beginning with primitive [p]. *)
Definition completes_with (primitives : list primitive) (w : W) (complete : W -> State -> bool) (p : primitive)
    (s : State) (d : C) : Prop :=
  exists s' c l t, may_lead primitives w p s s' c /\
    walk ops (task_step primitives w) s' (cadd ops (czero ops) c) l t d /\ complete w t = true.

(** The outcome generators return, and their costs are not negative. *)
Definition outcomes_fine (primitives : list primitive) (w : W) : Prop :=
  forall p s, In p primitives -> IsCandidate p w s = true ->
  exists outcomes, GetOutcomes p w s = Ok outcomes /\ forall t c, In (t, c) outcomes -> cle ops (czero ops) c.

(** The heuristic never exceeds what remains. *)
Definition heuristic_fine (primitives : list primitive) (w : W) (complete : W -> State -> bool) (h : option (W -> State -> C)) : Prop :=
  match h with
  | None => True
  | Some h =>
    (forall s c l t d, cle ops (czero ops) c -> complete w t = true ->
       walk ops (task_step primitives w) s c l t d -> cle ops (cadd ops c (h w s)) d) /\
    (forall t, complete w t = true -> cle ops (czero ops) (h w t))
  end.

(** Number of executions in a log. *)
Definition is_execution (e : event State C W) : bool := match e with Executes _ _ _ => true | _ => false end.
Definition executions (log : list (event State C W)) : Z := Z.of_nat (length (filter is_execution log)).
(** The selected states of a log. *)
Definition selected_states (log : list (event State C W)) : list State :=
  flat_map (fun e => match e with Plans _ _ s _ => [s] | _ => [] end) log.

(** For the outcomes [os] in world [w] the state [s] and the primitive [next] were
    selected: one of the outcomes; a primitive only if no outcome completes the
    task, and then a registered one that is a candidate for [s]; none only if [s]
    completes the task. *)
Definition good_choice (primitives : list primitive) (complete : W -> State -> bool)
    (w : W) (os : list State) (s : State) (next : option primitive) : Prop :=
  In s os /\
  match next with
  | None => complete w s = true
  | Some p => In p primitives /\ IsCandidate p w s = true /\ forall s', In s' os -> complete w s' = false
  end.

(** Logs of executions that start with the outcomes [os]: planning for the current
    outcomes, executing the selected primitive on the selected state, going on
    with the outcomes it returned. *)
Inductive task_run (primitives : list primitive) (complete : W -> State -> bool) : list State -> list (event State C W) -> Prop :=
| run_nothing os : task_run primitives complete os []
| run_planned w os s next : good_choice primitives complete w os s next ->
    task_run primitives complete os [Plans w os s next]
| run_executed w os s p w' : good_choice primitives complete w os s (Some p) ->
    task_run primitives complete os [Plans w os s (Some p); Executes w' p s]
| run_more w os s p w' os' w'' log : good_choice primitives complete w os s (Some p) ->
    Execute p w' s = Ok (os', w'') -> task_run primitives complete os' log ->
    task_run primitives complete os (Plans w os s (Some p) :: Executes w' p s :: log).

(** Nothing the loop calls fails to return or has undefined behaviour. *)
Definition calls_return {A} (o : outcome A) : Prop := o <> Diverge /\ o <> UB.
Definition everything_returns (logging_fn : option (string -> outcome unit)) (primitives : list primitive) (cbs : callbacks State C W) : Prop :=
  (forall n, calls_return (Log logging_fn n)) /\
  (forall p w s, In p primitives -> calls_return (Execute p w s)) /\
  (forall f w s p plan, pre_execution cbs = Some f -> calls_return (f w s p plan)) /\
  (forall f w os, post_execution cbs = Some f -> calls_return (f w os)) /\
  (forall f w os i plan, post_outcome cbs = Some f -> calls_return (f w os i plan)).
End Plans.
