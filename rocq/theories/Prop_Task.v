(** Properties C66, C67 and C87 (task planner).  Model in TaskModel.v, vocabulary
    in TaskSpec.v. *)
From Coq Require Import String.
From Verif Require Import Base SearchModel SearchSpec SearchProof SearchProof2 SearchProof4 Double SearchDouble TaskDouble TaskModel TaskSpec TaskProof TaskProof2.
Local Open Scope Z_scope.
Local Open Scope list_scope.

(** C66: after any sequence of calls, throwing or not, with any logger, the names
    are unique. *)
Theorem C66_names_unique :
  forall (State C W : Type) logging_fn (l : list (registry_op State C W)), NoDup (map Name (after logging_fn [] l)).
Proof. intros State C W lg l. apply after_unique. constructor. Qed.

(** A duplicate is refused and changes nothing, whatever the logger; *)
Theorem C66_duplicate_refused :
  forall (State C W : Type) logging_fn (primitives : list (primitive State C W)) p,
  In (Name p) (map Name primitives) -> call logging_fn primitives (Register p) = (Throw InvalidArgument, primitives).
Proof. intros State C W lg ps p H. cbn. unfold RegisterPrimitive. apply in_use in H. now rewrite H. Qed.

(** unknown names are ignored; *)
Theorem C66_unknown_ignored :
  forall (State C W : Type) logging_fn (primitives : list (primitive State C W)) names,
  (forall n, In n names -> ~ In n (map Name primitives)) -> call logging_fn primitives (Unregister names) = (Ok tt, primitives).
Proof.
  intros State C W lg ps names H. cbn. unfold UnregisterPrimitivesByName. rewrite keep_ok.
  - f_equal. induction ps as [|p ps IH]; [reflexivity|]. cbn. destruct (existsb (String.eqb (Name p)) names) eqn:E; cbn.
    + exfalso. apply existsb_exists in E as (n & Hn & En). apply String.eqb_eq in En. apply (H n Hn). left. exact En.
    + f_equal. apply IH. intros n Hn Hi. apply (H n Hn). now right.
  - intros p Hp Hn. exfalso. apply (H _ Hn). now apply in_map.
Qed.

(** removing one name removes the primitive of that name and leaves the others in their order; *)
Theorem C66_by_name :
  forall (State C W : Type) logging_fn (primitives : list (primitive State C W)) name, (forall n, Log logging_fn n = Ok tt) ->
  exists rest, UnregisterPrimitiveByName logging_fn primitives name = (Ok tt, rest) /\
    (forall p, In p rest <-> In p primitives /\ Name p <> name) /\
    (forall before p after, NoDup (map Name primitives) -> primitives = before ++ p :: after -> Name p = name -> rest = before ++ after).
Proof.
  intros State C W lg ps name LG. unfold UnregisterPrimitiveByName, UnregisterPrimitivesByName. rewrite keep_ok by (intros; apply LG).
  eexists. split; [reflexivity|]. split.
  - intros p. rewrite filter_In. cbn [existsb]. rewrite Bool.orb_false_r. destruct (String.eqb_spec (Name p) name); cbn; intuition congruence.
  - intros before p after ND -> E. rewrite map_app in ND. cbn [map] in ND. apply NoDup_remove_2 in ND. rewrite E, <- map_app in ND.
    rewrite filter_app. cbn [filter existsb]. rewrite E, String.eqb_refl. cbn [orb negb]. rewrite <- filter_app.
    revert ND. generalize (before ++ after). intros l ND. induction l as [|q l IH]; [reflexivity|]. cbn [filter existsb map] in *.
    destruct (String.eqb_spec (Name q) name) as [X|X]; [exfalso; apply ND; now left|]. cbn. f_equal. apply IH. intros I. apply ND. now right.
Qed.
Print Assumptions C66_by_name.

(** a call that throws (the logger may) changes nothing; *)
Theorem C66_failure_no_effect :
  forall (State C W : Type) logging_fn (primitives : list (primitive State C W)) o,
  fst (call logging_fn primitives o) <> Ok tt -> snd (call logging_fn primitives o) = primitives.
Proof.
  intros State C W lg ps [p|names|]; cbn.
  - unfold RegisterPrimitive. destruct (existsb _ ps); [reflexivity|]. destruct (Log lg (Name p)) as [[]| | |]; cbn; congruence.
  - unfold UnregisterPrimitivesByName. destruct (keep_others lg names ps); cbn; congruence.
  - congruence.
Qed.

(** and a primitive is in the collection exactly if some call registered it while
    its name was free and no later call removed it. *)
Theorem C66_exactly_the_registered :
  forall (State C W : Type) logging_fn (l : list (registry_op State C W)), (forall n, Log logging_fn n = Ok tt) ->
  forall p, In p (after logging_fn [] l) <-> exists i, registered_by l i p.
Proof. intros State C W lg l LG. exact (registered_in lg l LG). Qed.

Definition named (n : string) : primitive Z Z unit := mkPrimitive n (fun _ _ => true) (fun _ _ => Ok []) (fun w s => Ok ([], w)).
Example C66_nonvacuous :
  map Name (after None [] [Register (named "a"); Register (named "b"); Register (named "a"); Unregister ["a"; "x"]%string; Register (named "a")])
    = ["b"; "a"]%string /\
  registered_by [Register (named "a"); Register (named "b"); Unregister ["a"]%string; Register (named "a")] 3 (named "a").
Proof.
  split; [reflexivity|]. split; [reflexivity|]. split.
  - intros j o Hj E. do 4 (destruct j as [|j]; [lia|]). destruct j; discriminate E.
  - intros j o Hj E R. destruct j as [|[|[|j]]].
    + exists 2%nat, (Unregister ["a"%string]). repeat split; [lia|lia|now left].
    + injection E as <-. discriminate R.
    + injection E as <-. contradiction.
    + lia.
Qed.

(** C67: an execution, whether it returns or fails, performs at most the permitted
    number of primitives; the log shows that each executed primitive was selected
    for the state it is executed on, was a candidate for it and that planning goes
    on with the outcomes it returned; on return the trace is the list of selected
    states, and unless the permitted number was reached the last of them completes
    the task (good_choice with no next primitive). *)
Theorem C67_bounded_and_follows :
  forall (State C W : Type) (ops : cost_ops C) state_equaler logging_fn (primitives : list (primitive State C W)) complete
    max_primitive_executions heuristic cbs pick_of search_fuel fuel world start_states log r,
  cost_laws ops -> (forall a b, state_equaler a b = true <-> a = b) ->
  (forall n, valid_pick ops (@el_value (State * Z) C) (pick_of n)) ->
  PerformSingleTaskExecution ops state_equaler logging_fn primitives complete max_primitive_executions heuristic cbs
    pick_of search_fuel fuel world start_states = (log, r) ->
  task_run primitives complete start_states log /\
  (0 <= max_primitive_executions -> executions log <= max_primitive_executions) /\
  forall trace world', r = Ok (trace, world') ->
    trace = selected_states log /\
    (max_primitive_executions < 0 \/ executions log < max_primitive_executions ->
     exists log' w os s, log = log' ++ [Plans w os s None] /\ complete w s = true).
Proof.
  intros State C W ops eqb lg ps complete mx h cbs pick_of sf fuel w ss log r L EQ VP H.
  destruct (loop_spec ops L eqb EQ lg ps complete mx h cbs pick_of sf VP fuel 0 w ss [] 0 log r ltac:(lia) ltac:(lia) H) as (A & B & D).
  split; [exact A|]. split; [exact B|]. intros t w' E. destruct (D t w' E) as [D1 D2]. split; [exact D1|]. intros LT.
  destruct D2 as [D2|(log0 & w0 & os0 & s & ->)]; [lia|]. exists log0, w0, os0, s. split; [reflexivity|].
  clear - A. remember (log0 ++ [Plans w0 os0 s None]) as lg eqn:E. revert log0 E. induction A as [os|w os s1 next G|w os s1 p w1 G|w os s1 p w1 os' w2 log G X A IH]; intros log0 E.
  - destruct log0; discriminate.
  - destruct log0 as [|e [|]]; try discriminate. cbn in E. injection E as -> -> -> ->. exact (proj2 G).
  - destruct log0 as [|e [|e' [|]]]; discriminate.
  - destruct log0 as [|e [|e' log0]]; try discriminate; try (injection E as _ _ E; discriminate). injection E as _ _ E. apply (IH log0 E).
Qed.

(** From one start state. *)
Theorem C67_one_start :
  forall (State C W : Type) (ops : cost_ops C) state_equaler logging_fn (primitives : list (primitive State C W)) complete
    max_primitive_executions heuristic cbs pick_of search_fuel fuel world start_state log r,
  cost_laws ops -> (forall a b, state_equaler a b = true <-> a = b) ->
  (forall n, valid_pick ops (@el_value (State * Z) C) (pick_of n)) ->
  PerformSingleTaskExecutionFrom ops state_equaler logging_fn primitives complete max_primitive_executions heuristic cbs
    pick_of search_fuel fuel world start_state = (log, r) ->
  task_run primitives complete [start_state] log /\
  (0 <= max_primitive_executions -> executions log <= max_primitive_executions) /\
  forall trace world', r = Ok (trace, world') ->
    trace = selected_states log /\
    (max_primitive_executions < 0 \/ executions log < max_primitive_executions ->
     exists log' w os s, log = log' ++ [Plans w os s None] /\ complete w s = true).
Proof.
  intros State C W ops eqb lg ps complete mx h cbs pick_of sf fuel w ss log r L EQ VP H.
  exact (C67_bounded_and_follows State C W ops eqb lg ps complete mx h cbs pick_of sf fuel w [ss] log r L EQ VP H).
Qed.
Print Assumptions C67_one_start.

(** With a limit the execution ends, if the calls it makes do: it neither runs for
    ever nor overflows its counter. *)
Theorem C67_ends :
  forall (State C W : Type) (ops : cost_ops C) state_equaler logging_fn (primitives : list (primitive State C W)) complete
    max_primitive_executions heuristic cbs pick_of search_fuel fuel world start_states,
  cost_laws ops -> (forall a b, state_equaler a b = true <-> a = b) ->
  (forall n, valid_pick ops (@el_value (State * Z) C) (pick_of n)) ->
  everything_returns logging_fn primitives cbs ->
  (forall k w os, calls_return (GetNextPrimitiveToExecute ops state_equaler w primitives complete os heuristic (pick_of k) search_fuel)) ->
  0 <= max_primitive_executions <= 2147483647 -> max_primitive_executions <= Z.of_nat fuel ->
  calls_return (snd (PerformSingleTaskExecution ops state_equaler logging_fn primitives complete max_primitive_executions heuristic cbs
    pick_of search_fuel fuel world start_states)).
Proof.
  intros State C W ops eqb lg ps complete mx h cbs pick_of sf fuel w ss L EQ VP ER RN HM HF.
  apply (loop_returns ops L eqb EQ lg ps complete mx h cbs pick_of sf VP ER (proj2 HM) RN); lia.
Qed.

(** An empty set of outcomes is refused. *)
Theorem C67_no_outcomes :
  forall (State C W : Type) (ops : cost_ops C) state_equaler world (primitives : list (primitive State C W)) complete heuristic pick fuel,
  GetNextPrimitiveToExecute ops state_equaler world primitives complete [] heuristic pick fuel = Throw InvalidArgument.
Proof. reflexivity. Qed.

(** Counting up to three: the first primitive adds one, the second (dearer) one
    reports two possible outcomes. *)
Definition plus_one : primitive Z (option Z) Z :=
  mkPrimitive "one" (fun _ s => s <? 3) (fun _ s => Ok [(s + 1, Some 1)]) (fun w s => Ok ([s + 1], w + 1)).
Definition plus_two : primitive Z (option Z) Z :=
  mkPrimitive "two" (fun _ s => s <? 2) (fun _ s => Ok [(s + 1, Some 1); (s + 2, Some 3)]) (fun w s => Ok ([s + 1; s + 2], w + 1)).
Definition no_callbacks : callbacks Z (option Z) Z := mkCallbacks None None None.
Example C67_nonvacuous :
  (forall n : nat, valid_pick exact_cost (@el_value (Z * Z) (option Z)) (first_min exact_cost (@el_value (Z * Z) (option Z)))) /\
  everything_returns None [plus_one; plus_two] no_callbacks /\
  snd (PerformSingleTaskExecution exact_cost Z.eqb None [plus_two; plus_one] (fun _ s => s =? 3) (-1) None no_callbacks
    (fun _ => first_min exact_cost (@el_value (Z * Z) (option Z))) 50 10 0 [0; 1]) = Ok ([1; 3], 1) /\
  snd (PerformSingleTaskExecution exact_cost Z.eqb None [plus_one] (fun _ s => s =? 3) 1 None no_callbacks
    (fun _ => first_min exact_cost (@el_value (Z * Z) (option Z))) 50 10 0 [0; 1]) = Ok ([1], 1).
Proof.
  split; [intros _; exact (first_min_valid exact_cost exact_laws _)|]. split; [repeat split; try discriminate; destruct H as [<-|[<-|[]]]; discriminate|].
  split; vm_compute; reflexivity.
Qed.

(** C87: with a heuristic that does not overestimate (or none), the primitive
    selected starts a cheapest sequence of possible outcomes that completes the
    task, over all current outcomes. *)
Theorem C87_cheapest :
  forall (State C W : Type) (ops : cost_ops C) state_equaler world (primitives : list (primitive State C W)) complete heuristic
    pick fuel outcomes plan p index,
  cost_laws ops -> (forall a, cle ops (cadd ops a (czero ops)) a) -> (forall a b, state_equaler a b = true <-> a = b) ->
  valid_pick ops (@el_value (State * Z) C) pick ->
  outcomes_fine ops primitives world -> heuristic_fine ops primitives world complete heuristic ->
  GetNextPrimitiveToExecute ops state_equaler world primitives complete outcomes heuristic pick fuel = Ok (plan, Some p, index) ->
  exists s d, nth_error outcomes (Z.to_nat index) = Some s /\ completes_with ops primitives world complete p s d /\
    forall s' d', In s' outcomes -> completes_at ops primitives world complete s' d' -> cle ops d d'.
Proof.
  intros State C W ops eqb w ps complete h pick fuel os plan p idx L Z0 EQ VP OF HF H.
  destruct (next_ok ops L eqb EQ w ps complete h pick VP os fuel plan (Some p) idx H) as (s & AT & _).
  destruct (next_cheapest ops L eqb EQ w ps complete h pick VP os fuel plan p idx s Z0 HF OF H AT) as (d & A & B).
  exists s, d. split; [|now split]. unfold at_index in AT. destruct (idx <? 0); [discriminate|]. unfold at_get in AT.
  destruct (nth_error os (Z.to_nat idx)); [now injection AT as ->|discriminate].
Qed.

(** On a finite space, with finite costs, the selection succeeds exactly if some
    current outcome can lead to completion, and otherwise throws. *)
Theorem C87_complete :
  forall (State C W : Type) (ops : cost_ops C) state_equaler world (primitives : list (primitive State C W)) complete heuristic
    pick outcomes space,
  cost_laws ops -> (forall a b, state_equaler a b = true <-> a = b) -> valid_pick ops (@el_value (State * Z) C) pick ->
  outcomes <> [] -> outcomes_fine ops primitives world ->
  (forall s, In s outcomes -> In s space) -> (forall s t c, In s space -> task_step primitives world s t c -> In t space) ->
  (forall s l t d, In s outcomes -> walk ops (task_step primitives world) s (czero ops) l t d -> clt ops d (cinf ops)) ->
  exists bound, forall fuel, (bound <= fuel)%nat ->
  ((exists s d, In s outcomes /\ completes_at ops primitives world complete s d) /\
   exists plan next index, GetNextPrimitiveToExecute ops state_equaler world primitives complete outcomes heuristic pick fuel = Ok (plan, next, index)) \/
  ((forall s d, In s outcomes -> ~ completes_at ops primitives world complete s d) /\
   GetNextPrimitiveToExecute ops state_equaler world primitives complete outcomes heuristic pick fuel = Throw RuntimeError).
Proof.
  intros State C W ops eqb w ps complete h pick os space L EQ VP NE OF S1 S2 FIN.
  exact (next_total ops L eqb EQ w ps complete h pick VP os space NE OF S1 S2 FIN).
Qed.

(** The extra law holds of doubles and of exact costs. *)
Theorem C87_zero_double : forall a, cle double_cost (cadd double_cost a (czero double_cost)) a.
Proof. exact double_zero. Qed.
Theorem C87_zero_exact : forall a, cle exact_cost (cadd exact_cost a (czero exact_cost)) a.
Proof. intros [a|]; unfold cle; cbn; [|reflexivity]. apply Z.ltb_ge. lia. Qed.

Example C87_nonvacuous :
  outcomes_fine exact_cost [plus_one; plus_two] 0 /\ heuristic_fine exact_cost [plus_one; plus_two] 0 (fun _ s => s =? 3) None /\
  (forall s t c, In s [0; 1; 2; 3] -> task_step [plus_one; plus_two] 0 s t c -> In t [0; 1; 2; 3]) /\
  exists plan index, GetNextPrimitiveToExecute exact_cost Z.eqb 0 [plus_two; plus_one] (fun _ s => s =? 3) [0; 2] None
    (first_min exact_cost (@el_value (Z * Z) (option Z))) 50 = Ok (plan, Some plus_one, index) /\ index = 1.
Proof.
  split; [|split; [exact I|split]].
  - intros p s [<-|[<-|[]]] _; eexists; (split; [reflexivity|]); cbn; intros t c H; repeat destruct H as [[= <- <-]|H]; try reflexivity; contradiction.
  - intros s t c Hs (p & Hp & Cp & os & Eo & Hin). destruct Hp as [<-|[<-|[]]]; cbn in Cp, Eo; injection Eo as <-; apply Z.ltb_lt in Cp; cbn in Hin, Hs |- *;
      repeat destruct Hin as [[= <- <-]|Hin]; try contradiction; lia.
  - do 2 eexists. split; [vm_compute; reflexivity|reflexivity].
Qed.

Print Assumptions C66_names_unique.
Print Assumptions C66_exactly_the_registered.
Print Assumptions C67_bounded_and_follows.
Print Assumptions C67_ends.
Print Assumptions C87_cheapest.
Print Assumptions C87_complete.
Print Assumptions C87_zero_double.
