(** Vocabulary for C170: what a caller can record about a planning call. *)
From Verif Require Import Base Effect RrtModel.
Local Open Scope Z_scope.

(** A sample was asked for; the goal check (or the connection check) said yes; the
    termination function said stop. *)
Inductive moment : Type := Sampled | GoalSeen | ToldToStop.

(** No sample is asked for after a solution was found. *)
Definition no_sample_after_goal (log : list moment) : Prop :=
  forall pre post, log = pre ++ GoalSeen :: post -> ~ In Sampled post.

(** Being told to stop is the last thing that happens. *)
Definition stop_last (log : list moment) : Prop := forall pre post, log = pre ++ ToldToStop :: post -> post = [].

(** Callbacks that also write a log. *)
Definition note {W} (m : moment) : eff (W * list moment) unit :=
  on_snd (run log <- get; put (log ++ [m])).
Definition noting {W A} (m : moment) (f : eff W A) : eff (W * list moment) A :=
  run _ <- note m; on_fst f.
Definition noting_yes {W} (m : moment) (f : eff W bool) : eff (W * list moment) bool :=
  run b <- on_fst f; if b : bool then (run _ <- note m; ret true) else ret false.

Definition recorded {S Sample W} (cb : rrt_callbacks S Sample W) : rrt_callbacks S Sample (W * list moment) :=
  mkRrtCallbacks
    (noting Sampled (sampling_fn cb))
    (fun t s => on_fst (nearest_neighbor_fn cb t s))
    (fun s x => on_fst (forward_propagation_fn cb s x))
    (option_map (fun f i => beside (f i)) (state_added_callback_fn cb))
    (fun s => noting_yes GoalSeen (check_goal_reached_fn cb s))
    (option_map (fun f i => beside (f i)) (goal_reached_callback_fn cb))
    (fun n => noting_yes ToldToStop (termination_check_fn cb n)).

Definition bi_recorded {S W} (cb : birrt_callbacks S W) : birrt_callbacks S (W * list moment) :=
  mkBiCallbacks
    (fun st gt a => noting Sampled (select_sample_type_fn cb st gt a))
    (noting Sampled (state_sampling_fn cb))
    (fun t a => noting Sampled (tree_sampling_fn cb t a))
    (fun t s a => on_fst (bi_nearest_neighbor_fn cb t s a))
    (fun s x a => on_fst (propagation_fn cb s x a))
    (option_map (fun f i => beside (f i)) (bi_state_added_callback_fn cb))
    (fun s g a => noting_yes GoalSeen (states_connected_fn cb s g a))
    (option_map (fun f i => beside (f i)) (goal_bridge_callback_fn cb))
    (fun st gt a => on_fst (select_active_tree_fn cb st gt a))
    (fun n m => noting_yes ToldToStop (bi_termination_check_fn cb n m)).
