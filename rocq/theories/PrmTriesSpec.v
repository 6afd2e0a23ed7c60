(** Vocabulary of C173: how many samples BuildRoadMap asks for. *)
From Verif Require Import Base Effect GraphModel SearchModel PrmModel.
Local Open Scope Z_scope.

(** A sample was asked for; the validity check said yes or no. *)
Inductive try_event : Type := Asked | Judged (b : bool).
Definition tries_made (log : list try_event) : Z :=
  Z.of_nat (length (filter (fun e => match e with Asked => true | _ => false end) log)).
Definition valid_found (log : list try_event) : Z :=
  Z.of_nat (length (filter (fun e => match e with Judged b => b | _ => false end) log)).

(** The caller's functions, writing a log. *)
Definition jot {W} (e : try_event) : eff (W * list try_event) unit :=
  on_snd (run log <- get; put (log ++ [e])).
Definition jotted_sampling {W V} (sampling : eff W V) : eff (W * list try_event) V :=
  run _ <- jot Asked; on_fst sampling.
Definition jotted_validity {W V} (state_valid : V -> eff W bool) (v : V) : eff (W * list try_event) bool :=
  run b <- on_fst (state_valid v); run _ <- jot (Judged b); ret b.

(** A function that returns. *)
Definition returns {W A} (m : eff W A) : Prop := forall w, exists a w', m w = (Ok a, w').
(** A provider of nearest neighbors that returns an answer about the whole roadmap. *)
Definition knn_answers {V C} (knn : @knn_provider V C) : Prop :=
  forall g state K dir, 0 <= K -> exists l, knn (as_graph_like g) state K dir (Size g) = Ok l.
