(** Specification vocabulary for math.hpp (C68, C69, C88-...). *)
From Coq Require Import Reals.
From Verif Require Import Base.
Local Open Scope R_scope.

(** Two angles are the same position of a joint if they differ by whole turns. *)
Definition same_angle (a b : R) : Prop := exists k : Z, a = b + IZR k * (2 * PI).
(** The canonical range. *)
Definition in_turn (a : R) : Prop := -PI <= a < PI.
(** [sweep] is the angle from [start] up to [stop], going in positive direction. *)
Definition sweep_to (start stop sweep : R) : Prop := 0 <= sweep < 2 * PI /\ same_angle (start + sweep) stop.
(** [val] is met when going from [start] to [stop] in positive direction. *)
Definition on_arc (start stop val : R) : Prop :=
  exists sweep t, sweep_to start stop sweep /\ 0 <= t <= sweep /\ same_angle (start + t) val.

(** Weighted sums; a missing list of weights stands for ones. *)
Fixpoint weighted_sum (values weights : list R) : R :=
  match values, weights with
  | v :: vs, w :: ws => Rabs w * v + weighted_sum vs ws
  | _, _ => 0
  end.
Fixpoint total_weight (weights : list R) : R :=
  match weights with [] => 0 | w :: ws => Rabs w + total_weight ws end.
Definition weights_or_ones (values weights : list R) : list R :=
  match weights with [] => repeat 1 (length values) | _ => weights end.
