(** Vocabulary for the functions that make RRT callbacks (C48, C81, C83-C85). *)
From Coq Require Import Reals.
From Flocq Require Import Core BinarySingleNaN.
From Verif Require Import Base Double Effect UtilitySpec RrtModel RrtSpec RrtHelperModel.
Local Open Scope Z_scope.

(** Relative parents of a chain: the first hangs below the state propagated from,
    each other below its predecessor. *)
Definition is_chain {S} (props : list (S * Z)) : Prop :=
  forall k c r, nth_error props k = Some (c, r) -> r = Z.of_nat k - 1.
(** The state the propagation has reached. *)
Definition reached {S} (from : S) (props : list (S * Z)) : S := last (map fst props) from.
(** A function that always returns. *)
Definition total {W A} (m : eff W A) : Prop := forall w, exists a w', m w = (Ok a, w').
(** How many states RRT-Connect may add: ceil(distance / step) computed in
    doubles. *)
Definition step_bound (distance step : double) : Z := Zceil (B2R (ddiv distance step)).
(** At most 2^-52 in absolute value. *)
Definition negligible (d : double) : Prop := is_finite d = true /\ (Rabs (B2R d) <= bpow radix2 (-52))%R.
(** Why RRT-Connect may stop before that many states: it reached the sampled
    state (after a last step that was not negligible), the next edge was not valid,
    or the sampled state was already that close to where it got to. *)
Definition arrived {S W} (distance_fn : S -> S -> eff W double) (valid : S -> S -> eff W bool) (step : double)
    (from sampled : S) (props : list (S * Z)) : Prop :=
  exists x w w', x = reached from props /\
   ((exists pre r d v v', props = pre ++ [(sampled, r)] /\
       distance_fn (reached from pre) sampled v = (Ok d, v') /\ dlt step d = false /\ ~ negligible d) \/
    (exists y, valid x y w = (Ok false, w')) \/
    (exists d, distance_fn x sampled w = (Ok d, w') /\ dlt step d = false /\ negligible d)).
(** A random source with values in [0, 1). *)
Definition unit_source {W} (u : eff W double) : Prop := forall w x w', u w = (Ok x, w') -> unit_interval x.

(** Answers of a termination function whose calls see the clock at [times]. *)
Fixpoint timeout_answers (h : timeout_helper) (times : list Z) : outcome (list bool) :=
  match times with
  | [] => Ok []
  | now :: rest => do (b, h') <- TimeoutCheckOrStart h now; do bs <- timeout_answers h' rest; Ok (b :: bs)
  end.
