(** Vocabulary for the properties of gaussian_distributions.hpp. *)
From Coq Require Import Reals.
From Coquelicot Require Import Coquelicot.
From Verif Require Import Base GaussianModel.
Local Open Scope R_scope.

(** The error function: 2 / sqrt pi times the integral of exp (- t^2) from 0 to x. *)
Definition error_function (x : R) : R := 2 / sqrt PI * RInt (fun t => exp (- (t * t))) 0 x.

(** A number lies between two bounds, which may be infinite. *)
Definition above (lo : ext) (x : R) : Prop := match lo with NegInf => True | Fin l => l <= x | PosInf => False end.
Definition below (x : R) (hi : ext) : Prop := match hi with NegInf => False | Fin h => x <= h | PosInf => True end.
Definition in_bounds (lo hi : ext) (x : R) : Prop := above lo x /\ below x hi.
(** Usable bounds: not empty. *)
Definition proper (lo hi : ext) : Prop := exists x, in_bounds lo hi x.
(** Finite bounds on one side of the mean that are so close to each other that the
    code uses uniform proposals. *)
Definition narrow_tail (mean sd : R) (lo hi : ext) : Prop :=
  exists l h, lo = Fin l /\ hi = Fin h /\ (mean < l \/ h < mean) /\
  let a := (l - mean) / sd in
  (h - mean) / sd <= a + (2 * sqrt (exp 1)) / (a + sqrt (a ^ 2 + 4)) * exp ((a ^ 2 - a * sqrt (a ^ 2 + 4)) / 4).
(** What the standard library promises about the draws. *)
Definition source_ok {G} (src : source G) : Prop :=
  (forall g, 0 <= fst (exponential_draw src g)) /\
  (forall g, 0 <= fst (unit_draw src g) < 1) /\
  (forall a b g, a <= b -> a <= fst (range_draw src (Fin a) (Fin b) g) <= b).
(** The k-th draw of a distribution. *)
Fixpoint nth_draw {G} (draw : G -> R * G) (k : nat) (g : G) : R :=
  match k with O => fst (draw g) | S k => nth_draw draw k (snd (draw g)) end.
