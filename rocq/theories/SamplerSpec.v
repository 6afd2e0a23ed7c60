(** Vocabulary for the distribution of the samples of TruncatedGaussianDistribution. *)
From Coq Require Import Reals List.
From Coquelicot Require Import Coquelicot.
From Verif Require Import Base MathModel GaussianModel GaussianSpec.
Import ListNotations.
Local Open Scope R_scope.

(** Draws written down in advance, each for the distribution it is drawn from. *)
Inductive draw := Normal (t : R) | Exponential (e : R) | Unit (u : R) | Range (z : R).
(** A source that hands them out in order; a draw from another distribution than the
    one noted next gives 0. *)
Definition noted : source (list draw) := {|
  normal_draw := fun g => match g with Normal t :: g => (t, g) | _ => (0, g) end;
  exponential_draw := fun g => match g with Exponential e :: g => (e, g) | _ => (0, g) end;
  unit_draw := fun g => match g with Unit u :: g => (u, g) | _ => (0, g) end;
  range_draw := fun _ _ g => match g with Range z :: g => (z, g) | _ => (0, g) end |}.
(** What the sampler returns when it looks no further than one proposal. *)
Definition one_trial (d : TruncatedGaussian) (trial : list draw) : option R :=
  match Sample noted 1 d trial with Ok (x, []) => Some x | _ => None end.
(** The trial returns something between x and y. *)
Definition hits (d : TruncatedGaussian) (trial : list draw) (x y : R) : Prop :=
  exists r, one_trial d trial = Some r /\ x <= r <= y.

(** The densities of the standard normal and the standard exponential distribution. *)
Definition normal_density (t : R) : R := exp (- (t * t / 2)) / sqrt (2 * PI).
Definition exponential_density (e : R) : R := exp (- e).
(** The probability that one trial returns something between x and y.  A trial is
    either one normal draw, hitting when it falls into an interval, or an exponential
    draw e and a uniform one, hitting when e falls into an interval and the uniform one
    is at most p(e), which has probability p(e). *)
Inductive hit_probability (d : TruncatedGaussian) (x y : R) : R -> Prop :=
| by_normal : forall a b P, a <= b ->
    (forall t, hits d [Normal t] x y <-> a <= t <= b) -> is_RInt normal_density a b P -> hit_probability d x y P
| by_exponential : forall a b p P, 0 <= a <= b -> (forall e, 0 <= p e <= 1) ->
    (forall e u, 0 <= e -> 0 <= u < 1 -> hits d [Exponential e; Unit u] x y <-> a <= e <= b /\ u <= p e) ->
    is_RInt (fun e => exponential_density e * p e) a b P -> hit_probability d x y P.
(** A trial of this sampler: one normal draw, or an exponential and a uniform one. *)
Inductive is_trial (d : TruncatedGaussian) : list draw -> Prop :=
| normal_trial t : tg_case d = TYPE_1 -> is_trial d [Normal t]
| exponential_trial e u : tg_case d <> TYPE_1 -> is_trial d [Exponential e; Unit u].
