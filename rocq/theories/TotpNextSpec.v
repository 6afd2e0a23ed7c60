(** Vocabulary for the statements about the switching points of a time-optimal profile
    (C189): the limit curves are those of TotpModel.v, whose meaning is C117. *)
From Coq Require Import Reals List.
From Verif Require Import Base MathModel TotpModel TotpScalar TotpPathSpec.
Local Open Scope R_scope.

Section Next.
Variable su : @setup xr.
(** At arc length [s]: the largest path velocity that the acceleration limits allow, and the
    one that the velocity limits allow; the slopes of these curves; the least and largest path
    acceleration at path velocity [v], and the slope of the phase trajectory this gives. *)
Definition accel_limit (s : R) (v : xr) : Prop := GetAccelerationMaxPathVelocity xarith xextras su (XFin s) = Ok v.
Definition speed_limit (s : R) (v : xr) : Prop := GetVelocityMaxPathVelocity xarith xextras su (XFin s) = Ok v.
Definition accel_limit_slope (s : R) (d : xr) : Prop := GetAccelerationMaxPathVelocityDeriv xarith xextras su (XFin s) = Ok d.
Definition speed_limit_slope (s : R) (d : xr) : Prop := GetVelocityMaxPathVelocityDeriv xarith xextras su (XFin s) = Ok d.
Definition least_acceleration (s : R) (v a : xr) : Prop := GetMinMaxPathAcceleration xarith xextras su (XFin s) v false = Ok a.
Definition largest_acceleration (s : R) (v a : xr) : Prop := GetMinMaxPathAcceleration xarith xextras su (XFin s) v true = Ok a.
Definition steepest_descent (s : R) (v d : xr) : Prop := GetMinMaxPhaseSlope xarith xextras su (XFin s) v false = Ok d.
Definition steepest_ascent (s : R) (v d : xr) : Prop := GetMinMaxPhaseSlope xarith xextras su (XFin s) v true = Ok d.
Notation "a <' b" := (xltb a b = true) (at level 70).

(** The acceleration limit curve has a minimum at [y], to which a decelerating trajectory leads
    and from which an accelerating one starts, both below the curve; [r] is the point, with the
    accelerations before and after it.  At a discontinuity the curve is looked at a millionth
    (and two millionths) to either side. *)
Inductive acceleration_minimum (y : R) : bool -> (xr * xr * xr * xr) -> Prop :=
| at_discontinuity vb va v before after :
    accel_limit (y - tiny) vb -> accel_limit (y + tiny) va -> v = (if xltb va vb then va else vb) ->
    least_acceleration (y - tiny) v before -> largest_acceleration (y + tiny) v after ->
    (va <' vb \/ exists s d, steepest_descent (y - tiny) v s /\ accel_limit_slope (y - 2 * tiny) d /\ d <' s) ->
    (vb <' va \/ exists s d, steepest_ascent (y + tiny) v s /\ accel_limit_slope (y + 2 * tiny) d /\ s <' d) ->
    acceleration_minimum y true (XFin y, v, before, after)
| at_zero v db da :
    accel_limit y v -> accel_limit_slope (y - tiny) db -> accel_limit_slope (y + tiny) da -> db <' XFin 0 -> XFin 0 <' da ->
    acceleration_minimum y false (XFin y, v, XFin 0, XFin 0).
(** ... and is not above the speed limit there. *)
Definition usable_minimum (y : R) (f : bool) (r : xr * xr * xr * xr) : Prop :=
  acceleration_minimum y f r /\ exists vmax, speed_limit y vmax /\ ~ (vmax <' snd (fst (fst r))).

(** The switching points of the path that lie beyond [s] and at least a millionth before its
    end [len]; a place listed as a discontinuity counts as one. *)
Definition beyond (pts : list (R * bool)) (len s y : R) (f : bool) : Prop :=
  In (y, f) pts /\ s < y <= len - tiny /\ (In (y, true) pts -> f = true).

(** On the speed limit curve: the slowest deceleration leaves the curve upwards ([rising]). *)
Definition rising (s : R) : Prop := exists v sl d, speed_limit s v /\ steepest_descent s v sl /\ speed_limit_slope s d /\ d <' sl.
Definition not_rising (s : R) : Prop := exists v sl d, speed_limit s v /\ steepest_descent s v sl /\ speed_limit_slope s d /\ ~ (d <' sl).
(** The slowest deceleration leaves it along the curve. *)
Definition tangent (s : R) : Prop := exists v sl d, speed_limit s v /\ steepest_descent s v sl /\ speed_limit_slope s d /\ xleb d sl = true /\ ~ (d <' sl).
(** [r] is a point [a] of the speed limit curve from which the curve is not left upwards any more,
    at most a millionth after a place [b] where it was (or where it is touched a thousandth later). *)
Definition speed_switch (len : R) (r : xr * xr * xr * xr) : Prop :=
  exists b a vb va before after, r = (XFin a, va, before, after) /\ b <= a <= b + tiny /\ a < len /\
    not_rising a /\ (rising b \/ tangent (b + / 1000)) /\
    speed_limit b vb /\ least_acceleration b vb before /\ speed_limit a va /\ largest_acceleration a va after.
(** ... and is not above the acceleration limit curve a millionth to either side. *)
Definition within_accel_limit (r : xr * xr * xr * xr) : Prop :=
  exists a v vb va, fst (fst r) = (XFin a, v) /\ accel_limit (a - tiny) vb /\ accel_limit (a + tiny) va /\ ~ (vb <' v) /\ ~ (va <' v).
End Next.

(** The state is above a limit curve. *)
Definition above_limit (su : @setup xr) (s : R) (v : xr) : Prop :=
  (exists l, accel_limit su s l /\ xltb l v = true) \/ (exists l, speed_limit su s l /\ xltb l v = true).
Definition within_limits (su : @setup xr) (s : R) (v : xr) : Prop :=
  (exists l, accel_limit su s l /\ xltb l v = false) /\ (exists l, speed_limit su s l /\ xltb l v = false).
