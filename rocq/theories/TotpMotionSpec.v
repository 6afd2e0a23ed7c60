(** Vocabulary for the statements about the motion along a path. *)
From Coq Require Import Reals List.
From Verif Require Import Base MathModel MathVec TotpModel TotpSpec TotpScalar TotpRealSpec.
Local Open Scope R_scope.

(** Two consecutive steps of a trajectory: path position, path velocity and time. *)
Record leg : Type := mkLeg { l_p0 : R; l_v0 : R; l_t0 : R; l_p1 : R; l_v1 : R; l_t1 : R }.
(** The uniformly accelerated motion that starts at [p0] with velocity [v0] at time [t0]
    and is at [p1] at time [t1]: its acceleration, position and velocity. *)
Definition leg_acceleration (g : leg) : R :=
  2 * (l_p1 g - l_p0 g - (l_t1 g - l_t0 g) * l_v0 g) / ((l_t1 g - l_t0 g) * (l_t1 g - l_t0 g)).
Definition leg_position (g : leg) (t : R) : R :=
  l_p0 g + (t - l_t0 g) * l_v0 g + / 2 * (t - l_t0 g) * (t - l_t0 g) * leg_acceleration g.
Definition leg_velocity (g : leg) (t : R) : R := l_v0 g + (t - l_t0 g) * leg_acceleration g.
(** [g] are two consecutive steps of the trajectory, at different times. *)
Definition has_leg (tr : @trajectory xr) (g : leg) : Prop :=
  l_t0 g < l_t1 g /\ exists before after, tr_steps tr =
    before ++ mkTimed (XFin (l_p0 g)) (XFin (l_v0 g)) (XFin (l_t0 g))
           :: mkTimed (XFin (l_p1 g)) (XFin (l_v1 g)) (XFin (l_t1 g)) :: after.
(** The times of the steps never decrease. *)
Definition in_order (tr : @trajectory xr) : Prop :=
  forall i j x y, (i <= j)%nat -> nth_error (tr_steps tr) i = Some x -> nth_error (tr_steps tr) j = Some y ->
    xleb (t_time x) (t_time y) = true.
(** What a trajectory that nobody has sampled yet answers at [t]. *)
Definition sampled (tr : @trajectory xr) (t : R) (q v : list R) : Prop :=
  first_answer xarith xextras tr (XFin t) = Ok (fin q, fin v, XFin t).
(** [g] are the first two steps; the last two steps. *)
Definition first_leg (tr : @trajectory xr) (g : leg) : Prop :=
  l_t0 g < l_t1 g /\ exists after, tr_steps tr =
    mkTimed (XFin (l_p0 g)) (XFin (l_v0 g)) (XFin (l_t0 g))
      :: mkTimed (XFin (l_p1 g)) (XFin (l_v1 g)) (XFin (l_t1 g)) :: after.
Definition last_two (tr : @trajectory xr) (g : leg) : Prop :=
  l_t0 g < l_t1 g /\ exists before, tr_steps tr =
    before ++ [mkTimed (XFin (l_p0 g)) (XFin (l_v0 g)) (XFin (l_t0 g));
               mkTimed (XFin (l_p1 g)) (XFin (l_v1 g)) (XFin (l_t1 g))].

(** The steps of the trajectory as real numbers (path position, path velocity, time). *)
Definition steps_are (tr : @trajectory xr) (l : list (R * R * R)) : Prop :=
  tr_steps tr = map (fun x => mkTimed (XFin (fst (fst x))) (XFin (snd (fst x))) (XFin (snd x))) l.
Definition step_time (x : R * R * R) : R := snd x.
(** [g] is the leg on which the trajectory is at time [t]: the one before the first step
    that is later than [t]; once the time of the last step is reached, the last leg. *)
Definition leg_at (l : list (R * R * R)) (t : R) (g : leg) : Prop :=
  exists before after, l = before ++ (l_p0 g, l_v0 g, l_t0 g) :: (l_p1 g, l_v1 g, l_t1 g) :: after /\
  let duration := step_time (last l (0, 0, 0)) in
  (duration <= t /\ after = []) \/
  (t < duration /\ t < l_t1 g /\ Forall (fun x => step_time x <= t) (before ++ [(l_p0 g, l_v0 g, l_t0 g)])).
