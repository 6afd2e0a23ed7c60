(** C113-C124, C158, C163: time_optimal_trajectory_parametrization.hpp/.cpp. *)
From Coq Require Import Reals Lra Psatz List Bool Lia.
From Flocq Require Import Core BinarySingleNaN.
From Verif Require Import Base Double DoubleFacts MathModel MathReal MathLinModel MathVec MathLinProof TotpModel TotpSpec TotpProof TotpQuery
  TotpScalar TotpDouble TotpRealSpec TotpReal TotpLimits TotpPathSpec TotpPath TotpChain TotpGeometry TotpMotionSpec TotpSample TotpLine TotpExample TotpRefute TotpFinal TotpSmooth TotpStuck.
Local Open Scope R_scope.

(** C113: as long as no trajectory is destroyed and all times are ordinary, whatever
    was sampled and cloned before, every trajectory answers as a new one would. *)
Theorem C113_history_partial : forall (m : trig) fuel ws vm am dev dt tr ops h,
  ParametrizePathTOTP double_arith (dextras m) fuel ws vm am dev dt = Ok tr ->
  legal double_arith (dextras m) [0%nat] ops -> existsb drops ops = false ->
  run_ops double_arith (dextras m) (only (dextras m) tr) ops = Ok h ->
  forall id t, In id (alive [0%nat] ops) -> ordinary double_arith (dextras m) t ->
  answer double_arith (dextras m) h id t = first_answer double_arith (dextras m) tr t.
Proof. exact double_history. Qed.
(** It is not so when the times include NaN. *)
Theorem C113_history_refuted : forall m : trig, exists tr h t1 t2 t q v q' v',
  simple m = Ok tr /\ run_ops double_arith (dextras m) (only (dextras m) tr) [Sample 0 t1; Sample 0 t2] = Ok h /\
  ordinary double_arith (dextras m) t /\
  answer double_arith (dextras m) h 0 t = Ok ([q], [v], t) /\ first_answer double_arith (dextras m) tr t = Ok ([q'], [v'], t) /\
  q <> q' /\ v <> v'.
Proof. exact history_refuted. Qed.
Print Assumptions C113_history_partial.
Print Assumptions C113_history_refuted.

(** C114: a time that is not negative, not NaN and not huge is answered. *)
Theorem C114_times_partial : forall (m : trig) fuel ws vm am dev dt tr t,
  ParametrizePathTOTP double_arith (dextras m) fuel ws vm am dev dt = Ok tr -> ordinary double_arith (dextras m) t ->
  exists q v, first_answer double_arith (dextras m) tr t = Ok (q, v, t).
Proof. exact double_answered. Qed.
(** A negative time is not refused: the behaviour is undefined, for every trajectory. *)
Theorem C114_negative_refuted : forall (m : trig) fuel ws vm am dev dt tr t d,
  ParametrizePathTOTP double_arith (dextras m) fuel ws vm am dev dt = Ok tr -> Duration tr = Ok d -> dlt t d = true -> dlt t d0 = true ->
  is_finite t = true -> first_answer double_arith (dextras m) tr t = UB.
Proof. exact double_negative. Qed.
(** Nor is NaN. *)
Theorem C114_nan_refuted : forall m : trig, exists tr, simple m = Ok tr /\ first_answer double_arith (dextras m) tr dnan = UB.
Proof. exact nan_refuted. Qed.
Print Assumptions C114_times_partial.
Print Assumptions C114_negative_refuted.
Print Assumptions C114_nan_refuted.

(** C115: when trajectories are cloned only before they are sampled, they can be
    sampled and destroyed in any order: those that exist answer as a new one would. *)
Theorem C115_clones_partial : forall (m : trig) fuel ws vm am dev dt tr ops,
  ParametrizePathTOTP double_arith (dextras m) fuel ws vm am dev dt = Ok tr ->
  legal double_arith (dextras m) [0%nat] ops -> clones_unsampled [] ops ->
  exists h, run_ops double_arith (dextras m) (only (dextras m) tr) ops = Ok h /\
  forall id t, In id (alive [0%nat] ops) -> ordinary double_arith (dextras m) t ->
  answer double_arith (dextras m) h id t = first_answer double_arith (dextras m) tr t.
Proof. exact double_clones. Qed.
(** A clone of a sampled trajectory does not survive its original. *)
Theorem C115_clone_refuted : forall m : trig, exists tr h t1 t r,
  simple m = Ok tr /\ ordinary double_arith (dextras m) t1 /\ ordinary double_arith (dextras m) t /\
  run_ops double_arith (dextras m) (only (dextras m) tr) [Sample 0 t1; Copy 0 1; Drop 0] = Ok h /\
  answer double_arith (dextras m) h 1 t = UB /\ first_answer double_arith (dextras m) tr t = Ok r.
Proof. exact clone_refuted. Qed.
Print Assumptions C115_clones_partial.
Print Assumptions C115_clone_refuted.
(** The hypotheses of the theorems above: the trajectory exists, and there are legal
    histories of every kind. *)
Example C113_C115_nonvacuous : forall m : trig, (exists tr, simple m = Ok tr) /\
  legal double_arith (dextras m) [0%nat] [Sample 0 three_halves; Copy 0 1; Sample 1 dhalf] /\
  legal double_arith (dextras m) [0%nat] [Copy 0 1; Sample 1 dhalf; Drop 0; Sample 1 three_halves] /\
  clones_unsampled [] [Copy 0 1; Sample 1 dhalf; Drop 0; Sample 1 three_halves].
Proof. exact histories_exist. Qed.

(** C116: fewer than two waypoints, and numbers that are not finite, are refused. *)
Theorem C116_refused_partial : forall (m : trig) fuel ws vm am dev dt,
  ((length ws < 2)%nat \/ is_finite dev = false -> ParametrizePathTOTP double_arith (dextras m) fuel ws vm am dev dt = Throw InvalidArgument) /\
  (forall p, MakePath double_arith (dextras m) ws dev = Ok p ->
    (exists x, In x vm /\ is_finite x = false) \/ (exists x, In x am /\ is_finite x = false) \/ is_finite dt = false ->
    ParametrizePathTOTP double_arith (dextras m) fuel ws vm am dev dt = Throw InvalidArgument).
Proof. exact refused. Qed.
(** Limits of the wrong size are not refused: one limit for two joints is undefined or
    leaves the second joint without limit, and so are two limits for one joint. *)
Theorem C116_sizes_refuted : forall m : trig, let z := d_of_Z in
  ParametrizePathTOTP double_arith (dextras m) 10 [[z 0%Z; z 0%Z]; [z 1%Z; z 1%Z]] [z 1%Z; z 1%Z] [z 1%Z] (z 0%Z) (z 1%Z) = UB /\
  ParametrizePathTOTP double_arith (dextras m) 10 [[z 0%Z]; [z 1%Z]] [z 1%Z; z 1%Z] [z 1%Z; z 1%Z] (z 0%Z) (z 1%Z) = UB /\
  exists tr q v w t, ParametrizePathTOTP double_arith (dextras m) 10 [[z 0%Z; z 0%Z]; [z 3%Z; z 4%Z]] [z 1%Z] [z 1%Z] (z 0%Z) (z 1%Z) = Ok tr /\
    first_answer double_arith (dextras m) tr (z 2%Z) = Ok (q, [v; w], t) /\ dlt (z 1%Z) w = true.
Proof. exact sizes_refuted. Qed.
(** A time step of zero is not refused: two different waypoints are never parametrized. *)
Theorem C116_zero_timestep_refuted : forall n a b vmax amax fuel dev,
  length a = n -> length b = n -> length vmax = n -> length amax = n ->
  Forall (fun x => 0 < x) vmax -> Forall (fun x => 0 < x) amax -> 0 < dist a b ->
  (exists i, (i < n)%nat /\ nth i vmax 0 < big * Rabs (nth i (vscale (/ dist b a) (vsub b a)) 0)) ->
  ParametrizePathTOTP xarith xextras fuel [fin a; fin b] (fin vmax) (fin amax) (XFin dev) (XFin 0) = Diverge.
Proof. intros. now apply (zero_timestep n). Qed.
Print Assumptions C116_refused_partial.
Print Assumptions C116_sizes_refuted.
Print Assumptions C116_zero_timestep_refuted.

(** C117: the limit curves.  The largest path velocity is exactly the largest one at
    which no joint exceeds its velocity limit. *)
Theorem C117_velocity_curve : forall p vmax amax dt s q',
  GetTangent xarith xextras p (XFin s) = Ok (fin q') -> length q' = length vmax -> Forall (fun v => 0 <= v) vmax ->
  exists V, GetVelocityMaxPathVelocity xarith xextras (mkSetup p (fin vmax) amax dt) (XFin s) = Ok (XFin V) /\
    forall x, 0 <= x -> (x <= V <-> x <= big /\ within vmax (joint_velocity q' x)).
Proof. exact velocity_limit. Qed.
(** The smallest and largest path acceleration at a path velocity bound exactly the
    accelerations at which no joint that moves along the path exceeds its limit. *)
Theorem C117_acceleration_range : forall p vmax amax dt s x q' q'',
  GetTangent xarith xextras p (XFin s) = Ok (fin q') -> GetCurvature xarith xextras p (XFin s) = Ok (fin q'') ->
  length q' = length vmax -> length q'' = length vmax -> length amax = length vmax ->
  exists lo hi,
    GetMinMaxPathAcceleration xarith xextras (mkSetup p (fin vmax) (fin amax) dt) (XFin s) (XFin x) false = Ok (XFin lo) /\
    GetMinMaxPathAcceleration xarith xextras (mkSetup p (fin vmax) (fin amax) dt) (XFin s) (XFin x) true = Ok (XFin hi) /\
    forall y, (lo <= y <= hi <-> Rabs y <= big /\
      forall i, (i < length vmax)%nat -> nth i q' 0 <> 0 -> Rabs (nth i (joint_acceleration q' q'' x y) 0) <= nth i amax 0).
Proof. exact acceleration_limits. Qed.
(** The acceleration limit curve is exactly the largest path velocity at which there
    still is a path acceleration that respects all joint limits. *)
Theorem C117_acceleration_curve : forall p vmax amax dt s q' q'',
  GetTangent xarith xextras p (XFin s) = Ok (fin q') -> GetCurvature xarith xextras p (XFin s) = Ok (fin q'') ->
  length q' = length vmax -> length q'' = length vmax -> length amax = length vmax -> Forall (fun v => 0 <= v) amax ->
  exists V, GetAccelerationMaxPathVelocity xarith xextras (mkSetup p (fin vmax) (fin amax) dt) (XFin s) = Ok V /\
    (V = XInf false \/ exists r, V = XFin r) /\
    forall x, 0 <= x -> (xleb (XFin x) V = true <-> exists y, within amax (joint_acceleration q' q'' x y)).
Proof. exact acceleration_curve. Qed.
Print Assumptions C117_velocity_curve.
Print Assumptions C117_acceleration_range.
Print Assumptions C117_acceleration_curve.
Example C117_nonvacuous : exists q' q'', GetTangent xarith xextras ex_path (XFin (/ 2)) = Ok (fin q') /\
  GetCurvature xarith xextras ex_path (XFin (/ 2)) = Ok (fin q'') /\ length q' = 1%nat /\ length q'' = 1%nat /\ nth 0 q' 0 <> 0.
Proof. exists [1], [0]. rewrite ex_tangent, ex_curvature. repeat split. cbn. lra. Qed.

(** C118: the path begins at the first and ends at the last waypoint, stays within the
    deviation of the polyline, and comes within the deviation of every waypoint. *)
Theorem C118_path : forall n dev ws, well_posed n dev ws ->
  exists p len q q' q'', MakePath xarith xextras (map fin ws) (XFin dev) = Ok p /\ describes p len q q' q'' /\ 0 < len /\
    q 0 = hd [] ws /\ q len = last ws [] /\
    (forall s, 0 <= s <= len -> near_polyline (Rmax 0 dev) ws (q s)) /\
    (forall w, In w ws -> exists s, 0 <= s <= len /\ dist (q s) w <= Rmax 0 dev).
Proof. exact path_near. Qed.
(** C118: everything that is ever sampled, at any time and whatever was sampled before,
    is within the deviation of the polyline. *)
Theorem C118_samples : forall n dev ws fuel vm am dt tr, well_posed n dev ws ->
  ParametrizePathTOTP xarith xextras fuel (map fin ws) vm am (XFin dev) dt = Ok tr ->
  forall h id o t q vel t' h', h id = Some o -> ob_trajectory o = tr ->
  GetPositionVelocityTimePoint xarith xextras h id t = Ok (fin q, vel, t', h') -> near_polyline (Rmax 0 dev) ws q.
Proof. exact samples_near. Qed.
Print Assumptions C118_path.
Print Assumptions C118_samples.

(** C119: without blending the path is the polyline through the waypoints, by arc length. *)
Theorem C119_polyline : forall n dev ws, dev <= 0 -> well_posed n dev ws ->
  exists p q' q'', MakePath xarith xextras (map fin ws) (XFin dev) = Ok p /\
    describes p (polyline_length ws) (polyline_at ws) q' q''.
Proof. exact path_polyline. Qed.
Print Assumptions C119_polyline.

(** C120: except at finitely many places the tangent is the derivative of the
    configuration and the curvature that of the tangent; the tangent has length one
    everywhere, and the configuration never jumps by more than a millionth (and not at
    all without blending). *)
Theorem C120_derivatives : forall n dev ws, well_posed n dev ws ->
  exists p len q q' q'' junctions, MakePath xarith xextras (map fin ws) (XFin dev) = Ok p /\ describes p len q q' q'' /\
    (forall s, 0 < s < len -> ~ In s junctions -> forall i,
       derivable_pt_lim (fun s => nth i (q s) 0) s (nth i (q' s) 0) /\
       derivable_pt_lim (fun s => nth i (q' s) 0) s (nth i (q'' s) 0)) /\
    (forall s, 0 <= s <= len -> norm (q' s) = 1) /\
    (forall s, 0 <= s <= len -> exists delta, 0 < delta /\ forall s', 0 <= s' <= len -> Rabs (s' - s) < delta ->
       dist (q s') (q s) <= Rabs (s' - s) + (if Rlt_dec 0 dev then tiny else 0)).
Proof. exact path_derivatives. Qed.
Print Assumptions C120_derivatives.
(** Waypoints with corners, with and without blending. *)
Example C118_C120_nonvacuous : well_posed 2 (/ 10) [[0; 0]; [1; 0]; [1; 1]] /\ well_posed 2 0 [[0; 0]; [1; 0]; [1; 1]].
Proof. exact corner_well_posed. Qed.

(** C121: at every time that is not the time of a step - before or after Duration, and
    whether or not the step times are in order - and except where the path has a
    junction, the sampled velocity is the derivative of the sampled position, as long as
    the steps are finite numbers and the motion is on the path. *)
Theorem C121_velocity_partial : forall n dev ws fuel vm am dt tr l, well_posed n dev ws ->
  ParametrizePathTOTP xarith xextras fuel (map fin ws) vm am (XFin dev) dt = Ok tr -> steps_are tr l ->
  exists len junctions, path_length (tr_path tr) = XFin len /\
  forall t, 0 < t < big -> ~ In t (map step_time l) -> exists g, leg_at l t g /\
  (l_t0 g <> l_t1 g -> 0 < leg_position g t < len -> ~ In (leg_position g t) junctions ->
   exists d, 0 < d /\ (forall u, Rabs (u - t) < d -> exists q v, sampled tr u q v) /\
   forall Q V, (forall u, Rabs (u - t) < d -> sampled tr u (Q u) (V u)) ->
   forall i, derivable_pt_lim (fun u => nth i (Q u) 0) t (nth i (V t) 0)).
Proof. exact sampled_derivative. Qed.
(** Where the motion is off the path it is not: around the time 4 the trajectory stands at
    0 and answers the velocity -2. *)
Theorem C121_standing_refuted : exists tr Q V t d, well_posed 1 0 [[0]; [1]] /\
  ParametrizePathTOTP xarith xextras 10 (map fin [[0]; [1]]) (fin [1]) (fin [1]) (XFin 0) (XFin 1) = Ok tr /\
  0 < d /\ (forall u, Rabs (u - t) < d -> sampled tr u (Q u) (V u)) /\
  ~ derivable_pt_lim (fun u => nth 0 (Q u) 0) t (nth 0 (V t) 0).
Proof.
  destruct not_derivative as (d & D & S & N). exists ex_trajectory, (fun _ => [0]), (fun u => [2 - u]), 4, d.
  split; [exact ex_posed|]. split; [exact ex_built|]. auto.
Qed.
Print Assumptions C121_velocity_partial.
Print Assumptions C121_standing_refuted.
Example C121_nonvacuous : ParametrizePathTOTP xarith xextras 10 (map fin [[0]; [1]]) (fin [1]) (fin [1]) (XFin 0) (XFin 1) = Ok ex_trajectory /\
  well_posed 1 0 [[0]; [1]] /\ exists l g, steps_are ex_trajectory l /\ leg_at l (3 / 2) g /\ ~ In (3 / 2) (map step_time l) /\
  l_t0 g <> l_t1 g /\ 0 < leg_position g (3 / 2) < 1.
Proof. exact ex_motion. Qed.

(** C122: a trajectory whose first two steps are at different times, and whose Duration is
    positive, starts at rest at the first waypoint; at Duration it is at rest at the
    last one. *)
Theorem C122_ends_partial : forall n dev ws fuel vm am dt tr, well_posed n dev ws ->
  ParametrizePathTOTP xarith xextras fuel (map fin ws) vm am (XFin dev) dt = Ok tr ->
  (forall g l, steps_are tr l -> 0 < step_time (last l (0, 0, 0)) -> first_leg tr g -> sampled tr 0 (hd [] ws) (repeat 0 n)) /\
  (forall g, last_two tr g -> 0 <= l_t1 g < big ->
     Duration tr = Ok (XFin (l_t1 g)) /\ sampled tr (l_t1 g) (last ws []) (repeat 0 n)).
Proof. exact ends_at_rest. Qed.
(** Two different waypoints: at time 0 at rest at the first, at Duration, which is
    positive, at rest at the second. *)
Theorem C122_two_waypoints_partial : forall n a b vmax amax dt,
  length a = n -> length b = n -> length vmax = n -> length amax = n ->
  Forall (fun x => 0 < x) vmax -> Forall (fun x => 0 < x) amax -> 0 < dt -> 0 < dist a b ->
  (exists i, (i < n)%nat /\ nth i vmax 0 < big * Rabs (nth i (vscale (/ dist b a) (vsub b a)) 0)) ->
  exists N, forall fuel dev, (N <= fuel)%nat -> exists tr D,
    ParametrizePathTOTP xarith xextras fuel [fin a; fin b] (fin vmax) (fin amax) (XFin dev) (XFin dt) = Ok tr /\
    Duration tr = Ok (XFin D) /\ 0 < D /\ sampled tr 0 a (repeat 0 n) /\ (D < big -> sampled tr D b (repeat 0 n)).
Proof.
  intros n a b vmax amax dt La Lb Lv Lam PV PA PD PL LIM. destruct (line_all n a b vmax amax La Lb Lv Lam PV PA PL LIM dt PD) as (N & H). exists N. intros fuel dev F.
  destruct (H fuel dev F) as (tr & D & E & ED & D0 & S0 & SD & S). exists tr, D. auto.
Qed.
(** After Duration it does not rest: it goes back. *)
Theorem C122_after_refuted : forall m : trig, exists tr d q v t, simple m = Ok tr /\ Duration tr = Ok d /\ dlt d t = true /\
  ordinary double_arith (dextras m) t /\ first_answer double_arith (dextras m) tr t = Ok ([q], [v], t) /\ dlt q (d_of_Z 1) = true /\ dlt v d0 = true.
Proof. exact after_refuted. Qed.
Print Assumptions C122_ends_partial.
Print Assumptions C122_two_waypoints_partial.
Print Assumptions C122_after_refuted.

(** C123: between two waypoints no joint is ever faster than its limit plus what it can
    accelerate in one time step, and the motion never goes back. *)
Theorem C123_two_waypoints_partial : forall n a b vmax amax dt,
  length a = n -> length b = n -> length vmax = n -> length amax = n ->
  Forall (fun x => 0 < x) vmax -> Forall (fun x => 0 < x) amax -> 0 < dt -> 0 < dist a b ->
  (exists i, (i < n)%nat /\ nth i vmax 0 < big * Rabs (nth i (vscale (/ dist b a) (vsub b a)) 0)) ->
  exists N, forall fuel dev, (N <= fuel)%nat -> exists tr D,
    ParametrizePathTOTP xarith xextras fuel [fin a; fin b] (fin vmax) (fin amax) (XFin dev) (XFin dt) = Ok tr /\
    Duration tr = Ok (XFin D) /\ 0 < D /\
    forall t, 0 <= t <= D -> t < big -> exists u c q v, sampled tr t q v /\
      0 <= u <= 1 /\ q = between a b u /\ 0 <= c /\ v = vscale c (vscale (/ dist b a) (vsub b a)) /\
      forall i, (i < n)%nat -> Rabs (nth i v 0) <= nth i vmax 0 + dt * nth i amax 0.
Proof.
  intros n a b vmax amax dt La Lb Lv Lam PV PA PD PL LIM. destruct (line_all n a b vmax amax La Lb Lv Lam PV PA PL LIM dt PD) as (N & H). exists N. intros fuel dev F.
  destruct (H fuel dev F) as (tr & D & E & ED & D0 & S0 & SD & S). exists tr, D. auto.
Qed.
(** The velocity limits themselves are not kept: with limit 1/10 the velocity 4/10 is exceeded. *)
Theorem C123_velocity_refuted : forall m : trig, exists tr d t q v,
  ParametrizePathTOTP double_arith (dextras m) 10 [[d_of_Z 0]; [thousandth]] [tenth] [d_of_Z 1000] (d_of_Z 0) thousandth = Ok tr /\
  Duration tr = Ok d /\ dlt t d = true /\ first_answer double_arith (dextras m) tr t = Ok (q, [v], t) /\
  dlt (dmul (d_of_Z 4) tenth) v = true.
Proof. exact fast_refuted. Qed.
Print Assumptions C123_two_waypoints_partial.
Print Assumptions C123_velocity_refuted.

(** C124: two different waypoints with positive limits and a positive time step are
    always parametrized. *)
Theorem C124_two_waypoints_partial : forall n a b vmax amax dt,
  length a = n -> length b = n -> length vmax = n -> length amax = n ->
  Forall (fun x => 0 < x) vmax -> Forall (fun x => 0 < x) amax -> 0 < dt -> 0 < dist a b ->
  (exists i, (i < n)%nat /\ nth i vmax 0 < big * Rabs (nth i (vscale (/ dist b a) (vsub b a)) 0)) ->
  exists N, forall fuel dev, (N <= fuel)%nat -> exists tr,
    ParametrizePathTOTP xarith xextras fuel [fin a; fin b] (fin vmax) (fin amax) (XFin dev) (XFin dt) = Ok tr.
Proof.
  intros n a b vmax amax dt La Lb Lv Lam PV PA PD PL LIM. destruct (line_all n a b vmax amax La Lb Lv Lam PV PA PL LIM dt PD) as (N & H). exists N. intros fuel dev F.
  destruct (H fuel dev F) as (tr & D & E & ED & D0 & S0 & SD & S). exists tr. exact E.
Qed.
(** In double arithmetic the call never returns for the waypoints 0 and 2^-600: the
    square of their distance underflows. *)
Theorem C124_close_waypoints_refuted : forall (m : trig) fuel,
  dlt (d_of_Z 0) close_by = true /\
  ParametrizePathTOTP double_arith (dextras m) fuel [[d_of_Z 0]; [close_by]] [d_of_Z 1] [d_of_Z 1] (d_of_Z 0) (d_of_Z 1) = Diverge.
Proof. intros m fuel. split; [exact close_distinct|exact (close_diverges m fuel)]. Qed.
Print Assumptions C124_two_waypoints_partial.
Print Assumptions C124_close_waypoints_refuted.
Example C122_C124_nonvacuous : let a := [0; 0] in let b := [3; 4] in 0 < dist a b /\
  (exists i, (i < 2)%nat /\ nth i [1; 1] 0 < big * Rabs (nth i (vscale (/ dist b a) (vsub b a)) 0)).
Proof. exact line_example. Qed.

(** C158: at every time that is not the time of a step, where the motion is on the path
    and the path has no junction, the sampled velocity has a derivative: the joint
    acceleration that belongs to the path velocity and path acceleration of the leg. *)
Theorem C158_acceleration_partial : forall n dev ws fuel vm am dt tr l, well_posed n dev ws ->
  ParametrizePathTOTP xarith xextras fuel (map fin ws) vm am (XFin dev) dt = Ok tr -> steps_are tr l ->
  exists len junctions, path_length (tr_path tr) = XFin len /\
  forall t, 0 < t < big -> ~ In t (map step_time l) -> exists g, leg_at l t g /\
  (l_t0 g <> l_t1 g -> 0 < leg_position g t < len -> ~ In (leg_position g t) junctions ->
   exists d q1 q2, 0 < d /\ GetTangent xarith xextras (tr_path tr) (XFin (leg_position g t)) = Ok (fin q1) /\
   GetCurvature xarith xextras (tr_path tr) (XFin (leg_position g t)) = Ok (fin q2) /\
   (forall u, Rabs (u - t) < d -> exists q v, sampled tr u q v) /\
   forall Q V, (forall u, Rabs (u - t) < d -> sampled tr u (Q u) (V u)) ->
   forall i, (i < n)%nat -> derivable_pt_lim (fun u => nth i (V u) 0) t (nth i (joint_acceleration q1 q2 (leg_velocity g t) (leg_acceleration g)) 0)).
Proof. exact sampled_acceleration. Qed.
(** The limits are not kept at a corner that is not blended: with all limits 1, on the way
    from 0 to 1 and back, the velocity falls from 1 to -1 within 2^-20 seconds, 2^20 times
    more than the acceleration limit allows. *)
Theorem C158_corner_refuted : forall m : trig, exists tr d t1 t2 q1 q2 v1 v2,
  ParametrizePathTOTP double_arith (dextras m) 30 [[d_of_Z 0]; [d_of_Z 1]; [d_of_Z 0]] [d_of_Z 1] [d_of_Z 1] (d_of_Z 0) (d_of_Z 1) = Ok tr /\ Duration tr = Ok d /\
  dlt (d_of_Z 0) t1 = true /\ dlt t1 t2 = true /\ dlt t2 d = true /\
  first_answer double_arith (dextras m) tr t1 = Ok (q1, [v1], t1) /\ first_answer double_arith (dextras m) tr t2 = Ok (q2, [v2], t2) /\
  dlt (dmul (dmul (d_of_Z (2 ^ 20)) (d_of_Z 1)) (dsub t2 t1)) (dsub v1 v2) = true.
Proof. exact turn_jump. Qed.
Print Assumptions C158_acceleration_partial.
Print Assumptions C158_corner_refuted.

(** C163: with blending the path leaves the first waypoint along the first leg, arrives at
    the last one along the last leg, and its direction never jumps by more than [e], if no
    corner turns by more than [e] but less than a millionth. *)
Theorem C163_direction : forall n dev ws e, 0 < dev -> well_posed n dev ws -> 0 <= e -> clear_turns e ws ->
  exists p len q q' q'', MakePath xarith xextras (map fin ws) (XFin dev) = Ok p /\ describes p len q q' q'' /\
    (forall a b r, ws = a :: b :: r -> q' 0 = direction a b) /\
    (forall r a b, ws = r ++ [a; b] -> q' len = direction a b) /\
    (forall s eps, 0 <= s <= len -> 0 < eps -> exists delta, 0 < delta /\ forall s', 0 <= s' <= len -> Rabs (s' - s) < delta ->
       dist (q' s') (q' s) <= eps + e).
Proof. exact path_smooth. Qed.
(** For any waypoints [e] can be a millionth. *)
Theorem C163_always : forall ws, clear_turns tiny ws.
Proof. exact clear_tiny. Qed.
Print Assumptions C163_direction.
Print Assumptions C163_always.
(** At a right angle the direction does not jump at all. *)
Example C163_nonvacuous : well_posed 2 (/ 10) [[0; 0]; [1; 0]; [1; 1]] /\ clear_turns 0 [[0; 0]; [1; 0]; [1; 1]].
Proof.
  split; [exact (proj1 corner_well_posed)|]. cbn [clear_turns]. split; [left|exact I].
  assert (N1 : forall x y, norm [x; y] = sqrt (x * x + y * y)) by (intros; unfold norm; cbn; f_equal; ring).
  unfold direction, dist, vsub, vscale. cbn. rewrite !N1.
  replace ((1 - 0) * (1 - 0) + (0 - 0) * (0 - 0)) with 1 by ring. replace ((1 - 1) * (1 - 1) + (1 - 0) * (1 - 0)) with 1 by ring.
  rewrite sqrt_1, Rinv_1. unfold tiny. apply Rle_trans with (sqrt 1); [rewrite sqrt_1; lra|]. apply sqrt_le_1_alt. lra.
Qed.
