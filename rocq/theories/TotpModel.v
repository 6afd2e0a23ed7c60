(** Model of time_optimal_trajectory_parametrization.hpp/.cpp ("totp.cpp" below stands for
    src/common_robotics_utilities/time_optimal_trajectory_parametrization.cpp), over a
    type of scalars (MathModel.v).  Eigen::VectorXd is a list; operands of different
    sizes, and a component that does not exist, are undefined (Eigen asserts only in
    debug builds): UB.  Loops without a bound carry [fuel]; when it runs out the result
    is Diverge.  std::list iterators are positions in a list. *)
From Verif Require Import Base MathModel MathLinModel.

(** What the code needs besides the operations of [arith]: numeric_limits<double>::max()
    and ::infinity(), std::isfinite, and the functions of <cmath>. *)
Record extras (A : Type) : Type := mkExtras {
  e_max : A; e_inf : A; e_finite : A -> bool;
  e_sin : A -> A; e_cos : A -> A; e_tan : A -> A; e_acos : A -> A; e_atan2 : A -> A -> A }.
Arguments mkExtras {A} _ _ _ _ _ _ _ _.
Arguments e_max {A} _. Arguments e_inf {A} _. Arguments e_finite {A} _ _.
Arguments e_sin {A} _ _. Arguments e_cos {A} _ _. Arguments e_tan {A} _ _. Arguments e_acos {A} _ _.
Arguments e_atan2 {A} _ _ _.

Section Totp.
Context {A : Type} (ar : arith A) (ex : extras A).
Notation "a +' b" := (aadd ar a b) (at level 50, left associativity).
Notation "a -' b" := (asub ar a b) (at level 50, left associativity).
Notation "a *' b" := (amul ar a b) (at level 40, left associativity).
Notation "a /' b" := (adiv ar a b) (at level 40, left associativity).
Notation "a <' b" := (altb ar a b) (at level 70).
Notation "a <=' b" := (aleb ar a b) (at level 70).
Notation c0 := (a_of ar 0). Notation c1 := (a_of ar 1). Notation c2 := (a_of ar 2).
Notation smin := (std_min ar). Notation smax := (std_max ar).

(** The literals 0.5, 0.001 and 0.000001 (Trajectory::eps, totp.cpp:510). *)
Definition lit_half : A := c1 /' c2.
Definition lit_1e3 : A := c1 /' a_of ar 1000.
Definition lit_eps : A := c1 /' a_of ar 1000000.

(** vector * scalar, vector / scalar, -vector and normalized() of Eigen
    (normalized() leaves a vector of squared norm 0 alone). *)
Definition eig_scale (v : list A) (c : A) : list A := map (fun x => x *' c) v.
Definition eig_over (v : list A) (c : A) : list A := map (fun x => x /' c) v.
Definition eig_opp (v : list A) : list A := map (aopp ar) v.
Definition eig_normalized (v : list A) : list A :=
  let z := eig_dot ar v v in if c0 <' z then eig_over v (asqrt ar z) else v.
Definition eig_zero (n : nat) : list A := repeat c0 n.

(** PathSegment, LinearPathSegment and CircularPathSegment, totp.cpp:59-225: the data
    members, with length_ and position of the base class. *)
Inductive shape : Type :=
| LinearShape (start_ end_ : list A)
| CircularShape (radius_ : A) (center_ x_ y_ : list A).
Record segment : Type := mkSegment { seg_length : A; seg_shape : shape; seg_position : A }.

(** LinearPathSegment::LinearPathSegment, totp.cpp:90-92 (position is set later). *)
Definition MakeLinear (start end_ : list A) : outcome segment :=
  do d <- eig_sub ar end_ start;
  Ok (mkSegment (eig_norm ar d) (LinearShape start end_) c0).

(** CircularPathSegment::CircularPathSegment, totp.cpp:132-171. *)
Definition MakeCircular (start intersection end_ : list A) (max_deviation : A) : outcome segment :=
  do d1 <- eig_sub ar intersection start;
  do d2 <- eig_sub ar end_ intersection;
  let degenerate := mkSegment c0 (CircularShape c1 intersection (eig_zero (length start)) (eig_zero (length start))) c0 in
  if (eig_norm ar d1 <' lit_eps) || (eig_norm ar d2 <' lit_eps) then Ok degenerate
  else
    let start_direction := eig_normalized d1 in
    let end_direction := eig_normalized d2 in
    do turn <- eig_sub ar start_direction end_direction;
    if eig_norm ar turn <' lit_eps then Ok degenerate
    else
      do s1 <- eig_sub ar start intersection;
      let distance := smin (eig_norm ar s1) (eig_norm ar d2) in
      let angle := e_acos ex (eig_dot ar start_direction end_direction) in
      let half_angle := lit_half *' angle in
      let deviation_limited_distance := (max_deviation *' e_sin ex half_angle) /' (c1 -' e_cos ex half_angle) in
      let distance := smin distance deviation_limited_distance in
      let radius := distance /' e_tan ex half_angle in
      do bisector <- eig_sub ar end_direction start_direction;
      do center <- eig_add ar intersection
                     (eig_over (eig_scale (eig_normalized bisector) radius) (e_cos ex half_angle));
      do foot <- eig_sub ar intersection (map (fun x => distance *' x) start_direction);
      do arm <- eig_sub ar foot center;
      Ok (mkSegment (angle *' radius) (CircularShape radius center (eig_normalized arm) start_direction) c0).

(** GetConfig of both classes, totp.cpp:94-98 and 173-177. *)
Definition seg_config (g : segment) (s : A) : outcome (list A) :=
  match seg_shape g with
  | LinearShape start end_ => InterpolateVector ar start end_ (s /' seg_length g)
  | CircularShape radius center x y =>
    let angle := s /' radius in
    do arm <- eig_add ar (eig_scale x (e_cos ex angle)) (eig_scale y (e_sin ex angle));
    eig_add ar center (map (fun z => radius *' z) arm)
  end.
(** GetTangent, totp.cpp:100-104 and 179-183. *)
Definition seg_tangent (g : segment) (s : A) : outcome (list A) :=
  match seg_shape g with
  | LinearShape start end_ => do d <- eig_sub ar end_ start; Ok (eig_over d (seg_length g))
  | CircularShape radius center x y =>
    let angle := s /' radius in
    eig_add ar (eig_scale (eig_opp x) (e_sin ex angle)) (eig_scale y (e_cos ex angle))
  end.
(** GetCurvature, totp.cpp:106-110 and 185-189. *)
Definition seg_curvature (g : segment) (s : A) : outcome (list A) :=
  match seg_shape g with
  | LinearShape start end_ => Ok (eig_zero (length start))
  | CircularShape radius center x y =>
    let angle := s /' radius in
    do arm <- eig_add ar (eig_scale x (e_cos ex angle)) (eig_scale y (e_sin ex angle));
    Ok (map (fun z => (aopp ar c1 /' radius) *' z) arm)
  end.

(** std::list<double>::sort: stable insertion by operator<. *)
Fixpoint sort_insert (x : A) (l : list A) : list A :=
  match l with [] => [x] | y :: r => if x <' y then x :: l else y :: sort_insert x r end.
Definition list_sort (l : list A) : list A := fold_left (fun s x => sort_insert x s) l [].

(** GetSwitchingPoints, totp.cpp:112-115 and 191-212. *)
Definition seg_switching_points (g : segment) : outcome (list A) :=
  match seg_shape g with
  | LinearShape _ _ => Ok []
  | CircularShape radius center x y =>
    do points <- mfold (fun acc i =>
      do yi <- raw_get y i;
      do xi <- raw_get x i;
      let a := e_atan2 ex yi xi in
      let switching_angle := if a <' c0 then a +' a_pi ar else a in
      let switching_point := switching_angle *' radius in
      Ok (if switching_point <' seg_length g then acc ++ [switching_point] else acc)) [] (seq 0 (length x));
    Ok (list_sort points)
  end.

(** Path, totp.cpp:227-259. *)
Record path : Type := mkPath {
  path_length : A; path_switching_points : list (A * bool); path_segments : list segment }.

(** The first loop of Path::Path, totp.cpp:374-405: [config1] and the list that starts
    at [config2]. *)
Fixpoint path_loop (max_deviation : A) (start_config config1 : list A) (rest : list (list A)) : outcome (list segment) :=
  match rest with
  | [] => Ok []
  | config2 :: rest' =>
    match rest' with
    | config3 :: _ =>
      if c0 <' max_deviation then
        do a <- eig_add ar config1 config2;
        do b <- eig_add ar config2 config3;
        do blend <- MakeCircular (map (fun x => lit_half *' x) a) config2 (map (fun x => lit_half *' x) b) max_deviation;
        do end_config <- seg_config blend c0;
        do gap <- eig_sub ar end_config start_config;
        do lead <- (if lit_eps <' eig_norm ar gap
                    then do l <- MakeLinear start_config end_config; Ok [l] else Ok []);
        do next_start <- seg_config blend (seg_length blend);
        do others <- path_loop max_deviation next_start config2 rest';
        Ok (lead ++ blend :: others)
      else
        do l <- MakeLinear start_config config2;
        do others <- path_loop max_deviation config2 config2 rest';
        Ok (l :: others)
    | [] =>
      do l <- MakeLinear start_config config2;
      do others <- path_loop max_deviation config2 config2 rest';
      Ok (l :: others)
    end
  end.

(** Lists that grow and shrink at the back are kept back first. *)
Fixpoint pop_reached (len : A) (back_first : list (A * bool)) : list (A * bool) :=
  match back_first with
  | p :: r => if len <=' fst p then pop_reached len r else back_first
  | [] => []
  end.
(** The second loop of Path::Path, totp.cpp:406-428; state: length_, switching points
    (back first), segments with their positions (back first). *)
Definition place_step (s : A * list (A * bool) * list segment) (g : segment) : outcome (A * list (A * bool) * list segment) :=
  let '(len, points, done) := s in
  do local <- seg_switching_points g;
  let points := fold_left (fun ps p => (len +' p, false) :: ps) local points in
  let len' := len +' seg_length g in
  Ok (len', (len', true) :: pop_reached len' points, mkSegment (seg_length g) (seg_shape g) len :: done).

(** Path::Path, totp.cpp:361-429. *)
Definition MakePath (waypoints : list (list A)) (max_deviation : A) : outcome path :=
  match waypoints with
  | config1 :: ((_ :: _) as rest) =>
    if e_finite ex max_deviation then
      do segments <- path_loop max_deviation config1 config1 rest;
      do s <- mfold place_step (c0, [], []) segments;
      let '(len, points, done) := s in
      Ok (mkPath len (rev (tl points)) (rev done))
    else Throw InvalidArgument
  | _ => Throw InvalidArgument
  end.

(** Path::GetPathSegment, totp.cpp:450-462: the segment and what is left of [s]. *)
Fixpoint segment_walk (it : segment) (rest : list segment) (s : A) : segment * A :=
  match rest with
  | next :: r => if seg_position next <=' s then segment_walk next r s else (it, s -' seg_position it)
  | [] => (it, s -' seg_position it)
  end.
Definition GetPathSegment (p : path) (s : A) : outcome (segment * A) :=
  match path_segments p with g :: r => Ok (segment_walk g r s) | [] => UB end.
(** Path::GetConfig, GetTangent, GetCurvature, totp.cpp:464-483. *)
Definition GetConfig (p : path) (s : A) : outcome (list A) :=
  do gs <- GetPathSegment p s; seg_config (fst gs) (snd gs).
Definition GetTangent (p : path) (s : A) : outcome (list A) :=
  do gs <- GetPathSegment p s; seg_tangent (fst gs) (snd gs).
Definition GetCurvature (p : path) (s : A) : outcome (list A) :=
  do gs <- GetPathSegment p s; seg_curvature (fst gs) (snd gs).
(** Path::GetNextSwitchingPoint, totp.cpp:485-503: the position and whether it is a
    discontinuity. *)
Fixpoint next_point (points : list (A * bool)) (len s : A) : A * bool :=
  match points with
  | p :: r => if fst p <=' s then next_point r len s else p
  | [] => (len, true)
  end.
Definition PathNextSwitchingPoint (p : path) (s : A) : A * bool :=
  next_point (path_switching_points p) (path_length p) s.

(** The members of Trajectory that do not change after construction: path_,
    max_velocity_, max_acceleration_, time_step_ (n_ is the size of max_velocity_). *)
Record setup : Type := mkSetup {
  su_path : path; su_max_velocity : list A; su_max_acceleration : list A; su_time_step : A }.
(** TrajectoryStep without its time: path_pos_ and path_vel_. *)
Notation step := (A * A)%type.

(** Trajectory::GetMinMaxPathAcceleration, totp.cpp:985-1005. *)
Definition GetMinMaxPathAcceleration (su : setup) (path_pos path_vel : A) (max : bool) : outcome A :=
  do config_deriv <- GetTangent (su_path su) path_pos;
  do config_deriv2 <- GetCurvature (su_path su) path_pos;
  let factor := if max then c1 else aopp ar c1 in
  do m <- mfold (fun acc i =>
    do d <- raw_get config_deriv i;
    if aeqb ar d c0 then Ok acc
    else
      do amax <- raw_get (su_max_acceleration su) i;
      do d2 <- raw_get config_deriv2 i;
      Ok (smin acc (amax /' aabs ar d -' factor *' d2 *' path_vel *' path_vel /' d)))
    (e_max ex) (seq 0 (length (su_max_velocity su)));
  Ok (factor *' m).
(** Trajectory::GetMinMaxPhaseSlope, totp.cpp:1007-1012. *)
Definition GetMinMaxPhaseSlope (su : setup) (path_pos path_vel : A) (max : bool) : outcome A :=
  do a <- GetMinMaxPathAcceleration su path_pos path_vel max; Ok (a /' path_vel).
(** Trajectory::GetAccelerationMaxPathVelocity, totp.cpp:1014-1049. *)
Definition GetAccelerationMaxPathVelocity (su : setup) (path_pos : A) : outcome A :=
  do config_deriv <- GetTangent (su_path su) path_pos;
  do config_deriv2 <- GetCurvature (su_path su) path_pos;
  let n := length (su_max_velocity su) in
  mfold (fun acc i =>
    do di <- raw_get config_deriv i;
    if negb (aeqb ar di c0) then
      mfold (fun acc j =>
        do dj <- raw_get config_deriv j;
        if negb (aeqb ar dj c0) then
          do d2i <- raw_get config_deriv2 i;
          do d2j <- raw_get config_deriv2 j;
          let a_ij := d2i /' di -' d2j /' dj in
          if negb (aeqb ar a_ij c0) then
            do ai <- raw_get (su_max_acceleration su) i;
            do aj <- raw_get (su_max_acceleration su) j;
            Ok (smin acc (asqrt ar ((ai /' aabs ar di +' aj /' aabs ar dj) /' aabs ar a_ij)))
          else Ok acc
        else Ok acc) acc (seq (S i) (n - S i))
    else
      do d2i <- raw_get config_deriv2 i;
      if negb (aeqb ar d2i c0) then
        do ai <- raw_get (su_max_acceleration su) i;
        Ok (smin acc (asqrt ar (ai /' aabs ar d2i)))
      else Ok acc)
    (e_inf ex) (seq 0 n).
(** Trajectory::GetVelocityMaxPathVelocity, totp.cpp:1052-1062. *)
Definition GetVelocityMaxPathVelocity (su : setup) (path_pos : A) : outcome A :=
  do tangent <- GetTangent (su_path su) path_pos;
  mfold (fun acc i =>
    do v <- raw_get (su_max_velocity su) i;
    do t <- raw_get tangent i;
    Ok (smin acc (v /' aabs ar t)))
    (e_max ex) (seq 0 (length (su_max_velocity su))).
(** Trajectory::GetAccelerationMaxPathVelocityDeriv, totp.cpp:1064-1068. *)
Definition GetAccelerationMaxPathVelocityDeriv (su : setup) (path_pos : A) : outcome A :=
  do a <- GetAccelerationMaxPathVelocity su (path_pos +' lit_eps);
  do b <- GetAccelerationMaxPathVelocity su (path_pos -' lit_eps);
  Ok ((a -' b) /' (c2 *' lit_eps)).
(** Trajectory::GetVelocityMaxPathVelocityDeriv, totp.cpp:1070-1089. *)
Definition GetVelocityMaxPathVelocityDeriv (su : setup) (path_pos : A) : outcome A :=
  do tangent <- GetTangent (su_path su) path_pos;
  do best <- mfold (fun acc i =>
    do v <- raw_get (su_max_velocity su) i;
    do t <- raw_get tangent i;
    let this := v /' aabs ar t in
    Ok (if this <' fst acc then (this, i) else acc))
    (e_max ex, 0%nat) (seq 0 (length (su_max_velocity su)));
  let active := snd best in
  do v <- raw_get (su_max_velocity su) active;
  do curvature <- GetCurvature (su_path su) path_pos;
  do k <- raw_get curvature active;
  do t <- raw_get tangent active;
  Ok (aopp ar (v *' k) /' (t *' aabs ar t)).

(** Trajectory::GetNextAccelerationSwitchingPoint, totp.cpp:677-737: None when the end of
    the path is reached, otherwise the point and the accelerations before and after. *)
Fixpoint GetNextAccelerationSwitchingPoint (fuel : nat) (su : setup) (switching_path_pos : A) : outcome (option (step * A * A)) :=
  match fuel with
  | O => Diverge
  | S fuel =>
    let '(pos, discontinuity) := PathNextSwitchingPoint (su_path su) switching_path_pos in
    if (path_length (su_path su) -' lit_eps) <' pos then Ok None
    else if discontinuity then
      do before_path_vel <- GetAccelerationMaxPathVelocity su (pos -' lit_eps);
      do after_path_vel <- GetAccelerationMaxPathVelocity su (pos +' lit_eps);
      let vel := smin before_path_vel after_path_vel in
      do before <- GetMinMaxPathAcceleration su (pos -' lit_eps) vel false;
      do after <- GetMinMaxPathAcceleration su (pos +' lit_eps) vel true;
      do lhs <- (if after_path_vel <' before_path_vel then Ok true
                  else do slope <- GetMinMaxPhaseSlope su (pos -' lit_eps) vel false;
                       do deriv <- GetAccelerationMaxPathVelocityDeriv su (pos -' c2 *' lit_eps);
                       Ok (deriv <' slope));
      do rhs <- (if negb lhs then Ok false
                   else if before_path_vel <' after_path_vel then Ok true
                   else do slope <- GetMinMaxPhaseSlope su (pos +' lit_eps) vel true;
                        do deriv <- GetAccelerationMaxPathVelocityDeriv su (pos +' c2 *' lit_eps);
                        Ok (slope <' deriv));
      if rhs then Ok (Some ((pos, vel), before, after))
      else GetNextAccelerationSwitchingPoint fuel su pos
    else
      do vel <- GetAccelerationMaxPathVelocity su pos;
      do lhs <- (do deriv <- GetAccelerationMaxPathVelocityDeriv su (pos -' lit_eps); Ok (deriv <' c0));
      do rhs <- (if negb lhs then Ok false
                   else do deriv <- GetAccelerationMaxPathVelocityDeriv su (pos +' lit_eps); Ok (c0 <' deriv));
      if rhs then Ok (Some ((pos, vel), c0, c0))
      else GetNextAccelerationSwitchingPoint fuel su pos
  end.

(** The slope of the slowest deceleration on the velocity limit curve and the slope of
    that curve, compared at several places of totp.cpp (754-757, 763-766, 777-780, 847-849). *)
Definition limit_slopes (su : setup) (pos : A) : outcome (A * A) :=
  do vmax <- GetVelocityMaxPathVelocity su pos;
  do slope <- GetMinMaxPhaseSlope su pos vmax false;
  do deriv <- GetVelocityMaxPathVelocityDeriv su pos;
  Ok (slope, deriv).
(** The do loop of GetNextVelocitySwitchingPoint, totp.cpp:749-767. *)
Fixpoint velocity_scan (fuel : nat) (su : setup) (start : bool) (pos : A) : outcome A :=
  match fuel with
  | O => Diverge
  | S fuel =>
    let pos := pos +' lit_1e3 in
    do sd <- limit_slopes su pos;
    let start := start || (snd sd <=' fst sd) in
    do again <- (if negb start then Ok true
                 else do sd <- limit_slopes su pos; Ok (snd sd <' fst sd));
    if again && (pos <' path_length (su_path su)) then velocity_scan fuel su start pos else Ok pos
  end.
(** Its bisection, totp.cpp:772-788. *)
Fixpoint velocity_bisect (fuel : nat) (su : setup) (before after : A) : outcome (A * A) :=
  match fuel with
  | O => Diverge
  | S fuel =>
    if lit_eps <' (after -' before) then
      let pos := (before +' after) /' c2 in
      do sd <- limit_slopes su pos;
      if snd sd <' fst sd then velocity_bisect fuel su pos after else velocity_bisect fuel su before pos
    else Ok (before, after)
  end.
(** Trajectory::GetNextVelocitySwitchingPoint, totp.cpp:739-799. *)
Definition GetNextVelocitySwitchingPoint (fuel : nat) (su : setup) (path_pos : A) : outcome (option (step * A * A)) :=
  do pos <- velocity_scan fuel su false (path_pos -' lit_1e3);
  if path_length (su_path su) <=' pos then Ok None
  else
    do ba <- velocity_bisect fuel su (pos -' lit_1e3) pos;
    do vb <- GetVelocityMaxPathVelocity su (fst ba);
    do before <- GetMinMaxPathAcceleration su (fst ba) vb false;
    do va <- GetVelocityMaxPathVelocity su (snd ba);
    do after <- GetMinMaxPathAcceleration su (snd ba) va true;
    do vel <- GetVelocityMaxPathVelocity su (snd ba);
    Ok (Some ((snd ba, vel), before, after)).

(** The two do loops of GetNextSwitchingPoint, totp.cpp:613-653.  State: the switching
    point variable with its accelerations; the result also says whether the end of the
    path was reached (then the variable keeps its previous value). *)
Fixpoint acceleration_candidates (fuel0 fuel : nat) (su : setup) (cur : step * A * A) : outcome (bool * (step * A * A)) :=
  match fuel with
  | O => Diverge
  | S fuel =>
    do r <- GetNextAccelerationSwitchingPoint fuel0 su (fst (fst (fst cur)));
    match r with
    | None => Ok (true, cur)
    | Some cur' =>
      do vmax <- GetVelocityMaxPathVelocity su (fst (fst (fst cur')));
      if vmax <' snd (fst (fst cur')) then acceleration_candidates fuel0 fuel su cur' else Ok (false, cur')
    end
  end.
Fixpoint velocity_candidates (fuel0 fuel : nat) (su : setup) (acceleration_pos : A) (cur : step * A * A) : outcome (bool * (step * A * A)) :=
  match fuel with
  | O => Diverge
  | S fuel =>
    do r <- GetNextVelocitySwitchingPoint fuel0 su (fst (fst (fst cur)));
    match r with
    | None => Ok (true, cur)
    | Some cur' =>
      let '(pos, vel) := fst (fst cur') in
      do again <- (if pos <=' acceleration_pos then
                     do a <- GetAccelerationMaxPathVelocity su (pos -' lit_eps);
                     if a <' vel then Ok true
                     else do b <- GetAccelerationMaxPathVelocity su (pos +' lit_eps); Ok (b <' vel)
                   else Ok false);
      if again then velocity_candidates fuel0 fuel su acceleration_pos cur' else Ok (false, cur')
    end
  end.
(** Trajectory::GetNextSwitchingPoint, totp.cpp:608-675: None at the end of the path. *)
Definition GetNextSwitchingPoint (fuel : nat) (su : setup) (path_pos : A) : outcome (option (step * A * A)) :=
  do acc <- acceleration_candidates fuel fuel su ((path_pos, c0), c0, c0);
  let '(acc_end, acc_point) := acc in
  do vel <- velocity_candidates fuel fuel su (fst (fst (fst acc_point))) ((path_pos, c0), c0, c0);
  let '(vel_end, vel_point) := vel in
  if acc_end && vel_end then Ok None
  else if negb acc_end && (vel_end || (fst (fst (fst acc_point)) <=' fst (fst (fst vel_point)))) then Ok (Some acc_point)
  else Ok (Some vel_point).

(** The loop that moves next_discontinuity, totp.cpp:814-819. *)
Fixpoint skip_discontinuities (points : list (A * bool)) (path_pos : A) : list (A * bool) :=
  match points with
  | p :: r => if (fst p <=' path_pos) || negb (snd p) then skip_discontinuities r path_pos else points
  | [] => []
  end.
(** The condition of totp.cpp:843-848 and 866-871: at [from] the velocity limit curve
    can be followed. *)
Definition can_follow (su : setup) (from : A) : outcome bool :=
  do sd <- limit_slopes su from; Ok (fst sd <=' snd sd).
(** "vel > GetVelocityMaxPathVelocity(pos) && ..." and the assignment that follows it:
    the velocity, lowered to the limit if the curve can be followed from [from]. *)
Definition follow (su : setup) (from pos vel : A) : outcome A :=
  do vmax <- GetVelocityMaxPathVelocity su pos;
  if vmax <' vel then
    do f <- can_follow su from;
    if f then GetVelocityMaxPathVelocity su pos else Ok vel
  else Ok vel.
(** "vel > GetAccelerationMaxPathVelocity(pos) || vel > GetVelocityMaxPathVelocity(pos)". *)
Definition over_limit (su : setup) (pos vel : A) : outcome bool :=
  do a <- GetAccelerationMaxPathVelocity su pos;
  if a <' vel then Ok true
  else do v <- GetVelocityMaxPathVelocity su pos; Ok (v <' vel).
(** The bisection of IntegrateForward, totp.cpp:856-886: the last state of before,
    before_path_vel and after. *)
Fixpoint forward_bisect (fuel : nat) (su : setup) (before before_vel after after_vel : A) : outcome (A * A * A) :=
  match fuel with
  | O => Diverge
  | S fuel =>
    if lit_eps <' (after -' before) then
      let midpoint := lit_half *' (before +' after) in
      do vel <- follow su before midpoint (lit_half *' (before_vel +' after_vel));
      do over <- over_limit su midpoint vel;
      if over then forward_bisect fuel su before before_vel midpoint vel
      else forward_bisect fuel su midpoint vel after after_vel
    else Ok (before, before_vel, after)
  end.
(** Trajectory::IntegrateForward, totp.cpp:802-913; the trajectory is kept back first.
    Result: whether the end of the path was reached, and the new trajectory. *)
Fixpoint IntegrateForward_loop (fuel0 fuel : nat) (su : setup) (points : list (A * bool)) (trajectory : list step)
    (path_pos path_vel acceleration : A) : outcome (bool * list step) :=
  match fuel with
  | O => Diverge
  | S fuel =>
    let points := skip_discontinuities points path_pos in
    let dt := su_time_step su in
    let new_vel := path_vel +' dt *' acceleration in
    let new_pos := path_pos +' dt *' lit_half *' (path_vel +' new_vel) in
    let '(pos, vel) :=
      match points with
      | p :: _ => if fst p <' new_pos
                  then (fst p, path_vel +' (fst p -' path_pos) *' (new_vel -' path_vel) /' (new_pos -' path_pos))
                  else (new_pos, new_vel)
      | [] => (new_pos, new_vel)
      end in
    if path_length (su_path su) <' pos then Ok (true, (pos, vel) :: trajectory)
    else if vel <' c0 then Throw RuntimeError
    else
      do vel <- follow su path_pos pos vel;
      do acceleration <- GetMinMaxPathAcceleration su pos vel true;
      do over <- over_limit su pos vel;
      if over then
        match trajectory with
        | [] => UB
        | (b_pos, b_vel) :: _ =>
          do r <- forward_bisect fuel0 su b_pos b_vel pos vel;
          let '(before, before_vel, after) := r in
          let trajectory := (before, before_vel) :: trajectory in
          do a <- GetAccelerationMaxPathVelocity su after;
          do v <- GetVelocityMaxPathVelocity su after;
          do stop <- (if a <' v then
                        match points with
                        | [] => UB
                        | p :: _ =>
                          if fst p <' after then Ok true
                          else do slope <- GetMinMaxPhaseSlope su before before_vel true;
                               do deriv <- GetAccelerationMaxPathVelocityDeriv su before;
                               Ok (deriv <' slope)
                        end
                      else
                        do slope <- GetMinMaxPhaseSlope su before before_vel false;
                        do deriv <- GetVelocityMaxPathVelocityDeriv su before;
                        Ok (deriv <' slope));
          if stop then Ok (false, trajectory)
          else IntegrateForward_loop fuel0 fuel su points trajectory pos vel acceleration
        end
      else IntegrateForward_loop fuel0 fuel su points ((pos, vel) :: trajectory) pos vel acceleration
  end.
Definition IntegrateForward (fuel : nat) (su : setup) (trajectory : list step) (acceleration : A) : outcome (bool * list step) :=
  match trajectory with
  | [] => UB
  | (pos, vel) :: _ =>
    IntegrateForward_loop fuel fuel su (path_switching_points (su_path su)) trajectory pos vel acceleration
  end.

(** Trajectory::IntegrateBackward, totp.cpp:915-983.  start2, start1 and the steps
    before start1 (nearest first); [back] is the local trajectory (front first). *)
Fixpoint IntegrateBackward_loop (fuel : nat) (su : setup) (start2 start1 : step) (earlier : list step)
    (back : list step) (pos vel acceleration slope : A) : outcome (list step) :=
  match fuel with
  | O => Diverge
  | S fuel =>
    let at_begin := match earlier with [] => true | _ => false end in
    if negb at_begin || (c0 <=' pos) then
      let dt := su_time_step su in
      do s <- (if fst start1 <=' pos then
                 let new_vel := vel -' dt *' acceleration in
                 let new_pos := pos -' dt *' lit_half *' (new_vel +' vel) in
                 do new_acceleration <- GetMinMaxPathAcceleration su new_pos new_vel false;
                 let new_slope := (vel -' new_vel) /' (pos -' new_pos) in
                 if new_vel <' c0 then Throw RuntimeError
                 else Ok (start2, start1, earlier, (pos, vel) :: back, (new_pos, new_vel), new_acceleration, new_slope)
               else
                 match earlier with
                 | [] => UB
                 | e :: r => Ok (start1, e, r, back, (pos, vel), acceleration, slope)
                 end);
      let '(start2, start1, earlier, back, (pos, vel), acceleration, slope) := s in
      let start_slope := (snd start2 -' snd start1) /' (fst start2 -' fst start1) in
      let intersection_pos :=
        (snd start1 -' vel +' slope *' pos -' start_slope *' fst start1) /' (slope -' start_slope) in
      do hit <- (if (smax (fst start1) pos -' lit_eps) <=' intersection_pos then
                   match back with
                   | [] => UB
                   | front :: _ => Ok (intersection_pos <=' (lit_eps +' smin (fst start2) (fst front)))
                   end
                 else Ok false);
      if hit then
        let intersection_vel := snd start1 +' start_slope *' (intersection_pos -' fst start1) in
        Ok (rev_append back ((intersection_pos, intersection_vel) :: start1 :: earlier))
      else IntegrateBackward_loop fuel su start2 start1 earlier back pos vel acceleration slope
    else Throw RuntimeError
  end.
Definition IntegrateBackward (fuel : nat) (su : setup) (start_trajectory : list step) (path_pos path_vel acceleration : A) : outcome (list step) :=
  match start_trajectory with
  | start2 :: start1 :: earlier =>
    if path_pos <' fst start1 then Throw InvalidArgument
    else IntegrateBackward_loop fuel su start2 start1 earlier [] path_pos path_vel acceleration c0
  | _ => UB
  end.

(** The main loop of Trajectory::Trajectory, totp.cpp:546-563. *)
Fixpoint integrate (fuel0 fuel : nat) (su : setup) (trajectory : list step) (after_acceleration : A) : outcome (list step) :=
  match fuel with
  | O => Diverge
  | S fuel =>
    do r <- IntegrateForward fuel0 su trajectory after_acceleration;
    let '(reached_end, trajectory) := r in
    if reached_end then Ok trajectory
    else
      match trajectory with
      | [] => UB
      | (pos, _) :: _ =>
        do sp <- GetNextSwitchingPoint fuel0 su pos;
        match sp with
        | None => Ok trajectory
        | Some ((s_pos, s_vel), before, after) =>
          do trajectory <- IntegrateBackward fuel0 su trajectory s_pos s_vel before;
          integrate fuel0 fuel su trajectory after
        end
      end
  end.

(** A step with its time: path_pos_, path_vel_, time_. *)
Record timed : Type := mkTimed { t_pos : A; t_vel : A; t_time : A }.
(** "calculate timing", totp.cpp:567-578. *)
Fixpoint timing (previous : timed) (rest : list step) : list timed :=
  match rest with
  | [] => []
  | (pos, vel) :: r =>
    let it := mkTimed pos vel (t_time previous +' (pos -' t_pos previous) /' ((vel +' t_vel previous) /' c2)) in
    it :: timing it r
  end.
Definition add_times (trajectory : list step) : list timed :=
  match trajectory with
  | [] => []
  | (pos, vel) :: r => let first := mkTimed pos vel c0 in first :: timing first r
  end.

(** A constructed Trajectory: path_ and trajectory_. *)
Record trajectory : Type := mkTrajectory { tr_path : path; tr_steps : list timed }.
(** Trajectory::Trajectory (both), totp.cpp:512-579, behind ParametrizePathTOTP,
    totp.cpp:1183-1192. *)
Definition ParametrizePathTOTP (fuel : nat) (waypoints : list (list A)) (max_velocity max_acceleration : list A)
    (max_deviation timestep : A) : outcome trajectory :=
  do p <- MakePath waypoints max_deviation;
  if negb (forallb (e_finite ex) max_velocity) then Throw InvalidArgument
  else if negb (forallb (e_finite ex) max_acceleration) then Throw InvalidArgument
  else if negb (e_finite ex timestep) then Throw InvalidArgument
  else
    let su := mkSetup p max_velocity max_acceleration timestep in
    do first <- GetMinMaxPathAcceleration su c0 c0 true;
    do steps <- integrate fuel fuel su [(c0, c0)] first;
    do last <- GetMinMaxPathAcceleration su (path_length p) c0 false;
    do steps <- IntegrateBackward fuel su steps (path_length p) c0 last;
    Ok (mkTrajectory p (add_times (rev steps))).

(** Trajectory::Duration, totp.cpp:1091-1094. *)
Definition Duration (tr : trajectory) : outcome A :=
  match rev (tr_steps tr) with [] => UB | l :: _ => Ok (t_time l) end.

(** GetPositionVelocity after the lookup, totp.cpp:1123-1138: the step and the one
    before it. *)
Definition sample_between (p : path) (previous it : timed) (time : A) : outcome (list A * list A) :=
  let timestep := t_time it -' t_time previous in
  let acceleration := c2 *' (t_pos it -' t_pos previous -' timestep *' t_vel previous) /' (timestep *' timestep) in
  let timestep := time -' t_time previous in
  let path_pos := t_pos previous +' timestep *' t_vel previous +' lit_half *' timestep *' timestep *' acceleration in
  let path_vel := t_vel previous +' timestep *' acceleration in
  do position <- GetConfig p path_pos;
  do tangent <- GetTangent p path_pos;
  Ok (position, eig_scale tangent path_vel).

(** The mutable members: cached_time_ and cached_trajectory_segment_, an iterator into
    the list of some object (None while it is not initialised). *)
Record cache : Type := mkCache { ca_time : A; ca_segment : option (nat * nat) }.
(** A TOTPTrajectoryImpl object, and the objects that exist, by number. *)
Record object : Type := mkObject { ob_trajectory : trajectory; ob_cache : cache }.
Definition heap : Type := nat -> option object.
Definition heap_set (h : heap) (id : nat) (o : option object) : heap := fun i => if (i =? id)%nat then o else h i.

(** The loop of GetTrajectorySegment, totp.cpp:1111-1114, from position [k] of [l]:
    beyond the last element the iterator is end(), which has no time_. *)
Fixpoint advance (rest : list timed) (k : nat) (time : A) : outcome nat :=
  match rest with
  | [] => UB
  | x :: r => if t_time x <=' time then advance r (S k) time else Ok k
  end.
(** Trajectory::GetTrajectorySegment, totp.cpp:1096-1118, of the object [id]: the list
    and the position of the segment, and the new cache. *)
Definition GetTrajectorySegment (h : heap) (id : nat) (o : object) (time : A) : outcome (list timed * nat * cache) :=
  let steps := tr_steps (ob_trajectory o) in
  match rev steps with
  | [] => UB
  | back :: _ =>
    if t_time back <=' time then Ok (steps, (length steps - 1)%nat, ob_cache o)
    else
      let segment := if time <' ca_time (ob_cache o) then Some (id, 0%nat) else ca_segment (ob_cache o) in
      match segment with
      | None => UB
      | Some (owner, k) =>
        match h owner with
        | None => UB
        | Some o' =>
          let l := tr_steps (ob_trajectory o') in
          do k' <- advance (skipn k l) k time;
          Ok (l, k', mkCache time (Some (owner, k')))
        end
      end
  end.
(** GetPositionVelocity and GetPositionVelocityTimePoint, totp.cpp:1120-1139 and
    1170-1176, with the checks of the constructor of PositionVelocityTimePoint
    (time_optimal_trajectory_parametrization.hpp:22-36): position, velocity, and the objects afterwards. *)
Definition GetPositionVelocityTimePoint (h : heap) (id : nat) (time : A) : outcome (list A * list A * A * heap) :=
  match h id with
  | None => UB
  | Some o =>
    do r <- GetTrajectorySegment h id o time;
    let '(l, k, c) := r in
    match k with
    | O => UB
    | S k' =>
      do it <- raw_get l k;
      do previous <- raw_get l k';
      do pv <- sample_between (tr_path (ob_trajectory o)) previous it time;
      if negb (length (fst pv) =? length (snd pv))%nat then Throw InvalidArgument
      else if time <' c0 then Throw InvalidArgument
      else Ok (fst pv, snd pv, time, heap_set h id (Some (mkObject (ob_trajectory o) c)))
    end
  end.
(** A new object: cached_time_ is numeric_limits<double>::max(), the iterator is not
    initialised (totp.cpp:531). *)
Definition fresh_object (tr : trajectory) : object := mkObject tr (mkCache (e_max ex) None).
(** TOTPTrajectoryImpl::Clone, totp.cpp:1162-1166: the implicit copy constructor copies
    the list, the cached time and the iterator (which still points into the list of the
    object it pointed into). *)
Definition Clone (h : heap) (id new_id : nat) : outcome heap :=
  match h id with None => UB | Some o => Ok (heap_set h new_id (Some o)) end.
(** Destruction of the unique_ptr. *)
Definition Destroy (h : heap) (id : nat) : heap := heap_set h id None.
End Totp.
