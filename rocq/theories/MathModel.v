(** Model of math.hpp and math.cpp (scalar functions, std::vector functions,
    revolute joints, averages, interpolation).

    The functions are written once over a type of scalars with the operations the
    code uses ([arith]); MathReal.v instantiates them with the real numbers (exact
    arithmetic), MathDouble.v with IEEE binary64.  Vectors are lists.
    utility::ClampValue is the one of UtilityModel.v. *)
From Verif Require Import Base UtilityModel.

(** Operations on double used by math.cpp. [a_of n] is the literal n.0. *)
Record arith (A : Type) : Type := mkArith {
  a_of : Z -> A; aadd : A -> A -> A; asub : A -> A -> A; amul : A -> A -> A; adiv : A -> A -> A;
  aopp : A -> A; aabs : A -> A; asqrt : A -> A; afmod : A -> A -> A;
  altb : A -> A -> bool; aleb : A -> A -> bool; aeqb : A -> A -> bool; a_pi : A }.
Arguments mkArith {A} _ _ _ _ _ _ _ _ _ _ _ _ _. Arguments a_of {A} _ _.
Arguments aadd {A} _ _ _. Arguments asub {A} _ _ _. Arguments amul {A} _ _ _. Arguments adiv {A} _ _ _.
Arguments aopp {A} _ _. Arguments aabs {A} _ _. Arguments asqrt {A} _ _. Arguments afmod {A} _ _ _.
Arguments altb {A} _ _ _. Arguments aleb {A} _ _ _. Arguments aeqb {A} _ _ _. Arguments a_pi {A} _.

Section Math.
Context {A : Type} (ar : arith A).
Notation "a +' b" := (aadd ar a b) (at level 50, left associativity).
Notation "a -' b" := (asub ar a b) (at level 50, left associativity).
Notation "a *' b" := (amul ar a b) (at level 40, left associativity).
Notation "a /' b" := (adiv ar a b) (at level 40, left associativity).
Notation c0 := (a_of ar 0). Notation c1 := (a_of ar 1). Notation c2 := (a_of ar 2).

(** CloseEnough, math.cpp:37-49. *)
Definition CloseEnough (p1 p2 threshold : A) : bool :=
  aleb ar (aabs ar (p2 -' p1)) (aabs ar threshold).

(** CloseEnough on Vector3d, math.cpp:51-69 (any number of components). *)
Fixpoint CloseEnoughVector (v1 v2 : list A) (threshold : A) : bool :=
  match v1, v2 with
  | x :: r, y :: s => if altb ar (aabs ar threshold) (aabs ar (x -' y)) then false else CloseEnoughVector r s threshold
  | _, _ => true
  end.

(** EnforceContinuousRevoluteBounds, math.cpp:71-84. *)
Definition EnforceContinuousRevoluteBounds (value : A) : A :=
  let low := aopp ar (a_pi ar) in
  let high := a_pi ar in
  let remainder := afmod ar (value -' low) (high -' low) in
  if aleb ar c0 remainder then remainder +' low else remainder +' high.

(** SquaredNorm, Norm, Abs, Multiply, Divide, Add, Sub, Sum: math.cpp:86-239.
    Loops over all indices of equally long vectors. *)
Definition SquaredNorm (vec : list A) : A := fold_left (fun s x => s +' (x *' x)) vec c0.
Definition Norm (vec : list A) : A := asqrt ar (SquaredNorm vec).
Definition Abs (vec : list A) : list A := map (aabs ar) vec.
Definition MultiplyScalar (vec : list A) (scalar : A) : list A := map (fun x => x *' scalar) vec.
Fixpoint zip_with (f : A -> A -> A) (v1 v2 : list A) : list A :=
  match v1, v2 with x :: r, y :: s => f x y :: zip_with f r s | _, _ => [] end.
Definition zip_checked (f : A -> A -> A) (v1 v2 : list A) : outcome (list A) :=
  if (length v1 =? length v2)%nat then Ok (zip_with f v1 v2) else Throw InvalidArgument.
Definition Multiply := zip_checked (amul ar).
Definition DivideScalar (vec : list A) (scalar : A) : list A := MultiplyScalar vec (c1 /' scalar).
Definition Divide := zip_checked (adiv ar).
Definition AddScalar (vec : list A) (scalar : A) : list A := map (fun x => x +' scalar) vec.
Definition Add := zip_checked (aadd ar).
Definition SubScalar (vec : list A) (scalar : A) : list A := map (fun x => x -' scalar) vec.
Definition Sub := zip_checked (asub ar).
Definition Sum (vec : list A) : A := fold_left (fun s x => s +' x) vec c0.

(** utility::ClampValue(ratio, 0.0, 1.0). *)
Definition clamp01 (ratio : A) : outcome A :=
  ClampValue (altb ar) (fun a b => aleb ar b a) ratio c0 c1.

(** ContinuousRevoluteSignedDistance, math.cpp:602-610. *)
Definition ContinuousRevoluteSignedDistance (p1 p2 : A) : A :=
  EnforceContinuousRevoluteBounds (EnforceContinuousRevoluteBounds p2 -' EnforceContinuousRevoluteBounds p1).
(** ContinuousRevoluteDistance, math.cpp:612-615. *)
Definition ContinuousRevoluteDistance (p1 p2 : A) : A := aabs ar (ContinuousRevoluteSignedDistance p1 p2).
(** AddContinuousRevoluteValues, math.cpp:617-620. *)
Definition AddContinuousRevoluteValues (start change : A) : A := EnforceContinuousRevoluteBounds (start +' change).
(** GetContinuousRevoluteRange, math.cpp:622-633. *)
Definition GetContinuousRevoluteRange (start end_ : A) : A :=
  let raw_range := ContinuousRevoluteSignedDistance start end_ in
  if aleb ar c0 raw_range then raw_range else (c2 *' a_pi ar) +' raw_range.
(** CheckInContinuousRevoluteRange, math.cpp:635-665. *)
Definition CheckInContinuousRevoluteRange (start range val : A) : bool :=
  let real_val := EnforceContinuousRevoluteBounds val in
  let real_start := EnforceContinuousRevoluteBounds start in
  let delta := ContinuousRevoluteSignedDistance real_start real_val in
  if aleb ar c0 delta then aleb ar delta range
  else aleb ar ((c2 *' a_pi ar) +' delta) range.
(** CheckInContinuousRevoluteBounds, math.cpp:667-673. *)
Definition CheckInContinuousRevoluteBounds (start end_ val : A) : bool :=
  CheckInContinuousRevoluteRange start (GetContinuousRevoluteRange start end_) val.

(** Interpolate, math.cpp:384-392. *)
Definition Interpolate (p1 p2 ratio : A) : outcome A :=
  do real_ratio <- clamp01 ratio;
  Ok ((p1 *' (c1 -' real_ratio)) +' (p2 *' real_ratio)).
(** InterpolateContinuousRevolute, math.cpp:394-407. *)
Definition InterpolateContinuousRevolute (p1 p2 ratio : A) : outcome A :=
  do real_ratio <- clamp01 ratio;
  let delta := ContinuousRevoluteSignedDistance p1 p2 in
  Ok (AddContinuousRevoluteValues p1 (delta *' real_ratio)).
(** Interpolate on std::vector, math.cpp:409-430; InterpolateXd (442-457),
    Interpolate3d (459-469) and Interpolate4d (471-481) compute the same
    componentwise (InterpolateXd checks the sizes first, which is the same: both
    checks throw std::invalid_argument). *)
Definition InterpolateVector (v1 v2 : list A) (ratio : A) : outcome (list A) :=
  do real_ratio <- clamp01 ratio;
  zip_checked (fun x y => (x *' (c1 -' real_ratio)) +' (y *' real_ratio)) v1 v2.

(** SquaredDistance and Distance on std::vector, math.cpp:572-600; the versions on
    Eigen vectors (500-540) compute the same sum. *)
Definition SquaredDistance (p1 p2 : list A) : outcome A :=
  if (length p1 =? length p2)%nat
  then Ok (fold_left (fun s d => s +' (d *' d)) (zip_with (fun x y => y -' x) p1 p2) c0)
  else Throw InvalidArgument.
Definition Distance (p1 p2 : list A) : outcome A :=
  if (length p1 =? length p2)%nat
  then do d <- SquaredDistance p1 p2; Ok (asqrt ar d)
  else Throw InvalidArgument.

(** First index whose weight is not zero, math.cpp:690-696. *)
Fixpoint starting_index (weights : list A) : nat :=
  match weights with
  | [] => 0
  | w :: r => if aeqb ar (aabs ar w) c0 then S (starting_index r) else 0
  end.
(** One round of the averaging loop, math.cpp:707-715: (average, running sum). *)
Definition average_step (s : A * A) (vw : A * A) : A * A :=
  let weights_running_sum := snd s +' snd vw in
  let effective_weight := snd vw /' weights_running_sum in
  (fst s +' (effective_weight *' (fst vw -' fst s)), weights_running_sum).
(** AverageStdVectorDouble, math.cpp:675-717; AverageContinuousRevolute (749-753)
    is the same function. *)
Definition AverageStdVectorDouble (values weights : list A) : outcome A :=
  match values with
  | [] => Throw InvalidArgument
  | _ =>
    if negb (length weights =? length values)%nat && negb (length weights =? 0)%nat then Throw InvalidArgument
    else
      let used := if (length weights =? 0)%nat then repeat c1 (length values) else map (aabs ar) weights in
      let start := starting_index weights in
      match nth_error values start, nth_error used start with
      | Some v, Some w => Ok (fst (fold_left average_step (skipn (S start) (combine values used)) (v, w)))
      | _, _ => Throw InvalidArgument
      end
  end.

(** ComputeStdDevStdVectorDouble, math.cpp:719-747. *)
Definition ComputeStdDevAround (values : list A) (mean : A) : outcome A :=
  match values with
  | [] => Throw InvalidArgument
  | [_] => Ok c0
  | _ =>
    let inv_n_minus_1 := c1 /' a_of ar (Z.of_nat (length values - 1)) in
    let stddev_sum := fold_left (fun s v => s +' ((v -' mean) *' (v -' mean))) values c0 in
    Ok (asqrt ar (stddev_sum *' inv_n_minus_1))
  end.
Definition ComputeStdDev (values : list A) : outcome A :=
  do mean <- AverageStdVectorDouble values [];
  ComputeStdDevAround values mean.

(** LinearInterpolate, math.hpp:175-185, for scalar values. *)
Definition LinearInterpolate (low_point high_point low_value high_value query_point : A) : A :=
  let slope := (high_value -' low_value) /' (high_point -' low_point) in
  low_value +' (slope *' (query_point -' low_point)).
(** BilinearInterpolate, math.hpp:187-213; points are pairs. *)
Definition BilinearInterpolate (low_point high_point : A * A) (ll lh hl hh : A) (query_point : A * A) : A :=
  let low_y := LinearInterpolate (fst low_point) (fst high_point) ll hl (fst query_point) in
  let high_y := LinearInterpolate (fst low_point) (fst high_point) lh hh (fst query_point) in
  LinearInterpolate (snd low_point) (snd high_point) low_y high_y (snd query_point).
(** TrilinearInterpolate, math.hpp:215-247; points are ((x, y), z), corner values
    in the order of the parameters (x slowest). *)
Definition TrilinearInterpolate (low_point high_point : A * A * A) (lll llh lhl lhh hll hlh hhl hhh : A) (query_point : A * A * A) : A :=
  let low_z := BilinearInterpolate (fst low_point) (fst high_point) lll lhl hll hhl (fst query_point) in
  let high_z := BilinearInterpolate (fst low_point) (fst high_point) llh lhh hlh hhh (fst query_point) in
  LinearInterpolate (snd low_point) (snd high_point) low_z high_z (snd query_point).
End Math.
