(** C125-C134: rotations, quaternions and isometries: conversions.cpp, the quaternion and
    isometry functions of math.cpp and random_rotation_generator.hpp. *)
From Coq Require Import Reals Lra Psatz Permutation.
From Flocq Require Import Core BinarySingleNaN.
From Verif Require Import Base UtilityModel Double MathModel MathReal MathSpec MathProof MathLinModel MathLinSpec MathLinProof Prop_MathLin RotationModel RotationSpec RotationProof RotationEuler RotationAngle RotationAverage RotationMisc RotationDouble.
Local Open Scope R_scope.

(** C125: roll, pitch and yaw.  The quaternion is a unit quaternion and rotates v into
    Rx(roll) Ry(pitch) Rz(yaw) v; in the URDF convention into Rz(yaw) Ry(pitch) Rx(roll) v. *)
Theorem C125_rpy : forall r p y, let q := QuaternionFromRPY real_arith sin cos r p y in
  unit q /\ rotates q (mul3 (mul3 (rot_x r) (rot_y p)) (rot_z y)).
Proof. intros r p y q. pose proof (rpy_unit r p y) as U. split; [exact U|]. unfold q. rewrite <- rpy_matrix. apply toRot_rotates, U. Qed.
Theorem C125_urdf_rpy : forall r p y, let q := QuaternionFromUrdfRPY real_arith sin cos r p y in
  unit q /\ rotates q (mul3 (mul3 (rot_z y) (rot_y p)) (rot_x r)).
Proof. intros r p y q. pose proof (urdf_unit r p y) as U. split; [exact U|]. unfold q. rewrite <- urdf_matrix. apply toRot_rotates, U. Qed.
Theorem C125_transforms : forall x y z r p w,
  TransformFromXYZRPY real_arith sin cos x y z r p w = mkIso (mul3 (mul3 (rot_x r) (rot_y p)) (rot_z w)) (x, y, z) /\
  TransformFromUrdfXYZRPY real_arith sin cos x y z r p w = mkIso (mul3 (mul3 (rot_z w) (rot_y p)) (rot_x r)) (x, y, z) /\
  TransformFromRPY real_arith sin cos [x; y; z; r; p; w] = Ok (TransformFromXYZRPY real_arith sin cos x y z r p w) /\
  TransformFromUrdfRPY real_arith sin cos [x; y; z; r; p; w] = Ok (TransformFromUrdfXYZRPY real_arith sin cos x y z r p w).
Proof.
  intros. split; [unfold TransformFromXYZRPY, iso_of; rewrite rpy_matrix; reflexivity|]. split; [unfold TransformFromUrdfXYZRPY, iso_of; rewrite urdf_matrix; reflexivity|].
  split; reflexivity.
Qed.
(** ... proper isometries, and a vector of another size is rejected. *)
Theorem C125_proper : forall components t,
  TransformFromRPY real_arith sin cos components = Ok t \/ TransformFromUrdfRPY real_arith sin cos components = Ok t ->
  length components = 6%nat /\ proper t.
Proof.
  intros c t H. destruct c as [|c1 [|c2 [|c3 [|c4 [|c5 [|c6 [|c7 c]]]]]]]; try (destruct H; discriminate). split; [reflexivity|].
  destruct H as [H|H]; injection H as <-; unfold proper; cbn [iso_rotation iso_of]; apply toRot_rotation; [apply rpy_unit|apply urdf_unit].
Qed.
Theorem C125_size : forall components, length components <> 6%nat ->
  TransformFromRPY real_arith sin cos components = Throw InvalidArgument /\ TransformFromUrdfRPY real_arith sin cos components = Throw InvalidArgument.
Proof. intros c H. destruct c as [|c1 [|c2 [|c3 [|c4 [|c5 [|c6 [|c7 c]]]]]]]; try (split; reflexivity). cbn in H. lia. Qed.
Print Assumptions C125_rpy.
Print Assumptions C125_urdf_rpy.
Print Assumptions C125_transforms.
Print Assumptions C125_proper.
Print Assumptions C125_size.
Example C125_nonvacuous : exists t, TransformFromRPY real_arith sin cos [1; 2; 3; PI; 0; 0] = Ok t /\ iso_rotation t = ((1, 0, 0), (0, -1, 0), (0, 0, -1)).
Proof.
  destruct (C125_transforms 1 2 3 PI 0 0) as (E & _ & F & _). rewrite E in F. eexists. split; [exact F|]. cbn [iso_rotation].
  unfold rot_x, rot_y, rot_z, mul3, transpose3, dot3. rewrite cos_PI, sin_PI, cos_0, sin_0. repeat match goal with |- (_, _) = (_, _) => apply (f_equal2 pair) end; ring.
Qed.

(** C126: the Euler angles of a rotation give the rotation back: so TransformToRPY
    followed by TransformFromRPY is the identity on proper isometries; roll is in
    [0, PI], pitch and yaw in [-PI, PI]. *)
Theorem C126_matrix : forall m, is_rotation m ->
  let '(r, p, y) := EulerAnglesFromRotationMatrix real_arith sin cos Ratan2 m in
  mul3 (mul3 (rot_x r) (rot_y p)) (rot_z y) = m /\ 0 <= r <= PI /\ - PI <= p <= PI /\ - PI <= y <= PI.
Proof.
  intros m H. pose proof (euler_round_trip m H) as E. pose proof (euler_range m) as B. unfold EulerAnglesFromRotationMatrix.
  destruct (eulerAngles real_arith sin cos Ratan2 m) as [[r p] y]. split; assumption.
Qed.
Theorem C126_isometry : forall t, proper t ->
  let '(r, p, y) := EulerAnglesFromIsometry3d real_arith sin cos Ratan2 t in
  mul3 (mul3 (rot_x r) (rot_y p)) (rot_z y) = iso_rotation t /\ 0 <= r <= PI /\ - PI <= p <= PI /\ - PI <= y <= PI.
Proof. intros [m v] H. exact (C126_matrix m H). Qed.
Print Assumptions C126_isometry.
Theorem C126_round_trip : forall t, proper t ->
  TransformFromRPY real_arith sin cos (TransformToRPY real_arith sin cos Ratan2 t) = Ok t.
Proof.
  intros [m [[x y] z]] H. unfold TransformToRPY. cbn [iso_translation iso_rotation]. pose proof (C126_matrix m H) as E.
  destruct (EulerAnglesFromRotationMatrix real_arith sin cos Ratan2 m) as [[r p] w]. destruct E as [E _].
  destruct (C125_transforms x y z r p w) as (F & _ & G & _). rewrite G, F, E. reflexivity.
Qed.
(** The quaternion of the Euler angles of a unit quaternion stands for the same rotation. *)
Theorem C126_quaternion : forall q m, unit q -> rotates q m ->
  let '(r, p, y) := EulerAnglesFromQuaternion real_arith sin cos Ratan2 q in
  rotates (QuaternionFromRPY real_arith sin cos r p y) m /\
  (QuaternionFromRPY real_arith sin cos r p y = q \/ QuaternionFromRPY real_arith sin cos r p y = oppq q).
Proof.
  intros q m U H. assert (Em : m = toRotationMatrix real_arith q) by (eapply rotates_unique; [exact H|apply toRot_rotates, U]). subst m.
  unfold EulerAnglesFromQuaternion. pose proof (C126_matrix _ (toRot_rotation q U)) as E.
  destruct (EulerAnglesFromRotationMatrix real_arith sin cos Ratan2 (toRotationMatrix real_arith q)) as [[r p] y]. destruct E as [E _].
  destruct (C125_rpy r p y) as [V R]. rewrite E in R. split; [exact R|].
  apply dotq_extreme; [exact U|exact V|]. rewrite <- rpy_matrix in E.
  pose proof (angle_theta _ _ U V) as A. rewrite E, (angle_theta _ _ U U), (theta_self _ U) in A. unfold theta in A.
  apply (f_equal cos) in A. rewrite cos_0, cos_acos in A; [lra|]. pose proof (dotq_sq _ _ U V). nra.
Qed.
Print Assumptions C126_matrix.
Print Assumptions C126_round_trip.
Print Assumptions C126_quaternion.
Example C126_nonvacuous : proper (mkIso (rot_y (PI / 2)) (1, 2, 3)).
Proof. unfold proper. cbn [iso_rotation]. rewrite <- axis_y. apply toRot_rotation, uy. Qed.

(** C127: conversions between std::vector and Eigen vectors and quaternions lose
    nothing, in any arithmetic, and reject vectors of the wrong size. *)
Theorem C127_vector3 : forall (A : Type) (x y z : A),
  StdVectorDoubleToEigenVector3d (EigenVector3dToStdVectorDouble (x, y, z)) = Ok (x, y, z) /\
  forall (l : list A) v, StdVectorDoubleToEigenVector3d l = Ok v -> EigenVector3dToStdVectorDouble v = l.
Proof.
  intros A x y z. split; [reflexivity|]. intros l v. unfold StdVectorDoubleToEigenVector3d.
  destruct l as [|a [|b [|c [|d l]]]]; cbn; intros H; try discriminate H. injection H as <-. reflexivity.
Qed.
Theorem C127_quaternion : forall (A : Type) (q : quat A),
  StdVectorDoubleToEigenQuaterniond (EigenQuaterniondToStdVectorDouble q) = Ok q /\
  EigenQuaterniondToStdVectorDouble q = [qx q; qy q; qz q; qw q] /\
  forall (l : list A) v, StdVectorDoubleToEigenQuaterniond l = Ok v -> EigenQuaterniondToStdVectorDouble v = l.
Proof.
  intros A q. split; [destruct q; reflexivity|]. split; [reflexivity|]. intros l v. unfold StdVectorDoubleToEigenQuaterniond.
  destruct l as [|a [|b [|c [|d [|e l]]]]]; cbn; intros H; try discriminate H. injection H as <-. reflexivity.
Qed.
Theorem C127_vectorX : forall (A : Type) (ar : arith A) (l : list A),
  StdVectorDoubleToEigenVectorXd ar l = Ok l /\ EigenVectorXdToStdVectorDouble ar l = Ok l.
Proof. intros A ar l. split; apply copy_all. Qed.
Theorem C127_sizes : forall (A : Type) (l : list A),
  (length l <> 3%nat -> StdVectorDoubleToEigenVector3d l = Throw InvalidArgument) /\
  (length l <> 4%nat -> StdVectorDoubleToEigenQuaterniond l = Throw InvalidArgument).
Proof.
  intros A l. split; intros H; [unfold StdVectorDoubleToEigenVector3d|unfold StdVectorDoubleToEigenQuaterniond]; apply Nat.eqb_neq in H; rewrite H; reflexivity.
Qed.
Print Assumptions C127_vector3.
Print Assumptions C127_quaternion.
Print Assumptions C127_vectorX.
Print Assumptions C127_sizes.
Example C127_nonvacuous : StdVectorDoubleToEigenQuaterniond [1; 2; 3; 4] = Ok (mkQuat 4 1 2 3) /\ length [1; 2] <> 4%nat.
Proof. split; [reflexivity|cbn; lia]. Qed.

(** C128: the distance of unit quaternions is the angle between their rotations, or 0
    when that angle is at most 1e-7. *)
Theorem C128_angle_exists : forall p q, unit p -> unit q -> exists t, quaternion_angle p q t /\ 0 <= t <= PI.
Proof. intros p q U V. exists (theta p q). split; [apply quaternion_angle_iff; auto|apply theta_range]. Qed.
Theorem C128_distance : forall p q t, unit p -> unit q -> quaternion_angle p q t ->
  DistanceQuaternion real_arith acos p q = t \/ (DistanceQuaternion real_arith acos p q = 0 /\ 0 <= t <= / 10000000).
Proof.
  intros p q t U V H. apply quaternion_angle_iff in H; [|assumption..]. subst t. pose proof (theta_range p q).
  destruct (distance_cases p q U V) as [[_ E]|(_ & E & B)]; [left; exact E|right; split; [exact E|lra]].
Qed.
(** Symmetry, the range and the indifference to signs hold exactly, for all quaternions. *)
Theorem C128_symmetric : forall p q, DistanceQuaternion real_arith acos p q = DistanceQuaternion real_arith acos q p /\
  0 <= DistanceQuaternion real_arith acos p q <= PI /\
  DistanceQuaternion real_arith acos p (oppq q) = DistanceQuaternion real_arith acos p q /\
  DistanceQuaternion real_arith acos (oppq p) q = DistanceQuaternion real_arith acos p q.
Proof.
  intros p q. pose proof PI_RGT_0. unfold DistanceQuaternion. cbn [aabs aadd amul asub a_of altb real_arith]. rewrite !dq_abs.
  replace (dotq p (oppq q)) with (- dotq p q) by (unfold dotq, oppq; cbn; ring). replace (dotq (oppq p) q) with (- dotq p q) by (unfold dotq, oppq; cbn; ring).
  rewrite !Rabs_Ropp, (dotq_comm q p). split; [reflexivity|]. split; [|auto].
  destruct (Rlt_bool _ _); [apply acos_bound|lra].
Qed.
Theorem C128_zero_iff_same : forall p q m n, unit p -> unit q -> rotates p m -> rotates q n -> m = n -> DistanceQuaternion real_arith acos p q = 0.
Proof.
  intros p q m n U V H1 H2 E. assert (A : quaternion_angle p q 0).
  { apply quaternion_angle_iff; [assumption..|]. rewrite <- angle_theta by assumption.
    rewrite <- (rotates_unique _ _ _ H1 (toRot_rotates p U)), <- (rotates_unique _ _ _ H2 (toRot_rotates q V)), E.
    rewrite (rotates_unique _ _ _ H2 (toRot_rotates q V)), angle_theta, theta_self by assumption. reflexivity. }
  destruct (C128_distance p q 0 U V A) as [D|[D _]]; exact D.
Qed.
(** Rotating both quaternions by the same rotation, on either side, changes nothing. *)
Theorem C128_invariant : forall p q r, unit p -> unit q -> unit r ->
  DistanceQuaternion real_arith acos (q_mul real_arith r p) (q_mul real_arith r q) = DistanceQuaternion real_arith acos p q /\
  DistanceQuaternion real_arith acos (q_mul real_arith p r) (q_mul real_arith q r) = DistanceQuaternion real_arith acos p q.
Proof.
  intros p q r U V W. unfold DistanceQuaternion. cbn [aabs aadd amul asub a_of altb real_arith]. rewrite !dq_abs, dotq_mul_l, dotq_mul_r by assumption. split; reflexivity.
Qed.
(** The triangle inequality up to 2e-7; it does not hold exactly. *)
Theorem C128_triangle_partial : forall p q r, unit p -> unit q -> unit r ->
  DistanceQuaternion real_arith acos p r <= DistanceQuaternion real_arith acos p q + DistanceQuaternion real_arith acos q r + 2 * / 10000000.
Proof.
  intros p q r U V W. pose proof (theta_triangle p q r U V W). pose proof (theta_range p r).
  destruct (distance_cases p q U V) as [[_ ->]|(_ & -> & ?)], (distance_cases q r V W) as [[_ ->]|(_ & -> & ?)], (distance_cases p r U W) as [[_ ->]|(_ & -> & ?)]; lra.
Qed.
Definition tilted (h : R) : quat R := mkQuat (cos h) (sin h) 0 0.
Lemma tilted_unit h : unit (tilted h). Proof. unfold unit, dotq, tilted. cbn. pose proof (cs1 h). lra. Qed.
Theorem C128_triangle_refuted : exists p q r, unit p /\ unit q /\ unit r /\
  DistanceQuaternion real_arith acos p q = 0 /\ DistanceQuaternion real_arith acos q r = 0 /\ 0 < DistanceQuaternion real_arith acos p r.
Proof.
  set (h := / 50000000). exists (tilted (- h)), (tilted 0), (tilted h).
  split; [apply tilted_unit|]. split; [apply tilted_unit|]. split; [apply tilted_unit|].
  assert (D : forall a b, dotq (tilted a) (tilted b) = cos (b - a)) by (intros; unfold dotq, tilted; cbn; rewrite cos_minus; ring).
  assert (E : eps real_arith = / 4503599627370496) by apply eps_real.
  assert (C1 : 1 - / 4503599627370496 <= cos h) by (destruct (cos_small h) as [? _]; unfold h in *; lra).
  assert (C2 : 0 < cos (2 * h) < 1 - / 4503599627370496) by (destruct (cos_small (2 * h)) as [? ?]; unfold h in *; lra).
  unfold DistanceQuaternion. cbn [aabs aadd amul asub a_of altb real_arith]. rewrite !dq_abs, !D, E.
  replace (0 - - h) with h by ring. replace (h - 0) with h by ring. replace (h - - h) with (2 * h) by ring.
  rewrite (Rabs_pos_eq (cos h)), (Rabs_pos_eq (cos (2 * h))) by lra.
  rewrite Rlt_bool_false by lra. rewrite Rlt_bool_true by lra. split; [reflexivity|]. split; [reflexivity|].
  set (x := 2 * (cos (2 * h) * cos (2 * h)) - 1). assert (-1 <= x < 1) by (unfold x; nra).
  destruct (acos_bound x) as [[L|L] _]; [exact L|]. exfalso. pose proof (cos_acos x ltac:(lra)) as K. rewrite <- L, cos_0 in K. lra.
Qed.
(** In double arithmetic the result is in [0, M_PI] whatever the components are, NaN and
    infinities included, if std::acos maps [-1, 1] there. *)
Theorem C128_rounded : forall (acos : double -> double) (q1 q2 : quat double),
  (forall x, is_finite x = true -> -1 <= B2R x <= 1 -> is_finite (acos x) = true /\ 0 <= B2R (acos x) <= B2R dpi) ->
  is_finite (DistanceQuaternion double_arith acos q1 q2) = true /\ 0 <= B2R (DistanceQuaternion double_arith acos q1 q2) <= B2R dpi.
Proof. exact distance_double. Qed.
Print Assumptions C128_angle_exists.
Print Assumptions C128_distance.
Print Assumptions C128_symmetric.
Print Assumptions C128_zero_iff_same.
Print Assumptions C128_invariant.
Print Assumptions C128_triangle_partial.
Print Assumptions C128_triangle_refuted.
Print Assumptions C128_rounded.
Example C128_nonvacuous : DistanceQuaternion real_arith acos (tilted 0) (tilted (PI / 4)) = PI / 2 /\
  exists acos : double -> double, forall x, is_finite x = true -> -1 <= B2R x <= 1 -> is_finite (acos x) = true /\ 0 <= B2R (acos x) <= B2R dpi.
Proof.
  split.
  - pose proof PI_RGT_0. assert (D : dotq (tilted 0) (tilted (PI / 4)) = cos (PI / 4)) by (unfold dotq, tilted; cbn; rewrite cos_0, sin_0; ring).
    assert (T : theta (tilted 0) (tilted (PI / 4)) = PI / 2).
    { unfold theta. rewrite D. replace (2 * (cos (PI / 4) * cos (PI / 4)) - 1) with (cos (PI / 2)); [apply acos_cos; lra|].
      replace (PI / 2) with (2 * (PI / 4)) by field. rewrite cos_2a_cos. ring. }
    destruct (distance_cases (tilted 0) (tilted (PI / 4)) (tilted_unit _) (tilted_unit _)) as [[_ E]|(_ & _ & B)]; [rewrite E; exact T|].
    rewrite T in B. pose proof PI2_3_2. lra.
  - exists (fun _ => dpi). intros _ _ _. cbv beta. destruct MathDouble.dpi_val as [_ F]. split; [exact F|]. pose proof MathDouble.dpi_bounds as B. lra.
Qed.

(** C129: interpolation of unit quaternions, with the ratio clamped to [0, 1]. *)
Definition clamped (r : R) : R := Rmax 0 (Rmin 1 r).
Lemma interp_quat p q ratio : InterpolateQuaternion real_arith sin acos p q ratio = Ok (slerp real_arith sin acos p (clamped ratio) q).
Proof. unfold InterpolateQuaternion. rewrite clamp01_real. reflexivity. Qed.
Theorem C129_ends : forall p q ratio, unit p -> unit q ->
  (ratio <= 0 -> InterpolateQuaternion real_arith sin acos p q ratio = Ok p) /\
  (1 <= ratio -> InterpolateQuaternion real_arith sin acos p q ratio = Ok q \/ InterpolateQuaternion real_arith sin acos p q ratio = Ok (oppq q)).
Proof.
  intros p q ratio U V. rewrite interp_quat. unfold clamped. split; intros H.
  - rewrite Rmin_right, Rmax_left by lra. rewrite slerp_zero by assumption. reflexivity.
  - rewrite Rmin_left, Rmax_right by lra. rewrite slerp_one by assumption. destruct (Rlt_bool (dotq p q) 0); auto.
Qed.
(** The result is a unit quaternion on the shortest arc, at the given fraction of the
    angle, if the rotations are more than 1e-7 apart. *)
Theorem C129_on_the_arc : forall p q ratio t, unit p -> unit q -> quaternion_angle p q t -> / 10000000 < t ->
  exists r, InterpolateQuaternion real_arith sin acos p q ratio = Ok r /\ unit r /\
    quaternion_angle p r (clamped ratio * t) /\ quaternion_angle r q ((1 - clamped ratio) * t).
Proof.
  intros p q ratio t U V H L. apply quaternion_angle_iff in H; [|assumption..]. subst t. eexists. split; [apply interp_quat|].
  destruct (slerp_angles p q (clamped ratio) U V (clamp01_bounds ratio) L) as (W & A & B). split; [exact W|].
  split; apply quaternion_angle_iff; auto.
Qed.
(** Always: only the clamped ratio matters, and the norm is within 2.3e-16 of one. *)
Theorem C129_clamped : forall p q ratio, InterpolateQuaternion real_arith sin acos p q ratio = InterpolateQuaternion real_arith sin acos p q (clamped ratio).
Proof.
  intros p q ratio. rewrite !interp_quat. unfold clamped at 2. pose proof (clamp01_bounds ratio) as B. fold (clamped ratio) in B.
  rewrite (Rmin_right 1 (clamped ratio)), Rmax_right by lra. reflexivity.
Qed.
Theorem C129_norm_partial : forall p q ratio, unit p -> unit q ->
  exists r, InterpolateQuaternion real_arith sin acos p q ratio = Ok r /\ 1 - / 4503599627370496 <= dotq r r <= 1.
Proof.
  intros p q ratio U V. eexists. split; [apply interp_quat|]. destruct (distance_cases p q U V) as [[L _]|(L & _)].
  - destruct (slerp_far p q (clamped ratio) U V L) as [W _]. unfold unit in W. rewrite W. lra.
  - rewrite <- eps_real. apply near_norm; auto. apply clamp01_bounds.
Qed.
(** For rotations closer than that the result is not exactly of length one. *)
Theorem C129_unit_refuted : exists p q ratio r, unit p /\ unit q /\ InterpolateQuaternion real_arith sin acos p q ratio = Ok r /\ ~ unit r.
Proof.
  set (h := / 50000000). exists (tilted 0), (tilted h), (1 / 2). eexists. split; [apply tilted_unit|]. split; [apply tilted_unit|]. split; [apply interp_quat|].
  replace (clamped (1 / 2)) with (1 / 2) by (unfold clamped; rewrite Rmin_right, Rmax_right by lra; reflexivity).
  assert (D : dotq (tilted 0) (tilted h) = cos h) by (unfold dotq, tilted; cbn; rewrite cos_0, sin_0; ring).
  destruct (cos_small h) as [C1 C2]; [unfold h; lra|].
  assert (B : 1 - eps real_arith <= Rabs (dotq (tilted 0) (tilted h))) by (rewrite eps_real, D, Rabs_pos_eq; unfold h in *; lra).
  rewrite slerp_near by (auto using tilted_unit). rewrite Rlt_bool_false by (rewrite D; unfold h in *; lra).
  unfold unit. rewrite dotq_comb, !(dotq_comm _ (q_add _ _ _)), !dotq_comb, (dotq_comm (tilted h) (tilted 0)), D.
  pose proof (tilted_unit 0) as U. pose proof (tilted_unit h) as V. unfold unit in U, V. rewrite U, V. intros E.
  assert (cos h = 1) by lra. unfold h in *. lra.
Qed.
Print Assumptions C129_ends.
Print Assumptions C129_on_the_arc.
Print Assumptions C129_clamped.
Print Assumptions C129_norm_partial.
Print Assumptions C129_unit_refuted.
Example C129_nonvacuous : exists t, quaternion_angle (tilted 0) (tilted (PI / 4)) t /\ / 10000000 < t.
Proof.
  exists (theta (tilted 0) (tilted (PI / 4))). split; [apply quaternion_angle_iff; auto using tilted_unit|].
  destruct (C128_nonvacuous) as [E _]. pose proof PI2_3_2. pose proof (theta_range (tilted 0) (tilted (PI / 4))).
  destruct (distance_cases (tilted 0) (tilted (PI / 4)) (tilted_unit _) (tilted_unit _)) as [[_ F]|(_ & F & _)]; rewrite E in F; lra.
Qed.

(** C130: isometries with a proper rotation: the translation is interpolated on the line,
    the rotation on the shortest arc. *)
Lemma interp_iso t1 t2 ratio : InterpolateIsometry real_arith sin acos t1 t2 ratio =
  Ok (iso_of real_arith (v3_add real_arith (v3_scale real_arith (1 - clamped ratio) (iso_translation t1)) (v3_scale real_arith (clamped ratio) (iso_translation t2)))
     (slerp real_arith sin acos (q_of_matrix real_arith (iso_rotation t1)) (clamped ratio) (q_of_matrix real_arith (iso_rotation t2)))).
Proof.
  unfold InterpolateIsometry. rewrite clamp01_real. cbn [bind]. fold (clamped ratio). unfold Interpolate3d. rewrite clamp01_real. cbn [bind]. rewrite interp_quat. cbn [bind].
  pose proof (clamp01_bounds ratio) as B. fold (clamped ratio) in B. fold (clamped (clamped ratio)).
  replace (clamped (clamped ratio)) with (clamped ratio) by (unfold clamped at 2; rewrite (Rmin_right 1 (clamped ratio)), Rmax_right by lra; reflexivity). reflexivity.
Qed.
Lemma matrix_opp q : toRotationMatrix real_arith (oppq q) = toRotationMatrix real_arith q.
Proof. destruct q. unfold toRotationMatrix, oppq. cbn. repeat match goal with |- (_, _) = (_, _) => apply (f_equal2 pair) end; ring. Qed.
Theorem C130_ends : forall t1 t2 ratio, proper t1 -> proper t2 ->
  (ratio <= 0 -> InterpolateIsometry real_arith sin acos t1 t2 ratio = Ok t1) /\
  (1 <= ratio -> InterpolateIsometry real_arith sin acos t1 t2 ratio = Ok t2).
Proof.
  intros [m p] [n q] ratio H K. unfold proper in H, K. cbn [iso_rotation] in H, K. rewrite interp_iso. cbn [iso_rotation iso_translation]. destruct p as [[x y] z], q as [[x' y'] z'].
  unfold clamped, v3_add, v3_scale, iso_of. cbn [aadd amul real_arith]. split; intros L.
  - rewrite Rmin_right, Rmax_left by lra. rewrite slerp_zero by (apply q_of_matrix_unit; assumption). rewrite q_of_matrix_matrix by assumption. f_equal. f_equal. repeat match goal with |- (_, _) = (_, _) => apply (f_equal2 pair) end; ring.
  - rewrite Rmin_left, Rmax_right by lra. rewrite slerp_one by (apply q_of_matrix_unit; assumption).
    replace (toRotationMatrix real_arith _) with n by (destruct (Rlt_bool _ 0); [rewrite matrix_opp|]; rewrite q_of_matrix_matrix by assumption; reflexivity).
    f_equal. f_equal. repeat match goal with |- (_, _) = (_, _) => apply (f_equal2 pair) end; ring.
Qed.
Lemma angle_iso m n : is_rotation m -> is_rotation n -> angle_between m n = theta (q_of_matrix real_arith m) (q_of_matrix real_arith n).
Proof. intros H K. rewrite <- angle_theta by (apply q_of_matrix_unit; assumption). rewrite !q_of_matrix_matrix by assumption. reflexivity. Qed.
Theorem C130_translation : forall t1 t2 ratio, exists t, InterpolateIsometry real_arith sin acos t1 t2 ratio = Ok t /\
  iso_translation t = add3 (scale3 (1 - clamped ratio) (iso_translation t1)) (scale3 (clamped ratio) (iso_translation t2)).
Proof. intros. eexists. split; [apply interp_iso|]. destruct t1 as [m [[x y] z]], t2 as [n [[x' y'] z']]. cbn. repeat match goal with |- (_, _) = (_, _) => apply (f_equal2 pair) end; ring. Qed.
Theorem C130_rotation : forall t1 t2 ratio, proper t1 -> proper t2 -> let a := angle_between (iso_rotation t1) (iso_rotation t2) in / 10000000 < a ->
  exists t, InterpolateIsometry real_arith sin acos t1 t2 ratio = Ok t /\ proper t /\
    angle_between (iso_rotation t1) (iso_rotation t) = clamped ratio * a /\
    angle_between (iso_rotation t) (iso_rotation t2) = (1 - clamped ratio) * a.
Proof.
  intros t1 t2 ratio H K a L. eexists. split; [apply interp_iso|]. cbn [iso_rotation iso_of]. unfold a in *. unfold proper in H, K.
  rewrite (angle_iso _ _ H K) in *. pose proof (q_of_matrix_unit _ H) as U. pose proof (q_of_matrix_unit _ K) as V.
  destruct (slerp_angles _ _ (clamped ratio) U V (clamp01_bounds ratio) L) as (W & A & B).
  split; [apply toRot_rotation; exact W|]. rewrite <- A, <- B, <- !angle_theta by assumption. rewrite !q_of_matrix_matrix by assumption. split; reflexivity.
Qed.
Theorem C130_distance : forall t1 t2 alpha, proper t1 -> proper t2 ->
  let d := add3 (iso_translation t2) (scale3 (-1) (iso_translation t1)) in let a := angle_between (iso_rotation t1) (iso_rotation t2) in
  exists r, DistanceIsometry real_arith acos t1 t2 alpha = Ok r /\
    (r = (1 - clamped alpha) * sqrt (dot3 d d) + clamped alpha * a \/ (r = (1 - clamped alpha) * sqrt (dot3 d d) /\ a <= / 10000000)) /\
    DistanceIsometry real_arith acos t2 t1 alpha = Ok r.
Proof.
  intros t1 t2 alpha H K d a. unfold DistanceIsometry. rewrite clamp01_real. cbn [bind]. fold (clamped alpha). eexists. split; [reflexivity|].
  cbn [aadd amul asub a_of real_arith].
  assert (D : Distance3d real_arith (iso_translation t1) (iso_translation t2) = sqrt (dot3 d d)).
  { unfold d, Distance3d. destruct (iso_translation t1) as [[x y] z], (iso_translation t2) as [[x' y'] z']. cbn. f_equal. ring. }
  assert (D' : Distance3d real_arith (iso_translation t2) (iso_translation t1) = Distance3d real_arith (iso_translation t1) (iso_translation t2)).
  { unfold Distance3d. destruct (iso_translation t1) as [[x y] z], (iso_translation t2) as [[x' y'] z']. cbn. f_equal. ring. }
  split.
  - rewrite D. unfold a. rewrite (angle_iso _ _ H K). pose proof (q_of_matrix_unit _ H) as U. pose proof (q_of_matrix_unit _ K) as V.
    destruct (distance_cases _ _ U V) as [[_ E]|(_ & E & B)]; rewrite E; [left; ring|right; split; [ring|exact B]].
  - rewrite D'. destruct (C128_symmetric (q_of_matrix real_arith (iso_rotation t2)) (q_of_matrix real_arith (iso_rotation t1))) as [S _]. rewrite S. reflexivity.
Qed.
Print Assumptions C130_ends.
Print Assumptions C130_translation.
Print Assumptions C130_rotation.
Print Assumptions C130_distance.
Example C130_nonvacuous : proper (mkIso (rot_x 0) (0, 0, 0)) /\ proper (mkIso (rot_x PI) (1, 2, 3)) /\ / 10000000 < angle_between (rot_x 0) (rot_x PI).
Proof.
  unfold proper. cbn [iso_rotation]. rewrite <- !axis_x. repeat split; try apply toRot_rotation, ux.
  rewrite !axis_x. unfold angle_between, angle_of. replace ((trace3 (mul3 (transpose3 (rot_x 0)) (rot_x PI)) - 1) / 2) with (-1).
  - replace (-1) with (- (1)) by ring. rewrite acos_opp, acos_1. pose proof PI2_3_2. lra.
  - unfold rot_x, trace3, mul3, transpose3, dot3. rewrite cos_0, sin_0, cos_PI, sin_PI. field.
Qed.

(** C131: random quaternions.  Whatever the generator draws in [0, 1), the quaternion is a
    unit quaternion; w^2 + z^2 is the first draw. *)
Theorem C131_unit : forall (G : Type) (draw : G -> R * G) g, (forall g, 0 <= fst (draw g) < 1) ->
  let q := fst (GenerateUniformRandomQuaternion real_arith sin cos draw g) in
  unit q /\ qw q * qw q + qz q * qz q = fst (draw g) /\ (qx q <> 0 \/ qy q <> 0) /\
  fst (GetRawQuaternion real_arith sin cos draw g) = [qx q; qy q; qz q; qw q].
Proof.
  intros G draw g H q. assert (R : fst (GetRawQuaternion real_arith sin cos draw g) = [qx q; qy q; qz q; qw q]) by (unfold GetRawQuaternion, q; destruct (GenerateUniformRandomQuaternion real_arith sin cos draw g); reflexivity).
  rewrite R. clear R. unfold q, GenerateUniformRandomQuaternion. pose proof (H g) as B. destruct (draw g) as [x0 g1]. cbn [fst] in *. destruct (draw g1) as [u1 g2]. destruct (draw g2) as [u2 g3]. cbn [fst].
  destruct (random_quat_facts x0 u1 u2 ltac:(lra)) as (U & W & X). repeat split; auto.
  destruct (Req_dec (qx (random_quaternion real_arith sin cos x0 u1 u2)) 0) as [Z|Z]; [|auto]. right. intros Z'. rewrite Z, Z' in X. lra.
Qed.
(** Every unit quaternion with (x, y) not both 0 is drawn for some values, so every
    rotation except those about the z axis is. *)
Theorem C131_reaches : forall q, unit q -> (qx q <> 0 \/ qy q <> 0) ->
  exists (G : Type) (draw : G -> R * G) g, (forall g, 0 <= fst (draw g) < 1) /\ fst (GenerateUniformRandomQuaternion real_arith sin cos draw g) = q.
Proof.
  intros q U N. destruct (random_quat_reaches q U N) as (x0 & u1 & u2 & B0 & B1 & B2 & E).
  exists nat, (fun n => (match n with 0%nat => x0 | 1%nat => u1 | _ => u2 end, S n)), 0%nat. split; [intros [|[|n]]; cbn [fst]; assumption|exact E].
Qed.
Print Assumptions C131_unit.
Print Assumptions C131_reaches.
Example C131_nonvacuous : unit (mkQuat 0 (3 / 5) (4 / 5) 0) /\ 3 / 5 <> 0 /\ forall g : nat, 0 <= fst ((fun n : nat => (1 / 2, n)) g) < 1.
Proof. unfold unit, dotq. cbn. repeat split; lra. Qed.

(** C132: random Euler angles are in range, every triple in range and so every rotation is
    drawn for some values, and the pitch before the half turn has the distribution of a
    uniform rotation: it is at most x + PI/2 exactly when the draw is at most
    (1 - cos x) / 2. *)
Theorem C132_ranges : forall (G : Type) (draw : G -> R * G) g, (forall g, 0 <= fst (draw g) < 1) ->
  let '(r, p, y) := fst (GenerateUniformRandomEulerAngles real_arith acos draw g) in
  - PI <= r < PI /\ 0 <= p < 2 * PI /\ - PI <= y < PI /\ fst (GetRawEulerAngles real_arith acos draw g) = [r; p; y].
Proof.
  intros G draw g H. unfold GetRawEulerAngles, GenerateUniformRandomEulerAngles.
  pose proof (H g) as B1. destruct (draw g) as [u1 g1]. pose proof (H g1) as B2. destruct (draw g1) as [u2 g2]. pose proof (H g2) as B3. destruct (draw g2) as [u3 g3].
  pose proof (H g3) as B4. destruct (draw g3) as [u4 g4]. cbn [fst] in *. pose proof (random_euler_ranges u1 u2 u3 u4 B1 B2 B4) as E.
  destruct (random_euler real_arith acos u1 u2 u3 u4) as [[r p] y]. cbn [fst]. destruct E as (E1 & E2 & E3). repeat split; try reflexivity; lra.
Qed.
Theorem C132_reaches_angles : forall r p y, - PI <= r < PI -> 0 <= p < 2 * PI -> - PI <= y < PI ->
  exists (G : Type) (draw : G -> R * G) g, (forall g, 0 <= fst (draw g) < 1) /\ fst (GenerateUniformRandomEulerAngles real_arith acos draw g) = (r, p, y).
Proof.
  intros r p y Hr Hp Hy. destruct (random_euler_reaches r p y Hr Hp Hy) as (u1 & u2 & u3 & u4 & B1 & B2 & B3 & B4 & E).
  exists nat, (fun n => (match n with 0%nat => u1 | 1%nat => u2 | 2%nat => u3 | _ => u4 end, S n)), 0%nat. split; [intros [|[|[|n]]]; cbn [fst]; assumption|exact E].
Qed.
Lemma wrap_turn a lo : lo <= a <= lo + 2 * PI -> exists b, lo <= b < lo + 2 * PI /\ cos b = cos a /\ sin b = sin a.
Proof.
  intros [L [H|H]]; [exists a; repeat split; lra|]. exists lo. pose proof PI_RGT_0. subst a.
  replace (lo + 2 * PI) with (lo + 2 * INR 1 * PI) by (cbn; ring). rewrite cos_period, sin_period. cbn. repeat split; lra.
Qed.
Theorem C132_reaches_rotations : forall m, is_rotation m -> exists (G : Type) (draw : G -> R * G) g, (forall g, 0 <= fst (draw g) < 1) /\
  let '(r, p, y) := fst (GenerateUniformRandomEulerAngles real_arith acos draw g) in
  rotates (QuaternionFromRPY real_arith sin cos r p y) m.
Proof.
  intros m H. pose proof (C126_matrix m H) as E. destruct (EulerAnglesFromRotationMatrix real_arith sin cos Ratan2 m) as [[r p] y]. destruct E as (E & Br & Bp & By). pose proof PI_RGT_0.
  destruct (wrap_turn r (- PI)) as (r' & Br' & Cr & Sr); [lra|]. destruct (wrap_turn y (- PI)) as (y' & By' & Cy & Sy); [lra|].
  assert (P : exists p', 0 <= p' < 2 * PI /\ cos p' = cos p /\ sin p' = sin p).
  { destruct (Rlt_le_dec p 0) as [N|N]; [|exists p; repeat split; lra]. exists (p + 2 * PI).
    replace (p + 2 * PI) with (p + 2 * INR 1 * PI) at 3 4 by (cbn; ring). rewrite cos_period, sin_period. repeat split; lra. }
  destruct P as (p' & Bp' & Cp & Sp).
  destruct (C132_reaches_angles r' p' y') as (G & draw & g & D & F); [lra|lra|lra|]. exists G, draw, g. split; [exact D|]. rewrite F.
  destruct (C125_rpy r' p' y') as [_ R]. replace m with (mul3 (mul3 (rot_x r') (rot_y p')) (rot_z y')); [exact R|].
  rewrite <- E. unfold rot_x, rot_y, rot_z. rewrite Cr, Sr, Cp, Sp, Cy, Sy. reflexivity.
Qed.
Theorem C132_pitch_distribution : forall u1 u2 u3 u4 x, 0 <= u2 <= 1 -> 1 / 2 <= u3 -> 0 <= x <= PI ->
  let '(_, p, _) := random_euler real_arith acos u1 u2 u3 u4 in (p <= x + PI / 2 <-> u2 <= (1 - cos x) / 2).
Proof.
  intros u1 u2 u3 u4 x B C X. unfold random_euler. cbn [altb a_of adiv aadd asub amul a_pi real_arith]. rewrite Rlt_bool_false by exact C.
  rewrite <- (pitch_cdf u2 x B X). split; lra.
Qed.
Print Assumptions C132_ranges.
Print Assumptions C132_reaches_angles.
Print Assumptions C132_reaches_rotations.
Print Assumptions C132_pitch_distribution.
Example C132_nonvacuous : is_rotation (rot_z 1) /\ - PI <= 1 < PI /\ forall g : nat, 0 <= fst ((fun n : nat => (1 / 2, n)) g) < 1.
Proof. split; [rewrite <- axis_z; apply toRot_rotation, uz|]. pose proof PI2_3_2. cbn. repeat split; lra. Qed.

(** C133: the average of two or more quaternions, if the eigenvalue solver returns
    eigenvalues with a basis of eigenvectors for the matrix it is given: a unit quaternion
    that agrees best with all of them. *)
Theorem C133_best : forall solver quaternions weights, (2 <= length quaternions)%nat -> weights = [] \/ length weights = length quaternions ->
  eigen_basis (moment (effective quaternions weights)) (solver (moment (effective quaternions weights))) ->
  exists p, AverageEigenQuaterniond real_arith solver quaternions weights = Ok p /\ unit p /\
    forall q, unit q -> alignment (effective quaternions weights) q <= alignment (effective quaternions weights) p.
Proof. intros solver qs ws L H B. destruct (average_best solver qs ws L H B) as (p & l & E & U & _ & M). exists p. auto. Qed.
(** Whatever the solver does: the order of the quaternions and the signs of quaternions and
    weights do not matter. *)
Theorem C133_order : forall solver quaternions weights quaternions' weights', (2 <= length quaternions)%nat ->
  length weights = length quaternions -> length weights' = length quaternions' ->
  Permutation (combine quaternions weights) (combine quaternions' weights') ->
  AverageEigenQuaterniond real_arith solver quaternions weights = AverageEigenQuaterniond real_arith solver quaternions' weights'.
Proof.
  intros solver qs ws qs' ws' L H H' P. pose proof (Permutation_length P) as PL. rewrite !combine_length, H, H', !Nat.min_id in PL.
  apply average_same; auto; [lia|]. destruct ws as [|w ws]; [cbn in H; lia|]. destruct ws' as [|w' ws']; [cbn in H'; lia|]. apply moment_perm, P.
Qed.
Theorem C133_signs : forall solver quaternions weights quaternions' weights', (2 <= length quaternions)%nat ->
  length weights = length quaternions -> length weights' = length quaternions' ->
  Forall2 (fun a b => a = b \/ a = oppq b) quaternions quaternions' -> Forall2 (fun v w => Rabs v = Rabs w) weights weights' ->
  AverageEigenQuaterniond real_arith solver quaternions weights = AverageEigenQuaterniond real_arith solver quaternions' weights'.
Proof.
  intros solver qs ws qs' ws' L H H' FQ FW. assert (PL : length qs = length qs') by (clear -FQ; induction FQ; cbn; congruence). apply average_same; auto; [lia|].
  destruct ws as [|w ws]; [cbn in H; lia|]. destruct ws' as [|w' ws']; [cbn in H'; lia|]. unfold effective. rewrite <- (moment_abs qs), <- (moment_abs qs').
  apply moment_opp. revert FQ FW. generalize (w :: ws) (w' :: ws'). clear. intros ws ws' FQ. revert ws ws'.
  induction FQ as [|a b l l' S F IH]; intros ws ws' FW; [constructor|]. destruct FW as [|v v' ws ws' E FW]; [constructor|]. cbn [map combine]. constructor; [auto|]. apply IH, FW.
Qed.
(** The average of equal quaternions is that quaternion or its opposite. *)
Theorem C133_equal : forall solver q quaternions weights, unit q -> (2 <= length quaternions)%nat -> (forall p, In p quaternions -> p = q) ->
  weights = [] \/ (length weights = length quaternions /\ exists w, In w weights /\ w <> 0) ->
  eigen_basis (moment (effective quaternions weights)) (solver (moment (effective quaternions weights))) ->
  AverageEigenQuaterniond real_arith solver quaternions weights = Ok q \/ AverageEigenQuaterniond real_arith solver quaternions weights = Ok (oppq q).
Proof.
  intros solver q qs ws Uq L S W B.
  destruct (average_best solver qs ws L ltac:(tauto) B) as (p & l & E & U & _ & M). rewrite E. clear E B l.
  specialize (M q Uq).
  assert (F : forall x, In x (effective qs ws) -> fst x = q) by (intros [a b] I; apply in_combine_l in I; apply S, I).
  rewrite !(score_same _ q) in M by exact F. unfold unit in Uq. rewrite Uq in M.
  assert (P : 0 < fold_right (fun x s => snd x * snd x + s) 0 (effective qs ws)).
  { apply sum_sq_pos. unfold effective. destruct W as [->|[LW (w & I & N)]].
    - destruct qs as [|a qs]; [cbn in L; lia|]. exists (a, 1). split; [left; reflexivity|cbn; lra].
    - destruct ws as [|w0 ws]; [destruct I|]. destruct (In_nth _ _ 0 I) as (k & Hk & Ek). exists (nth k qs q, nth k (w0 :: ws) 0).
      split; [|cbn [snd]; rewrite Ek; exact N]. rewrite <- combine_nth by (symmetry; exact LW). apply nth_In. rewrite combine_length, LW, Nat.min_id. lia. }
  destruct (dotq_extreme q p) as [->| ->]; auto. apply (Rmult_le_reg_l _ _ _ P). lra.
Qed.
Theorem C133_single : forall solver q w, AverageEigenQuaterniond real_arith solver [q] [] = Ok q /\ (w <> 0 -> AverageEigenQuaterniond real_arith solver [q] [w] = Ok q).
Proof.
  intros solver q w. split; [reflexivity|]. intros N. unfold AverageEigenQuaterniond. cbn [length Nat.eqb negb andb].
  change (aeqb real_arith (aabs real_arith w) (a_of real_arith 0)) with (Req_bool (Rabs w) 0). rewrite Req_bool_false by (apply Rabs_no_R0, N). reflexivity.
Qed.
Theorem C133_rejects : forall solver quaternions weights,
  quaternions = [] \/ (weights <> [] /\ length weights <> length quaternions) \/ (length quaternions = 1%nat /\ weights = [0]) ->
  AverageEigenQuaterniond real_arith solver quaternions weights = Throw InvalidArgument.
Proof.
  intros solver qs ws [->|[[N L]|[L ->]]]; [reflexivity| |].
  - destruct qs as [|q qs]; [reflexivity|]. unfold AverageEigenQuaterniond. destruct ws as [|w ws]; [contradiction|]. apply Nat.eqb_neq in L. rewrite L. reflexivity.
  - destruct qs as [|q [|q' qs]]; try discriminate L. unfold AverageEigenQuaterniond. cbn [length Nat.eqb negb andb].
    change (aeqb real_arith (aabs real_arith 0) (a_of real_arith 0)) with (Req_bool (Rabs 0) 0). rewrite Rabs_R0, Req_bool_true; reflexivity.
Qed.
Print Assumptions C133_best.
Print Assumptions C133_order.
Print Assumptions C133_signs.
Print Assumptions C133_equal.
Print Assumptions C133_single.
Print Assumptions C133_rejects.
Example C133_nonvacuous : exists solver, unit wa /\ unit wb /\ eigen_basis (moment (effective [wa; wb] [2; 1])) (solver (moment (effective [wa; wb] [2; 1]))).
Proof. exists (fun _ => block_pairs (4 + 9 / 25) (12 / 25) (16 / 25)). split; [apply wa_unit|]. split; [apply wb_unit|]. rewrite moment_ab. apply block_basis. Qed.

(** C134: weights act as multiplicities: a weight of 2 has the effect of giving the
    quaternion twice, and weights that are all zero are rejected, as they are by the other
    averages (C69, C108).  Both fail: the weights enter squared, and two or more quaternions
    with zero weights have an average, the solver's choice. *)
Theorem C134_multiplicity_refuted : exists q1 q2, unit q1 /\ unit q2 /\
  forall solver p p',
  eigen_basis (moment (effective [q1; q2] [2; 1])) (solver (moment (effective [q1; q2] [2; 1]))) ->
  eigen_basis (moment (effective [q1; q1; q2] [])) (solver (moment (effective [q1; q1; q2] []))) ->
  AverageEigenQuaterniond real_arith solver [q1; q2] [2; 1] = Ok p ->
  AverageEigenQuaterniond real_arith solver [q1; q1; q2] [] = Ok p' -> p <> p' /\ p <> oppq p'.
Proof. exists wa, wb. split; [apply wa_unit|]. split; [apply wb_unit|]. apply weights_squared. Qed.
Theorem C134_zero_weights_refuted : forall solver q1 q2, eigen_basis zero44 (solver zero44) ->
  exists p, AverageEigenQuaterniond real_arith solver [q1; q2] [0; 0] = Ok p /\ unit p.
Proof.
  intros solver q1 q2 B. assert (Z : moment (effective [q1; q2] [0; 0]) = zero44).
  { cbn [effective combine moment]. unfold outer4, add44, add4, scale4, zero44. repeat match goal with |- (_, _) = (_, _) => apply (f_equal2 pair) end; ring. }
  rewrite <- Z in B. destruct (C133_best solver [q1; q2] [0; 0] ltac:(cbn; lia) ltac:(right; reflexivity) B) as (p & E & U & _). exists p. auto.
Qed.
(** What does hold: a weight w has the effect of w^2 copies, so squared weights that are
    whole numbers act as multiplicities; a zero weight is the same as leaving the
    quaternion out. *)
Lemma moment_app l l' : moment (l ++ l') = add44 (moment l) (moment l').
Proof. apply r44_ext. intros x y. rewrite form_add44, !form_spec. induction l as [|a l IH]; cbn [app fold_right]; [ring|rewrite IH; ring]. Qed.
Theorem C134_squares_partial : forall solver q n rest ws, (1 <= length rest)%nat -> (1 <= n)%nat -> length ws = length rest ->
  AverageEigenQuaterniond real_arith solver (q :: rest) (INR n :: ws) = AverageEigenQuaterniond real_arith solver (repeat q (n * n) ++ rest) (repeat 1 (n * n) ++ ws).
Proof.
  intros solver q n rest ws L N H. assert (NN : (1 <= n * n)%nat) by nia.
  apply average_same; [cbn; lia|right; cbn; lia|rewrite app_length, repeat_length; lia|right; rewrite !app_length, !repeat_length; lia|].
  unfold effective. destruct (repeat 1 (n * n) ++ ws) as [|w l] eqn:E; [destruct (n * n)%nat; [lia|discriminate]|]. rewrite <- E. clear E w l.
  replace (combine (repeat q (n * n) ++ rest) (repeat 1 (n * n) ++ ws)) with (combine (repeat q (n * n)) (repeat 1 (n * n)) ++ combine rest ws).
  2: { clear. induction (n * n)%nat as [|k IH]; [reflexivity|]. cbn [repeat combine app]. rewrite IH. reflexivity. }
  cbn [combine moment]. rewrite moment_app. f_equal. apply r44_ext. intros x y. rewrite form_spec, form_outer4, !dot4_scale.
  change (qw q, qx q, qy q, qz q) with (vec_of q).
  assert (F : forall k, fold_right (fun qw s => snd qw * snd qw * (dot4 (vec_of (fst qw)) x * dot4 (vec_of (fst qw)) y) + s) 0 (combine (repeat q k) (repeat 1 k)) = INR k * (dot4 (vec_of q) x * dot4 (vec_of q) y)).
  { induction k as [|k IH]; [cbn; ring|]. rewrite S_INR. cbn [repeat combine fold_right fst snd]. rewrite IH. ring. }
  rewrite F, mult_INR. ring.
Qed.
Theorem C134_zero_weight_partial : forall solver q rest ws, (2 <= length rest)%nat -> length ws = length rest ->
  AverageEigenQuaterniond real_arith solver (q :: rest) (0 :: ws) = AverageEigenQuaterniond real_arith solver rest ws.
Proof.
  intros solver q rest ws L H. apply average_same; [cbn; lia|right; cbn; lia|exact L|auto|]. unfold effective. destruct ws as [|w ws]; [cbn in H; lia|].
  apply r44_ext. intros x y. rewrite !form_spec. cbn [combine fold_right fst snd]. ring.
Qed.
Print Assumptions C134_multiplicity_refuted.
Print Assumptions C134_zero_weights_refuted.
Print Assumptions C134_squares_partial.
Print Assumptions C134_zero_weight_partial.
Example C134_nonvacuous : exists solver p p',
  eigen_basis (moment (effective [wa; wb] [2; 1])) (solver (moment (effective [wa; wb] [2; 1]))) /\
  eigen_basis (moment (effective [wa; wa; wb] [])) (solver (moment (effective [wa; wa; wb] []))) /\
  AverageEigenQuaterniond real_arith solver [wa; wb] [2; 1] = Ok p /\ AverageEigenQuaterniond real_arith solver [wa; wa; wb] [] = Ok p' /\
  eigen_basis zero44 (block_pairs 0 0 0).
Proof.
  set (solver := fun m : r44 => let '((a, _, _, _), _, _, _) := m in block_pairs a (12 / 25) (16 / 25)). exists solver.
  assert (B1 : eigen_basis (moment (effective [wa; wb] [2; 1])) (solver (moment (effective [wa; wb] [2; 1])))) by (rewrite moment_ab; apply block_basis).
  assert (B2 : eigen_basis (moment (effective [wa; wa; wb] [])) (solver (moment (effective [wa; wa; wb] [])))) by (rewrite moment_aab; apply block_basis).
  destruct (C133_best solver [wa; wb] [2; 1] ltac:(cbn; lia) ltac:(right; reflexivity) B1) as (p & E & _).
  destruct (C133_best solver [wa; wa; wb] [] ltac:(cbn; lia) ltac:(left; reflexivity) B2) as (p' & E' & _).
  exists p, p'. repeat (split; [assumption|]). apply (block_basis 0 0 0).
Qed.

(** C135: the average of isometries: each coordinate of the translation is the weighted
    mean, the rotation is that of the quaternion that agrees best with the rotations. *)
Theorem C135_average : forall solver transforms weights, (2 <= length transforms)%nat -> Forall proper transforms ->
  weights = [] \/ length weights = length transforms -> (weights <> [] -> exists w, In w weights /\ w <> 0) ->
  let quaternions := map (fun t => q_of_matrix real_arith (iso_rotation t)) transforms in
  eigen_basis (moment (effective quaternions weights)) (solver (moment (effective quaternions weights))) ->
  exists t p, AverageEigenIsometry3d real_arith solver transforms weights = Ok t /\ proper t /\
    rotates p (iso_rotation t) /\ unit p /\ (forall q, unit q -> alignment (effective quaternions weights) q <= alignment (effective quaternions weights) p) /\
    Forall2 (fun q t => unit q /\ rotates q (iso_rotation t)) quaternions transforms /\
    forall k, (k < 3)%nat -> let col := map (fun t => nth k (let '(x, y, z) := iso_translation t in [x; y; z]) 0) transforms in
      nth k (let '(x, y, z) := iso_translation t in [x; y; z]) 0 = weighted_sum col (weights_or_ones col weights) / total_weight (weights_or_ones col weights).
Proof.
  intros solver ts ws L P H Z qs B.
  destruct (C133_best solver qs ws ltac:(unfold qs; rewrite map_length; exact L) ltac:(unfold qs; rewrite map_length; exact H) B) as (p & E & U & M).
  set (vs := map (fun t => v3_list (iso_translation t)) ts).
  destruct (C108_mean vs ws 3) as (r & Er & Lr & Cr); [destruct ts; [cbn in L; lia|discriminate]|unfold vs; apply Forall_forall; intros v I; apply in_map_iff in I as (t & <- & _); destruct (iso_translation t) as [[? ?] ?]; reflexivity| |exact Z|].
  { unfold vs. rewrite map_length. exact H. }
  destruct r as [|rx [|ry [|rz [|? ?]]]]; try discriminate Lr.
  assert (EQ : AverageEigenIsometry3d real_arith solver ts ws = Ok (iso_of real_arith (rx, ry, rz) p)).
  { unfold AverageEigenIsometry3d. destruct ts as [|t ts]; [cbn in L; lia|]. set (T := t :: ts) in *.
    assert (G : (negb (length ws =? length T)%nat && negb (length ws =? 0)%nat)%bool = false)
      by (destruct H as [-> |H]; [cbn [length]; rewrite Nat.eqb_refl; apply Bool.andb_false_r|rewrite H, Nat.eqb_refl; reflexivity]). rewrite G.
    replace (length T =? 1)%nat with false by (symmetry; apply Nat.eqb_neq; lia). fold vs. rewrite Er. cbn [bind list_v3]. fold qs. rewrite E. reflexivity. }
  exists (iso_of real_arith (rx, ry, rz) p), p. split; [exact EQ|]. unfold proper. cbn [iso_rotation iso_of iso_translation]. split; [apply toRot_rotation, U|]. split; [apply toRot_rotates, U|].
  split; [exact U|]. split; [exact M|]. split.
  - unfold qs. clear -P. induction P as [|t ts Pt F IH]; cbn [map]; constructor; [|exact IH]. pose proof (q_of_matrix_unit _ Pt) as V. split; [exact V|].
    pose proof (toRot_rotates _ V) as R. rewrite q_of_matrix_matrix in R by exact Pt. exact R.
  - intros k Hk. cbv zeta. specialize (Cr k Hk). cbv zeta in Cr. rewrite Cr. unfold vs. rewrite map_map. reflexivity.
Qed.
Theorem C135_rejects : forall solver transforms weights,
  transforms = [] \/ (weights <> [] /\ length weights <> length transforms) \/ (weights <> [] /\ length weights = length transforms /\ Forall (fun w => w = 0) weights) ->
  AverageEigenIsometry3d real_arith solver transforms weights = Throw InvalidArgument.
Proof.
  intros solver ts ws H. destruct ts as [|t ts]; [reflexivity|]. destruct H as [H|H]; [discriminate|]. unfold AverageEigenIsometry3d. destruct ws as [|w ws]; [destruct H as [[H _]|[H _]]; contradiction|].
  destruct (Nat.eqb_spec (length (w :: ws)) (length (t :: ts))) as [EL|NL]; [|reflexivity]. destruct H as [[_ H]|(_ & _ & F)]; [congruence|]. cbn [negb andb].
  destruct (Nat.eqb_spec (length (t :: ts)) 1) as [E1|N1].
  - assert (W : w = 0) by (inversion F; assumption). change (aeqb real_arith (aabs real_arith w) (a_of real_arith 0)) with (Req_bool (Rabs w) 0). rewrite W, Rabs_R0, Req_bool_true; reflexivity.
  - rewrite (C108_rejects _ _ 3); [reflexivity| |right; right; rewrite map_length; split; [discriminate|]; split; assumption].
    apply Forall_forall. intros v I. apply in_map_iff in I as (t' & <- & _). destruct (iso_translation t') as [[? ?] ?]. reflexivity.
Qed.
Theorem C135_single : forall solver t w, AverageEigenIsometry3d real_arith solver [t] [] = Ok t /\ (w <> 0 -> AverageEigenIsometry3d real_arith solver [t] [w] = Ok t).
Proof.
  intros solver q w. split; [reflexivity|]. intros N. unfold AverageEigenIsometry3d. cbn [length Nat.eqb negb andb].
  change (aeqb real_arith (aabs real_arith w) (a_of real_arith 0)) with (Req_bool (Rabs w) 0). rewrite Req_bool_false by (apply Rabs_no_R0, N). reflexivity.
Qed.
Print Assumptions C135_average.
Print Assumptions C135_rejects.
Print Assumptions C135_single.
Example C135_nonvacuous : exists solver, let t1 := mkIso (rot_x 0) (0, 0, 0) in let t2 := mkIso (rot_x 0) (1, 2, 3) in
  Forall proper [t1; t2] /\ let quaternions := map (fun t => q_of_matrix real_arith (iso_rotation t)) [t1; t2] in
  eigen_basis (moment (effective quaternions [])) (solver (moment (effective quaternions []))).
Proof.
  assert (I : is_rotation (rot_x 0)) by (rewrite <- axis_x; apply toRot_rotation, ux).
  assert (Q : q_of_matrix real_arith (rot_x 0) = mkQuat 1 0 0 0).
  { unfold q_of_matrix, rot_x. cbn [altb a_of aadd asub amul adiv asqrt real_arith]. rewrite cos_0, sin_0, Ropp_0. rewrite Rlt_bool_true by lra.
    replace (1 + 1 + 1 + 1) with (2 * 2) by ring. rewrite sqrt_square by lra. f_equal; field. }
  exists (fun _ => block_pairs 2 0 0). cbv zeta. split; [apply Forall_cons; [exact I|apply Forall_cons; [exact I|apply Forall_nil]]|]. cbn [map iso_rotation]. rewrite Q.
  replace (moment (effective [mkQuat 1 0 0 0; mkQuat 1 0 0 0] [])) with (block 2 0 0); [apply block_basis|].
  cbn [effective length repeat combine moment]. unfold outer4, add44, add4, scale4, zero44, block. cbn [qw qx qy qz]. repeat match goal with |- (_, _) = (_, _) => apply (f_equal2 pair) end; ring.
Qed.
