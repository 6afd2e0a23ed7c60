(** C99-C108: vectors, planes, twists and rigid motions of math.hpp.  [real_arith] is
    exact arithmetic, [double_arith] IEEE binary64.  [dot], [norm], [vadd], [vsub] and
    [vscale] (MathVec.v) are the usual operations on vectors; matrices, rotations and
    rigid motions are defined in MathLinSpec.v. *)
From Coq Require Import Reals Lra Psatz.
From Flocq Require Import Core BinarySingleNaN.
From Verif Require Import Base UtilityModel Double DoubleFacts MathModel MathReal MathSpec MathProof MathVec MathLinModel MathLinSpec
  MathLinProof MathLinProof2 MathLinProof3 MathLinProof4 MathLinProof5 MathLinProof6.
Local Open Scope R_scope.

(** C99: the projection is a multiple of the base vector, the rejection is orthogonal
    to it, they add up to the vector, no multiple of the base is closer to the
    vector, and squared norms add. *)
Theorem C99_projection : forall b v : list R, length b = length v ->
  exists p r, VectorProjection real_arith b v = Ok p /\ VectorRejection real_arith b v = Ok r /\
  (exists c, p = vscale c b) /\ dot b r = 0 /\ vadd p r = v /\ dot v v = dot p p + dot r r /\
  (forall c, norm (vsub v p) <= norm (vsub v (vscale c b))) /\
  (Forall (fun x => x = 0) b -> Forall (fun x => x = 0) p).
Proof.
  intros b v E. exists (vscale (coef b v) b), (vsub v (vscale (coef b v) b)).
  split; [apply projection_real, E|]. split; [apply rejection_real, E|]. split; [exists (coef b v); reflexivity|].
  split; [apply reject_orthogonal, E|]. split; [apply sub_add; rewrite vscale_length; auto|]. split; [rewrite reject_norm, coef_norm by exact E; ring|].
  split; [intros c; apply norm_mono, proj_closest, E|]. intros Z. apply Forall_forall. intros x Hx. apply in_map_iff in Hx as (y & <- & Hy). rewrite Forall_forall in Z. rewrite (Z y Hy). ring.
Qed.
Print Assumptions C99_projection.
Example C99_nonvacuous : VectorProjection real_arith [2; 0] [3; 4] = Ok [3; 0] /\ VectorRejection real_arith [2; 0] [3; 4] = Ok [0; 4].
Proof.
  rewrite projection_real, rejection_real by reflexivity. unfold coef. cbn [dot]. destruct (Rlt_dec 0 (2 * 2 + (0 * 0 + 0))) as [H|H]; [|lra].
  cbn [vscale map vsub zip_with]. split; repeat f_equal; field.
Qed.

(** C100: in exact arithmetic a vector of two or more dimensions gets a non-zero
    orthogonal vector. *)
Theorem C100_orthogonal_partial : forall b : list R, (2 <= length b)%nat ->
  exists r, GetArbitraryOrthogonalVector real_arith b = Ok r /\ length r = length b /\ dot b r = 0 /\ ~ Forall (fun x => x = 0) r.
Proof.
  intros b H. destruct (orthogonal_found b H) as (r & E & L & D & P). exists r. split; [exact E|]. split; [exact L|]. split; [exact D|].
  intros Z. apply dot_zero in Z. lra.
Qed.
(** C100: vectors without an orthogonal direction are reported, not answered. *)
Theorem C100_impossible_partial : forall x : R, x <> 0 ->
  GetArbitraryOrthogonalVector real_arith [x] = Throw RuntimeError /\ GetArbitraryOrthogonalVector real_arith [] = Throw InvalidArgument.
Proof. intros x H. split; [apply orthogonal_one, H|reflexivity]. Qed.
(** C100 is false for doubles: the answer for (49, 0, 0) is (2^-53, 0, 0), which is
    parallel to it. *)
Theorem C100_double_refuted : exists v r : list double,
  Forall (fun x => is_finite x = true) v /\ GetArbitraryOrthogonalVector double_arith v = Ok r /\
  exists c, c <> 0 /\ map (@B2R 53 1024) r = vscale c (map (@B2R 53 1024) v) /\ norm (map (@B2R 53 1024) v) = 49.
Proof.
  exists v49, [rest49; d0; d0]. split; [repeat constructor; vm_compute; reflexivity|]. split; [exact orthogonal_49|].
  destruct values_49 as (V1 & V2 & V3). exists (bpow radix2 (-53) / 49). split.
  { pose proof (bpow_gt_0 radix2 (-53)). intros Z. assert (bpow radix2 (-53) = 0) by lra. lra. }
  unfold v49. cbn [map vscale]. rewrite V1, V2, V3. split; [repeat f_equal; field|].
  unfold norm. cbn [dot]. replace (49 * 49 + (0 * 0 + (0 * 0 + 0))) with (Rsqr 49) by (unfold Rsqr; ring). apply sqrt_Rsqr. lra.
Qed.
Print Assumptions C100_orthogonal_partial.
Print Assumptions C100_impossible_partial.
Print Assumptions C100_double_refuted.
Example C100_nonvacuous : (2 <= length [1; 0; 0])%nat. Proof. cbn. lia. Qed.

(** C101: a plane needs an origin and a normal of one size. *)
Theorem C101_constructor : forall {A} (o n : list A),
  (length o = length n -> exists p, MakeHyperplane o n = Ok p /\ plane_origin p = o /\ plane_normal p = n) /\
  (length o <> length n -> MakeHyperplane o n = Throw InvalidArgument).
Proof.
  intros A o n. unfold MakeHyperplane. split; intros E.
  - rewrite E, Nat.eqb_refl. eexists. split; [reflexivity|]. split; reflexivity.
  - apply Nat.eqb_neq in E. rewrite E. reflexivity.
Qed.
(** C101: a point projects to the nearest point of the plane, at the distance that is
    reported. *)
Theorem C101_nearest_point : forall (o n x : list R) p, MakeHyperplane o n = Ok p -> length x = length n ->
  exists q d, ProjectPointOntoPlane real_arith p x = Ok q /\ GetDistanceToPlane real_arith p x = Ok d /\
  GetSquaredDistanceToPlane real_arith p x = Ok (d * d) /\ GetRawDotProduct real_arith p x = Ok (dot (vsub x o) n) /\
  length q = length n /\ dot (vsub q o) n = 0 /\ d = norm (vsub x q) /\
  (forall y, length y = length n -> dot (vsub y o) n = 0 -> d <= norm (vsub x y)).
Proof.
  intros o n x p H Lx. unfold MakeHyperplane in H. destruct (length o =? length n)%nat eqn:E; [|discriminate]. injection H as <-. apply Nat.eqb_eq in E.
  exists (foot o n x), (norm (vsub x (foot o n x))). destruct (plane_dist o n x E Lx) as [D1 D2]. rewrite (foot_dist o n x E Lx).
  split; [apply project_point; assumption|]. split; [exact D1|]. split; [rewrite D2; apply (f_equal Ok); symmetry; apply norm_sq|].
  split; [apply raw_dot; assumption|]. split; [apply foot_length; assumption|]. split; [apply foot_on; assumption|]. split; [reflexivity|].
  intros y Ly Hy. rewrite <- (foot_dist o n x E Lx). apply foot_nearest; assumption.
Qed.
(** C101: vectors are split into a part in the plane and a part along the normal. *)
Theorem C101_vectors : forall (o n v : list R) p, MakeHyperplane o n = Ok p -> length v = length n ->
  exists a b, ProjectVectorOntoPlane real_arith p v = Ok a /\ RejectVectorOntoPlane real_arith p v = Ok b /\
  vadd b a = v /\ dot n a = 0 /\ exists c, b = vscale c n.
Proof.
  intros o n v p H L. unfold MakeHyperplane in H. destruct (length o =? length n)%nat eqn:E; [|discriminate]. injection H as <-.
  unfold ProjectVectorOntoPlane, RejectVectorOntoPlane. cbn [plane_normal]. rewrite projection_real, rejection_real by auto.
  eexists. eexists. split; [reflexivity|]. split; [reflexivity|]. split; [apply sub_add; rewrite vscale_length; exact L|]. split; [apply reject_orthogonal; auto|eexists; reflexivity].
Qed.
Print Assumptions C101_constructor.
Print Assumptions C101_nearest_point.
Print Assumptions C101_vectors.
Example C101_nonvacuous : exists p, MakeHyperplane [0; 0; 1] [0; 0; 2] = Ok p /\ ProjectPointOntoPlane real_arith p [5; 6; 7] = Ok [5; 6; 1].
Proof.
  exists (mkPlane [0; 0; 1] [0; 0; 2]). split; [reflexivity|]. rewrite project_point by reflexivity. apply (f_equal Ok). unfold foot, coef. cbn [vsub zip_with dot].
  destruct (Rlt_dec 0 (0 * 0 + (0 * 0 + (2 * 2 + 0)))) as [H|H]; [|lra]. cbn [vscale map vsub vadd zip_with]. repeat f_equal; field.
Qed.

(** C102: ClampNorm shortens long vectors to the bound, keeps their direction, and
    leaves the others alone. *)
Theorem C102_clamp_norm : forall (v : list R) m, 0 <= m ->
  norm (ClampNorm real_arith v m) = Rmin m (norm v) /\
  (exists c, 0 <= c <= 1 /\ ClampNorm real_arith v m = vscale c v) /\
  (norm v <= m -> ClampNorm real_arith v m = v).
Proof.
  intros v m H. rewrite clamp_norm_real. pose proof (norm_nonneg v) as P. destruct (Rlt_dec m (norm v)) as [L|L].
  - assert (B : 0 <= m / norm v <= 1).
    { split; [apply Rmult_le_pos; [exact H|apply Rlt_le, Rinv_0_lt_compat; lra]|]. apply Rmult_le_reg_r with (norm v); [lra|]. unfold Rdiv. rewrite Rmult_assoc, Rinv_l by lra. lra. }
    split; [|split; [exists (m / norm v); auto|lra]]. rewrite norm_scale, Rabs_pos_eq by apply B. rewrite Rmin_left by lra. field. lra.
  - split; [rewrite Rmin_right by lra; reflexivity|]. split; [exists 1; split; [lra|symmetry; apply vscale_1]|reflexivity].
Qed.
Print Assumptions C102_clamp_norm.
Example C102_nonvacuous : ClampNorm real_arith [3; 4] 1 = [3 * / 5; 4 * / 5].
Proof.
  rewrite clamp_norm_real. assert (N : norm [3; 4] = 5).
  { unfold norm. cbn [dot]. replace (3 * 3 + (4 * 4 + 0)) with (Rsqr 5) by (unfold Rsqr; ring). apply sqrt_Rsqr. lra. }
  rewrite N. destruct (Rlt_dec 1 5) as [H|H]; [|lra]. cbn [vscale map]. apply f_equal2; [field|]. apply f_equal2; [field|reflexivity].
Qed.

(** C103: Skew is the matrix of the cross product, Unskew takes the antisymmetric part
    of a matrix, TwistHat is the matrix of the velocity field v + w x of a twist, and
    both pairs are inverse. *)
Theorem C103_hat_partial : forall (v w : r3) (m : r33),
  (forall x, apply3 (Skew real_arith v) x = cross3 v x) /\ Unskew real_arith (Skew real_arith v) = v /\
  (m = Skew real_arith v -> Skew real_arith (Unskew real_arith m) = m) /\
  generates (TwistHat real_arith (v, w)) v w /\ TwistUnhat real_arith (TwistHat real_arith (v, w)) = (v, w).
Proof.
  intros v w m. split; [intros x; apply skew_cross|]. split; [apply unskew_skew|]. split; [intros ->; rewrite unskew_skew; reflexivity|].
  split; [apply hat_generates|apply unhat_hat].
Qed.
(** In double arithmetic the round trip is exact, too ... *)
Theorem C103_double_partial : forall (v : double * double * double) (x y z : double),
  Forall (fun c => is_finite c = true /\ Rabs (B2R c) < bpow radix2 1023) [x; y; z] ->
  Unskew double_arith (Skew double_arith (x, y, z)) = (x, y, z) /\
  TwistUnhat double_arith (TwistHat double_arith (v, (x, y, z))) = (v, (x, y, z)).
Proof. intros v x y z F. split; [apply unskew_skew_double, F|apply unhat_hat_double, F]. Qed.
(** ... but a component of 2^1023 comes back infinite. *)
Theorem C103_double_refuted : exists x y z : double, Forall (fun c => is_finite c = true) [x; y; z] /\
  exists r s, Unskew double_arith (Skew double_arith (x, y, z)) = (dinf, r, s).
Proof. exists d_2_1023, d0, d0. split; [repeat constructor; vm_compute; reflexivity|exact unskew_overflow]. Qed.
Print Assumptions C103_hat_partial.
Print Assumptions C103_double_partial.
Print Assumptions C103_double_refuted.
Example C103_nonvacuous : apply3 (Skew real_arith (0, 0, 1)) (1, 0, 0) = (0, 1, 0) /\
  Forall (fun c : double => is_finite c = true /\ Rabs (B2R c) < bpow radix2 1023) [d0; d0; d0].
Proof.
  split; [open; tuples; ring|]. repeat constructor; change (B2R d0) with 0; rewrite Rabs_R0; apply bpow_gt_0.
Qed.

(** C104: transforming a twist with a rigid motion T is conjugation with T, and the
    transformations compose like the motions. *)
Theorem C104_adjoint : forall (t u : r44) (xi : r3 * r3), is_rigid t -> is_rigid u ->
  (exists t', is_rigid t' /\ mul4 t t' = id4 /\ mul4 t' t = id4 /\
     TwistHat real_arith (TransformTwist real_arith t xi) = mul4 (mul4 t (TwistHat real_arith xi)) t' /\
     TransformTwist real_arith t' (TransformTwist real_arith t xi) = xi) /\
  TransformTwist real_arith (mul4 t u) xi = TransformTwist real_arith t (TransformTwist real_arith u xi).
Proof.
  intros t u xi Ht Hu. split; [|apply twist_compose; assumption]. destruct (rigid_inverse t Ht) as (t' & R' & E1 & E2). exists t'. split; [exact R'|]. split; [exact E1|]. split; [exact E2|].
  split; [apply hat_conjugated; assumption|]. rewrite <- twist_compose by assumption. rewrite E2. destruct xi as [[[a b] c] [[x y] z]]. open. tuples; ring.
Qed.
Print Assumptions C104_adjoint.
Example C104_nonvacuous : is_rigid (motion ((0, -1, 0), (1, 0, 0), (0, 0, 1)) (5, 6, 7)).
Proof. exists ((0, -1, 0), (1, 0, 0), (0, 0, 1)), (5, 6, 7). split; [|reflexivity]. split; open; [tuples; ring|ring]. Qed.

(** C105: for every twist, ExpTwist is a one-parameter group of rigid motions. *)
Theorem C105_group : forall xi : r3 * r3, exists F, (forall t, ExpTwist real_arith sin cos xi t = Ok (F t)) /\
  F 0 = id4 /\ (forall t, is_rigid (F t)) /\ (forall s t, F (s + t) = mul4 (F s) (F t)).
Proof. exact exp_group. Qed.
Print Assumptions C105_group.
Example C105_nonvacuous : ExpTwist real_arith sin cos ((1, 0, 0), (0, 0, 0)) 2 = Ok (motion id3 (2, 0, 0)).
Proof. rewrite exp_sliding; [|left; unfold len3; open; replace (0 * 0 + 0 * 0 + 0 * 0) with 0 by ring; apply sqrt_0]. apply (f_equal Ok). unfold slide, scale3. open. tuples; ring. Qed.

(** C106: ExpTwist is the exponential of the twist: it starts at the identity and
    solves X' = (hat xi) X.  Proved unless 0 < |w| < 1e-100 <= |v|. *)
Theorem C106_exponential_partial : forall v w : r3,
  sqrt (dot3 w w) = 0 \/ / IZR (10 ^ 100) <= sqrt (dot3 w w) \/ sqrt (dot3 v v) < / IZR (10 ^ 100) ->
  exists F, (forall t, ExpTwist real_arith sin cos (v, w) t = Ok (F t)) /\ F 0 = id4 /\
  forall t, derivative_at F t (mul4 (TwistHat real_arith (v, w)) (F t)).
Proof. exact exp_solves. Qed.
(** Such slow rotations are dropped, however long the time. *)
Theorem C106_slow_rotation_refuted : exists (v w : r3) F, (forall t, ExpTwist real_arith sin cos (v, w) t = Ok (F t)) /\
  ~ derivative_at F 0 (mul4 (TwistHat real_arith (v, w)) (F 0)).
Proof. exists (1, 0, 0), (0, 0, tiny / 10), (slide (1, 0, 0)). split; [exact slow_turn_slides|exact slow_turn_wrong]. Qed.
Print Assumptions C106_exponential_partial.
Print Assumptions C106_slow_rotation_refuted.
Example C106_nonvacuous : / IZR (10 ^ 100) <= sqrt (dot3 (0, 0, 1) (0, 0, 1)).
Proof.
  open. replace (0 * 0 + 0 * 0 + 1 * 1) with 1 by ring. rewrite sqrt_1. apply Rmult_le_reg_l with (IZR (10 ^ 100)); [apply IZR_lt; reflexivity|].
  rewrite Rinv_r, Rmult_1_r; [apply IZR_le; discriminate|]. apply not_eq_sym, Rlt_not_eq, IZR_lt. reflexivity.
Qed.

(** C107: the weighted cosine. *)
Theorem C107_value : forall u v w : list R, length u = length v -> length u = length w -> Forall (fun z => 0 <= z) w ->
  0 < weighted_dot u u w -> 0 < weighted_dot v v w ->
  let c := weighted_dot u v w / (sqrt (weighted_dot u u w) * sqrt (weighted_dot v v w)) in
  WeightedCosineAngleBetweenVectors real_arith u v w = Ok c /\ -1 <= c <= 1.
Proof. exact cosine_real. Qed.
Theorem C107_no_angle : forall u v w : list R, length u = length v -> length u = length w -> Forall (fun z => 0 <= z) w ->
  weighted_dot u u w = 0 \/ weighted_dot v v w = 0 -> WeightedCosineAngleBetweenVectors real_arith u v w = Throw InvalidArgument.
Proof. exact cosine_throws. Qed.
(** In double arithmetic whatever is returned, for any input, is in [-1, 1]. *)
Theorem C107_rounded : forall (u v w : list double) c, WeightedCosineAngleBetweenVectors double_arith u v w = Ok c ->
  is_finite c = true /\ -1 <= B2R c <= 1.
Proof. exact cosine_double. Qed.
Print Assumptions C107_value.
Print Assumptions C107_no_angle.
Print Assumptions C107_rounded.
Example C107_nonvacuous : 0 < weighted_dot [1; 2] [1; 2] [1; 3] /\ 0 < weighted_dot [3; -4] [3; -4] [1; 3].
Proof. cbn [weighted_dot]. lra. Qed.

(** C108: the average of vectors is, component by component and in the same
    arithmetic, the scalar average of C69: in exact arithmetic the mean with the
    absolute weights. *)
Theorem C108_componentwise : forall (vs : list (list double)) ws n, Forall (fun v => length v = n) vs ->
  (exists r, AverageEigenVector double_arith vs ws = Ok r /\ length r = n /\
     forall k, (k < n)%nat -> AverageStdVectorDouble double_arith (map (fun v => nth k v d0) vs) ws = Ok (nth k r d0)) \/
  (AverageEigenVector double_arith vs ws = Throw InvalidArgument /\
     forall k, AverageStdVectorDouble double_arith (map (fun v => nth k v d0) vs) ws = Throw InvalidArgument).
Proof. intros vs ws n F. exact (average_columns double_arith d0 abs_zero_double vs ws n F). Qed.
Theorem C108_mean : forall (vs : list (list R)) ws n, vs <> [] -> Forall (fun v => length v = n) vs ->
  ws = [] \/ length ws = length vs -> (ws <> [] -> exists w, In w ws /\ w <> 0) ->
  exists r, AverageEigenVector real_arith vs ws = Ok r /\ length r = n /\
  forall k, (k < n)%nat -> let col := map (fun v => nth k v 0) vs in
    nth k r 0 = weighted_sum col (weights_or_ones col ws) / total_weight (weights_or_ones col ws).
Proof.
  intros vs ws n NE F HL HZ.
  assert (V : forall k, AverageStdVectorDouble real_arith (column 0 k vs) ws = Ok (weighted_sum (column 0 k vs) (weights_or_ones (column 0 k vs) ws) / total_weight (weights_or_ones (column 0 k vs) ws))).
  { intros k. apply average_real.
    - destruct vs; [contradiction|discriminate].
    - destruct HL as [HL|HL]; [auto|right; rewrite HL; symmetry; apply map_length].
    - destruct ws as [|w ws']; [apply ones_total; destruct vs; [contradiction|discriminate]|]. intros Z. cbn [weights_or_ones] in Z. apply total_zero in Z. rewrite Forall_forall in Z.
      destruct (HZ ltac:(discriminate)) as (x & Ix & Nx). apply Nx, Z, Ix. }
  destruct (average_columns real_arith 0 abs_zero_real vs ws n F) as [(r & E & L & C)|[_ C]].
  - exists r. split; [exact E|]. split; [exact L|]. intros k Hk. cbv zeta. specialize (C k Hk). rewrite V in C. injection C as C. symmetry. exact C.
  - specialize (C 0%nat). rewrite V in C. discriminate.
Qed.
Theorem C108_rejects : forall (vs : list (list R)) ws n, Forall (fun v => length v = n) vs ->
  vs = [] \/ (ws <> [] /\ length ws <> length vs) \/ (ws <> [] /\ length ws = length vs /\ Forall (fun w => w = 0) ws) ->
  AverageEigenVector real_arith vs ws = Throw InvalidArgument.
Proof.
  intros vs ws n F H. destruct (Nat.eq_dec n 0) as [Z|Z]; destruct (average_columns real_arith 0 abs_zero_real vs ws n F) as [(r & E & L & C)|[E _]]; try exact E; exfalso.
  - subst n. unfold AverageEigenVector in E. destruct H as [-> |[[H1 H2]|(H1 & H2 & H3)]]; [discriminate| |]; destruct vs as [|v0 vs]; try discriminate; set (vv := v0 :: vs) in *.
    + destruct ws as [|w0 ws]; [contradiction|]. replace (length vv =? length (w0 :: ws))%nat with false in E by (symmetry; apply Nat.eqb_neq; congruence). discriminate.
    + rewrite H2, Nat.eqb_refl in E. rewrite Bool.andb_false_r in E.
      assert (S : first_nonzero real_arith ws = length ws).
      { clear -H3. induction H3 as [|w ws Hw _ IH]; [reflexivity|]. cbn [first_nonzero length]. change (aeqb real_arith w (a_of real_arith 0)) with (Req_bool w 0). rewrite Req_bool_true by exact Hw. rewrite IH. reflexivity. }
      rewrite S, H2 in E. replace (nth_error vv (length vv)) with (@None (list R)) in E by (symmetry; apply nth_error_None; lia). discriminate.
  - specialize (C 0%nat ltac:(lia)). rewrite average_throws in C; [discriminate|].
    unfold column. rewrite map_length. destruct H as [-> |H]; [left; reflexivity|right; exact H].
Qed.
Print Assumptions C108_componentwise.
Print Assumptions C108_mean.
Print Assumptions C108_rejects.
Example C108_nonvacuous : Forall (fun v : list R => length v = 2%nat) [[1; 2]; [3; 4]; [5; 6]] /\ exists w, In w [0; 1; -3] /\ w <> 0.
Proof. split; [repeat constructor|]. exists 1. split; [cbn; auto|lra]. Qed.
