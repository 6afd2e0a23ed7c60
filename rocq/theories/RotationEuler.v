(** Euler angles and the random rotations of RotationModel.v, in exact arithmetic. *)
From Coq Require Import Reals Lra Psatz Nsatz.
From Flocq Require Import Core.
From Verif Require Import Base UtilityModel MathModel MathReal MathLinModel MathLinSpec MathLinProof RotationModel RotationSpec RotationProof.
Local Open Scope R_scope.

(** ** atan2 *)
Lemma root_quotient y x : 0 < x -> sqrt (x * x + y * y) = x * sqrt (1 + (y / x) * (y / x)).
Proof.
  intros H. symmetry. rewrite <- (sqrt_square x) at 1 by lra. rewrite <- sqrt_mult by nra. f_equal. field. lra.
Qed.
Lemma root_pos t : 0 < sqrt (1 + t * t). Proof. apply sqrt_lt_R0. nra. Qed.
Lemma atan2_pos y x : 0 < x -> sqrt (x * x + y * y) * cos (atan (y / x)) = x /\ sqrt (x * x + y * y) * sin (atan (y / x)) = y.
Proof.
  intros H. rewrite cos_atan, sin_atan, (root_quotient y x H). unfold Rsqr. pose proof (root_pos (y / x)).
  split; field; repeat split; try lra; apply Rgt_not_eq; assumption.
Qed.
Lemma atan2_spec y x : sqrt (x * x + y * y) * cos (Ratan2 y x) = x /\ sqrt (x * x + y * y) * sin (Ratan2 y x) = y.
Proof.
  unfold Ratan2. destruct (Rlt_dec 0 x) as [H|H]; [apply atan2_pos; exact H|].
  destruct (Rlt_dec x 0) as [H'|H'].
  - destruct (atan2_pos (- y) (- x)) as [C S]; [lra|].
    replace (- x * - x + - y * - y) with (x * x + y * y) in C, S by ring. replace (- y / - x) with (y / x) in C, S by (field; lra).
    destruct (Rle_dec 0 y).
    + rewrite neg_cos, neg_sin. lra.
    + rewrite <- (cos_neg (atan (y / x) - PI)), <- (Ropp_involutive (sin (atan (y / x) - PI))), <- sin_neg.
      replace (- (atan (y / x) - PI)) with (- atan (y / x) + PI) by ring. rewrite neg_cos, neg_sin, cos_neg, sin_neg. lra.
  - assert (x = 0) by lra. subst x. replace (0 * 0 + y * y) with (y * y) by ring.
    destruct (Rlt_dec 0 y) as [Y|Y]; [rewrite sqrt_square by lra; rewrite cos_PI2, sin_PI2; lra|].
    destruct (Rlt_dec y 0) as [Y'|Y'].
    + replace (y * y) with (- y * - y) by ring. rewrite sqrt_square by lra. rewrite cos_neg, sin_neg, cos_PI2, sin_PI2. lra.
    + replace y with 0 by lra. rewrite Rmult_0_l, sqrt_0, sin_0, cos_0. lra.
Qed.
Lemma atan2_range y x : - PI < Ratan2 y x <= PI.
Proof.
  pose proof PI_RGT_0. unfold Ratan2. destruct (atan_bound (y / x)) as [L U].
  destruct (Rlt_dec 0 x) as [H1|H1]; [lra|]. destruct (Rlt_dec x 0) as [H2|H2].
  - destruct (Rle_dec 0 y) as [Y|Y].
    + split; [lra|]. assert (atan (y / x) <= 0); [|lra]. rewrite <- atan_0. destruct (Rle_lt_or_eq_dec 0 y Y) as [Y'|Y'].
      * left. apply atan_increasing. apply Ropp_lt_cancel. rewrite Ropp_0. unfold Rdiv. rewrite Ropp_mult_distr_r, <- Rinv_opp.
        apply Rmult_lt_0_compat; [lra|]. apply Rinv_0_lt_compat. lra.
      * subst y. right. f_equal. field. lra.
    + assert (0 < atan (y / x)); [|lra]. rewrite <- atan_0. apply atan_increasing. replace (y / x) with (- y * / - x) by (field; lra).
      apply Rmult_lt_0_compat; [lra|]. apply Rinv_0_lt_compat. lra.
  - destruct (Rlt_dec 0 y); [lra|]. destruct (Rlt_dec y 0); lra.
Qed.
Lemma atan2_unit y x : x * x + y * y = 1 -> cos (Ratan2 y x) = x /\ sin (Ratan2 y x) = y.
Proof. intros E. destruct (atan2_spec y x) as [C S]. rewrite E, sqrt_1 in C, S. lra. Qed.

(** ** Euler angles *)
Lemma euler_general m00 m01 m02 m10 m11 m12 m20 m21 m22 r0 r1 r2 N :
  rot_facts m00 m01 m02 m10 m11 m12 m20 m21 m22 ->
  m12 = N * sin r0 -> m22 = N * cos r0 -> cos r1 = N -> sin r1 = - m02 ->
  r2 = Ratan2 (sin r0 * m20 - cos r0 * m10) (cos r0 * m11 - sin r0 * m21) ->
  mul3 (mul3 (rot_x (- r0)) (rot_y (- r1))) (rot_z (- r2)) = ((m00, m01, m02), (m10, m11, m12), (m20, m21, m22)).
Proof.
  intros F A B C D E. destruct F.
  pose proof (cs1 r0) as T0. set (s := sin r0) in *. set (c := cos r0) in *.
  assert (U0 : c * m12 - s * m22 = 0) by (rewrite A, B; ring).
  assert (U1 : (c * m11 - s * m21) * (c * m11 - s * m21) + (s * m20 - c * m10) * (s * m20 - c * m10) = 1).
  { transitivity ((c * c + s * s) * 1 + 0 - (c * m12 - s * m22) * (c * m12 - s * m22)); [|rewrite U0, T0; ring].
    transitivity (c * c * (m10 * m10 + m11 * m11 + m12 * m12) + s * s * (m20 * m20 + m21 * m21 + m22 * m22) - 2 * c * s * (m10 * m20 + m11 * m21 + m12 * m22)
      - (c * m12 - s * m22) * (c * m12 - s * m22)); [ring|]. rewrite rf_11, rf_22, rf_12. ring. }
  destruct (atan2_unit _ _ U1) as [C2 S2]. rewrite <- E in C2, S2.
  unfold mul3, rot_x, rot_y, rot_z, transpose3, dot3. rewrite !cos_neg, !sin_neg, C, D, C2, S2. fold s c.
  assert (N2 : s * m12 + c * m22 = N) by (rewrite A, B; transitivity (N * (c * c + s * s)); [ring|rewrite T0; ring]).
  clear A B C D E C2 S2 U1.
  assert (L0 : N * (c * m11 - s * m21) = m00).
  { rewrite <- N2. transitivity ((s * s + c * c) * (m11 * m22 - m12 * m21) + (c * m12 - s * m22) * (s * m11 + c * m21)); [ring|]. rewrite U0, rf_c00. replace (s * s + c * c) with 1 by lra. ring. }
  assert (L1 : N * (s * m20 - c * m10) = m01).
  { rewrite <- N2. transitivity ((s * s + c * c) * (m12 * m20 - m10 * m22) - (c * m12 - s * m22) * (s * m10 + c * m20)); [ring|]. rewrite U0, rf_c01. replace (s * s + c * c) with 1 by lra. ring. }
  assert (M12 : m12 = s * N). { rewrite <- N2. transitivity ((s * s + c * c) * m12 - c * (c * m12 - s * m22)); [rewrite U0; replace (s * s + c * c) with 1 by lra; ring|ring]. }
  assert (M22 : m22 = c * N). { rewrite <- N2. transitivity ((s * s + c * c) * m22 + s * (c * m12 - s * m22)); [rewrite U0; replace (s * s + c * c) with 1 by lra; ring|ring]. }
  repeat apply pair3_eq; try (ring_simplify; lra).
  all: try nsatz.
Qed.
Lemma euler_round_trip m : is_rotation m ->
  let '(r, p, y) := eulerAngles ra sin cos Ratan2 m in mul3 (mul3 (rot_x r) (rot_y p)) (rot_z y) = m.
Proof.
  destruct m as [[[[m00 m01] m02] [[m10 m11] m12]] [[m20 m21] m22]]. intros HR.
  pose proof (rotation_facts _ _ _ _ _ _ _ _ _ HR) as F. unfold eulerAngles. ra_simpl.
  assert (n2 : m00 * m00 + m01 * m01 = m22 * m22 + m12 * m12) by (destruct F; lra).
  assert (n1 : m00 * m00 + m01 * m01 = 1 - m02 * m02) by (destruct F; lra).
  destruct (atan2_spec m12 m22) as [C S]. rewrite <- n2 in C, S. set (n := sqrt (m00 * m00 + m01 * m01)) in *.
  assert (N2 : n * n = 1 - m02 * m02) by (unfold n; rewrite <- n1; apply sqrt_sqrt; nra).
  destruct (Rlt_le_dec 0 (Ratan2 m12 m22)) as [P|P].
  - rewrite Rlt_bool_true by exact P. destruct (atan2_unit (- m02) (- n)) as [C1 S1]; [nra|].
    set (q := Ratan2 m12 m22 - PI).
    assert (Cq : cos q = - cos (Ratan2 m12 m22)) by (unfold q; rewrite <- cos_neg, Ropp_minus_distr, cos_minus, cos_PI, sin_PI; ring).
    assert (Sq : sin q = - sin (Ratan2 m12 m22)) by (unfold q; rewrite sin_minus, cos_PI, sin_PI; ring).
    apply (euler_general _ _ _ _ _ _ _ _ _ q _ _ (- n) F); auto; [rewrite Sq|rewrite Cq]; lra.
  - rewrite Rlt_bool_false by exact P. destruct (atan2_unit (- m02) n) as [C1 S1]; [nra|].
    apply (euler_general _ _ _ _ _ _ _ _ _ (Ratan2 m12 m22) _ _ n F); auto; lra.
Qed.
(** Where the angles lie: roll in [0, PI], pitch and yaw in [-PI, PI]. *)
Lemma euler_range m : let '(r, p, y) := eulerAngles ra sin cos Ratan2 m in
  0 <= r <= PI /\ - PI <= p <= PI /\ - PI <= y <= PI.
Proof.
  destruct m as [[[[m00 m01] m02] [[m10 m11] m12]] [[m20 m21] m22]]. unfold eulerAngles. ra_simpl. pose proof PI_RGT_0.
  destruct (atan2_range m12 m22).
  destruct (Rlt_le_dec 0 (Ratan2 m12 m22)) as [P|P]; [rewrite Rlt_bool_true by exact P|rewrite Rlt_bool_false by exact P].
  - match goal with |- _ /\ _ <= - ?a <= _ /\ _ <= - ?b <= _ => assert (- PI < a <= PI) by apply atan2_range; assert (- PI < b <= PI) by apply atan2_range end. lra.
  - match goal with |- _ /\ _ <= - ?a <= _ /\ _ <= - ?b <= _ => assert (- PI < a <= PI) by apply atan2_range; assert (- PI < b <= PI) by apply atan2_range end. lra.
Qed.
