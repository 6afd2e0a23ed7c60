(** Proofs about RotationModel.v in exact arithmetic. *)
From Coq Require Import Reals Lra Psatz Nsatz.
From Flocq Require Import Core.
From Verif Require Import Base UtilityModel MathModel MathReal MathLinModel MathLinSpec MathLinProof RotationModel RotationSpec.
Local Open Scope R_scope.
Notation ra := real_arith.

Ltac ra_simpl :=
  cbn [a_of aadd asub amul adiv aopp aabs asqrt altb aleb aeqb a_pi real_arith qw qx qy qz] in *.
Lemma real_half : 1 / 2 = / 2. Proof. field. Qed.

(** ** Unit quaternions and matrices *)
Lemma pair3_eq {A B C} (a a' : A) (b b' : B) (c c' : C) : a = a' -> b = b' -> c = c' -> (a, b, c) = (a', b', c').
Proof. intros -> -> ->. reflexivity. Qed.
Lemma toRot_rotates q : unit q -> rotates q (toRotationMatrix ra q).
Proof.
  unfold unit, dotq. intros U [[a b] c]. destruct q as [w x y z]. unfold toRotationMatrix, hamilton, conjugate, quaternion_of, apply3, dot3, cross3, add3, scale3.
  ra_simpl. cbn [fst snd]. f_equal; [ring|]. apply pair3_eq; nsatz.
Qed.
Lemma toRot_rotation q : unit q -> is_rotation (toRotationMatrix ra q).
Proof.
  unfold unit, dotq. intros U. destruct q as [w x y z]. unfold is_rotation, toRotationMatrix, mul3, transpose3, det3, dot3, cross3, id3. ra_simpl.
  split; [repeat apply pair3_eq|]; nsatz.
Qed.
Lemma unit_mul p q : unit p -> unit q -> unit (q_mul ra p q).
Proof. unfold unit, dotq. destruct p as [a b c d], q as [e f g h]. unfold q_mul. ra_simpl. intros U V. nsatz. Qed.
Lemma toRot_mul p q : unit p -> unit q -> toRotationMatrix ra (q_mul ra p q) = mul3 (toRotationMatrix ra p) (toRotationMatrix ra q).
Proof.
  unfold unit, dotq. destruct p as [a b c d], q as [e f g h]. unfold toRotationMatrix, q_mul, mul3, transpose3, dot3. ra_simpl. intros U V.
  repeat apply pair3_eq; nsatz.
Qed.
Lemma cs1 a : cos a * cos a + sin a * sin a = 1. Proof. pose proof (sin2_cos2 a) as H. unfold Rsqr in H. lra. Qed.
Lemma axis_unit a x y z : x * x + y * y + z * z = 1 -> unit (q_of_angle_axis ra sin cos a (x, y, z)).
Proof. intros H. unfold unit, dotq, q_of_angle_axis. ra_simpl. pose proof (cs1 (1 / 2 * a)). nsatz. Qed.
Lemma cos_half a : cos a = 1 - 2 * (sin (1 / 2 * a) * sin (1 / 2 * a)).
Proof. replace a with (2 * (1 / 2 * a)) at 1 by field. rewrite cos_2a_sin. ring. Qed.
Lemma sin_half a : sin a = 2 * sin (1 / 2 * a) * cos (1 / 2 * a).
Proof. replace a with (2 * (1 / 2 * a)) at 1 by field. rewrite sin_2a. ring. Qed.
Lemma axis_x a : toRotationMatrix ra (q_of_angle_axis ra sin cos a (unit_x ra)) = rot_x a.
Proof.
  unfold toRotationMatrix, q_of_angle_axis, unit_x, rot_x. ra_simpl. pose proof (cs1 (1 / 2 * a)). rewrite (cos_half a), (sin_half a).
  repeat apply pair3_eq; try ring; nsatz.
Qed.
Lemma axis_y a : toRotationMatrix ra (q_of_angle_axis ra sin cos a (unit_y ra)) = rot_y a.
Proof.
  unfold toRotationMatrix, q_of_angle_axis, unit_y, rot_y. ra_simpl. pose proof (cs1 (1 / 2 * a)). rewrite (cos_half a), (sin_half a).
  repeat apply pair3_eq; try ring; nsatz.
Qed.
Lemma axis_z a : toRotationMatrix ra (q_of_angle_axis ra sin cos a (unit_z ra)) = rot_z a.
Proof.
  unfold toRotationMatrix, q_of_angle_axis, unit_z, rot_z. ra_simpl. pose proof (cs1 (1 / 2 * a)). rewrite (cos_half a), (sin_half a).
  repeat apply pair3_eq; try ring; nsatz.
Qed.
Lemma ux a : unit (q_of_angle_axis ra sin cos a (unit_x ra)). Proof. apply axis_unit. ra_simpl. ring. Qed.
Lemma uy a : unit (q_of_angle_axis ra sin cos a (unit_y ra)). Proof. apply axis_unit. ra_simpl. ring. Qed.
Lemma uz a : unit (q_of_angle_axis ra sin cos a (unit_z ra)). Proof. apply axis_unit. ra_simpl. ring. Qed.
Lemma rpy_unit r p y : unit (QuaternionFromRPY ra sin cos r p y).
Proof. unfold QuaternionFromRPY. apply unit_mul; [apply unit_mul|]; [apply ux|apply uy|apply uz]. Qed.
Lemma urdf_unit r p y : unit (QuaternionFromUrdfRPY ra sin cos r p y).
Proof. unfold QuaternionFromUrdfRPY. apply unit_mul; [apply unit_mul|]; [apply uz|apply uy|apply ux]. Qed.
Lemma rpy_matrix r p y : toRotationMatrix ra (QuaternionFromRPY ra sin cos r p y) = mul3 (mul3 (rot_x r) (rot_y p)) (rot_z y).
Proof.
  unfold QuaternionFromRPY. rewrite toRot_mul by (try apply unit_mul; auto using ux, uy, uz). rewrite toRot_mul by auto using ux, uy.
  rewrite axis_x, axis_y, axis_z. reflexivity.
Qed.
Lemma urdf_matrix r p y : toRotationMatrix ra (QuaternionFromUrdfRPY ra sin cos r p y) = mul3 (mul3 (rot_z y) (rot_y p)) (rot_x r).
Proof.
  unfold QuaternionFromUrdfRPY. rewrite toRot_mul by (try apply unit_mul; auto using ux, uy, uz). rewrite toRot_mul by auto using uz, uy.
  rewrite axis_x, axis_y, axis_z. reflexivity.
Qed.

(** ** Rotation matrices *)
Ltac split_eq := repeat match goal with H : (_, _) = (_, _) |- _ => injection H; clear H; intros end.
(** Rows are orthonormal and each is the cross product of the others; so are the columns. *)
Record rot_facts (m00 m01 m02 m10 m11 m12 m20 m21 m22 : R) : Prop := {
  rf_00 : m00 * m00 + m01 * m01 + m02 * m02 = 1; rf_11 : m10 * m10 + m11 * m11 + m12 * m12 = 1;
  rf_22 : m20 * m20 + m21 * m21 + m22 * m22 = 1;
  rf_01 : m00 * m10 + m01 * m11 + m02 * m12 = 0; rf_02 : m00 * m20 + m01 * m21 + m02 * m22 = 0;
  rf_12 : m10 * m20 + m11 * m21 + m12 * m22 = 0;
  rf_c00 : m11 * m22 - m12 * m21 = m00; rf_c01 : m12 * m20 - m10 * m22 = m01; rf_c02 : m10 * m21 - m11 * m20 = m02;
  rf_c10 : m21 * m02 - m22 * m01 = m10; rf_c11 : m22 * m00 - m20 * m02 = m11; rf_c12 : m20 * m01 - m21 * m00 = m12;
  rf_c20 : m01 * m12 - m02 * m11 = m20; rf_c21 : m02 * m10 - m00 * m12 = m21; rf_c22 : m00 * m11 - m01 * m10 = m22;
  rf_t00 : m00 * m00 + m10 * m10 + m20 * m20 = 1; rf_t11 : m01 * m01 + m11 * m11 + m21 * m21 = 1;
  rf_t22 : m02 * m02 + m12 * m12 + m22 * m22 = 1;
  rf_t01 : m00 * m01 + m10 * m11 + m20 * m21 = 0; rf_t02 : m00 * m02 + m10 * m12 + m20 * m22 = 0;
  rf_t12 : m01 * m02 + m11 * m12 + m21 * m22 = 0 }.
Lemma cross_unique a1 a2 a3 b1 b2 b3 c1 c2 c3 :
  a1 * a1 + a2 * a2 + a3 * a3 = 1 -> b1 * b1 + b2 * b2 + b3 * b3 = 1 -> c1 * c1 + c2 * c2 + c3 * c3 = 1 ->
  a1 * b1 + a2 * b2 + a3 * b3 = 0 ->
  c1 * (a2 * b3 - a3 * b2) + c2 * (a3 * b1 - a1 * b3) + c3 * (a1 * b2 - a2 * b1) = 1 ->
  a2 * b3 - a3 * b2 = c1 /\ a3 * b1 - a1 * b3 = c2 /\ a1 * b2 - a2 * b1 = c3.
Proof.
  intros A B C AB D.
  assert (L : (a2 * b3 - a3 * b2) * (a2 * b3 - a3 * b2) + (a3 * b1 - a1 * b3) * (a3 * b1 - a1 * b3) + (a1 * b2 - a2 * b1) * (a1 * b2 - a2 * b1) = 1).
  { transitivity ((a1 * a1 + a2 * a2 + a3 * a3) * (b1 * b1 + b2 * b2 + b3 * b3) - (a1 * b1 + a2 * b2 + a3 * b3) * (a1 * b1 + a2 * b2 + a3 * b3)); [ring|].
    rewrite A, B, AB. ring. }
  assert (Z : (a2 * b3 - a3 * b2 - c1) ^ 2 + (a3 * b1 - a1 * b3 - c2) ^ 2 + (a1 * b2 - a2 * b1 - c3) ^ 2 = 0) by nra.
  pose proof (pow2_ge_0 (a2 * b3 - a3 * b2 - c1)). pose proof (pow2_ge_0 (a3 * b1 - a1 * b3 - c2)). pose proof (pow2_ge_0 (a1 * b2 - a2 * b1 - c3)).
  assert (Q : forall x, x ^ 2 = 0 -> x = 0) by (intros x E; destruct (Req_dec x 0); [auto|]; exfalso; apply (pow_nonzero x 2); auto).
  repeat split; apply Rminus_diag_uniq; apply Q; lra.
Qed.
Lemma rotation_facts m00 m01 m02 m10 m11 m12 m20 m21 m22 :
  is_rotation ((m00, m01, m02), (m10, m11, m12), (m20, m21, m22)) -> rot_facts m00 m01 m02 m10 m11 m12 m20 m21 m22.
Proof.
  unfold is_rotation, mul3, transpose3, det3, cross3, id3. cbv [dot3]. intros [E D]. split_eq.
  assert (R00 : m00 * m00 + m01 * m01 + m02 * m02 = 1) by assumption.
  assert (R11 : m10 * m10 + m11 * m11 + m12 * m12 = 1) by assumption.
  assert (R22 : m20 * m20 + m21 * m21 + m22 * m22 = 1) by assumption.
  assert (R01 : m00 * m10 + m01 * m11 + m02 * m12 = 0) by assumption.
  assert (R02 : m00 * m20 + m01 * m21 + m02 * m22 = 0) by assumption.
  assert (R12 : m10 * m20 + m11 * m21 + m12 * m22 = 0) by assumption.
  destruct (cross_unique m10 m11 m12 m20 m21 m22 m00 m01 m02) as [C0 [C1 C2]]; [lra|lra|lra|lra|rewrite <- D; ring|].
  destruct (cross_unique m20 m21 m22 m00 m01 m02 m10 m11 m12) as [C3 [C4 C5]]; [lra|lra|lra|lra|rewrite <- D; ring|].
  destruct (cross_unique m00 m01 m02 m10 m11 m12 m20 m21 m22) as [C6 [C7 C8]]; [lra|lra|lra|lra|rewrite <- D; ring|].
  assert (T00 : m00 * m00 + m10 * m10 + m20 * m20 = 1).
  { rewrite <- D. rewrite <- C0 at 2. rewrite <- C3 at 2. rewrite <- C6 at 2. ring. }
  assert (T11 : m01 * m01 + m11 * m11 + m21 * m21 = 1).
  { rewrite <- D. rewrite <- C1 at 2. rewrite <- C4 at 2. rewrite <- C7 at 2. ring. }
  assert (T22 : m02 * m02 + m12 * m12 + m22 * m22 = 1).
  { rewrite <- D. rewrite <- C2 at 2. rewrite <- C5 at 2. rewrite <- C8 at 2. ring. }
  constructor; try assumption.
  - rewrite <- C1 at 1. rewrite <- C4 at 1. rewrite <- C7 at 1. ring.
  - rewrite <- C2 at 1. rewrite <- C5 at 1. rewrite <- C8 at 1. ring.
  - rewrite <- C2 at 1. rewrite <- C5 at 1. rewrite <- C8 at 1. ring.
Qed.

(** ** Quaternion of a matrix *)
(** The products of the components, in terms of the entries. *)
Definition entries_ok (q : quat R) (m : r33) : Prop :=
  let '((m00, m01, m02), (m10, m11, m12), (m20, m21, m22)) := m in
  4 * (qw q * qw q) = 1 + m00 + m11 + m22 /\ 4 * (qx q * qx q) = 1 + m00 - m11 - m22 /\
  4 * (qy q * qy q) = 1 - m00 + m11 - m22 /\ 4 * (qz q * qz q) = 1 - m00 - m11 + m22 /\
  4 * (qw q * qx q) = m21 - m12 /\ 4 * (qw q * qy q) = m02 - m20 /\ 4 * (qw q * qz q) = m10 - m01 /\
  4 * (qx q * qy q) = m10 + m01 /\ 4 * (qx q * qz q) = m20 + m02 /\ 4 * (qy q * qz q) = m21 + m12.
Lemma entries_unit q m : entries_ok q m -> unit q.
Proof. destruct m as [[[[m00 m01] m02] [[m10 m11] m12]] [[m20 m21] m22]], q as [w x y z]. unfold entries_ok, unit, dotq. ra_simpl. lra. Qed.
Lemma entries_matrix q m : entries_ok q m -> toRotationMatrix ra q = m.
Proof.
  destruct m as [[[[m00 m01] m02] [[m10 m11] m12]] [[m20 m21] m22]], q as [w x y z]. unfold entries_ok, toRotationMatrix. ra_simpl.
  intros (E1 & E2 & E3 & E4 & E5 & E6 & E7 & E8 & E9 & E10). repeat apply pair3_eq; lra.
Qed.
(** A pivot K > 0 with its square root s: the quotients (A/2s)(B/2s) = AB/4K. *)
Lemma pivot_sq K s A B C : s * s = K -> 0 < s -> A * B = K * C -> 4 * (A * (1 / 2 / s) * (B * (1 / 2 / s))) = C.
Proof. intros <- Hs E. transitivity (A * B / (s * s)); [field; lra|]. rewrite E. field. lra. Qed.
Lemma pivot_lin s A : 0 < s -> 4 * (1 / 2 * s * (A * (1 / 2 / s))) = A.
Proof. intros H. field. lra. Qed.
Lemma pivot_lin' s A : 0 < s -> 4 * (A * (1 / 2 / s) * (1 / 2 * s)) = A.
Proof. intros H. field. lra. Qed.
Lemma pivot_self K s : s * s = K -> 4 * (1 / 2 * s * (1 / 2 * s)) = K.
Proof. intros <-. field. Qed.
Lemma q_of_matrix_ok m : is_rotation m -> entries_ok (q_of_matrix ra m) m.
Proof.
  destruct m as [[[[m00 m01] m02] [[m10 m11] m12]] [[m20 m21] m22]]. intros HR.
  pose proof (rotation_facts _ _ _ _ _ _ _ _ _ HR) as F. destruct F.
  unfold q_of_matrix. ra_simpl.
  assert (ab : (m21 - m12) * (m21 - m12) = (1 + m00 + m11 + m22) * (1 + m00 - m11 - m22)) by nsatz.
  assert (ac : (m02 - m20) * (m02 - m20) = (1 + m00 + m11 + m22) * (1 - m00 + m11 - m22)) by nsatz.
  assert (ad : (m10 - m01) * (m10 - m01) = (1 + m00 + m11 + m22) * (1 - m00 - m11 + m22)) by nsatz.
  assert (bc : (m10 + m01) * (m10 + m01) = (1 + m00 - m11 - m22) * (1 - m00 + m11 - m22)) by nsatz.
  assert (bd : (m20 + m02) * (m20 + m02) = (1 + m00 - m11 - m22) * (1 - m00 - m11 + m22)) by nsatz.
  assert (cd : (m21 + m12) * (m21 + m12) = (1 - m00 + m11 - m22) * (1 - m00 - m11 + m22)) by nsatz.
  assert (apq : (m21 - m12) * (m02 - m20) = (1 + m00 + m11 + m22) * (m10 + m01)) by nsatz.
  assert (apr : (m21 - m12) * (m10 - m01) = (1 + m00 + m11 + m22) * (m20 + m02)) by nsatz.
  assert (aqr : (m02 - m20) * (m10 - m01) = (1 + m00 + m11 + m22) * (m21 + m12)) by nsatz.
  assert (bpq : (m21 - m12) * (m10 + m01) = (1 + m00 - m11 - m22) * (m02 - m20)) by nsatz.
  assert (bpr : (m21 - m12) * (m20 + m02) = (1 + m00 - m11 - m22) * (m10 - m01)) by nsatz.
  assert (bqr : (m10 + m01) * (m20 + m02) = (1 + m00 - m11 - m22) * (m21 + m12)) by nsatz.
  assert (cqp : (m02 - m20) * (m10 + m01) = (1 - m00 + m11 - m22) * (m21 - m12)) by nsatz.
  assert (cqr : (m02 - m20) * (m21 + m12) = (1 - m00 + m11 - m22) * (m10 - m01)) by nsatz.
  assert (cpr : (m10 + m01) * (m21 + m12) = (1 - m00 + m11 - m22) * (m20 + m02)) by nsatz.
  assert (drp : (m10 - m01) * (m20 + m02) = (1 - m00 - m11 + m22) * (m21 - m12)) by nsatz.
  assert (drq : (m10 - m01) * (m21 + m12) = (1 - m00 - m11 + m22) * (m02 - m20)) by nsatz.
  assert (dpq : (m20 + m02) * (m21 + m12) = (1 - m00 - m11 + m22) * (m10 + m01)) by nsatz.
  assert (SQ : forall K s, 0 < K -> s = sqrt K -> s * s = K /\ 0 < s).
  { intros K s HK ->. split; [apply sqrt_sqrt; lra|apply sqrt_lt_R0; exact HK]. }
  unfold entries_ok.
  destruct (Rlt_le_dec 0 (m00 + m11 + m22)) as [T|T].
  - rewrite Rlt_bool_true by exact T. destruct (SQ (m00 + m11 + m22 + 1) _ ltac:(lra) eq_refl) as [S1 S2]. set (s := sqrt (m00 + m11 + m22 + 1)) in *.
    replace (m00 + m11 + m22 + 1) with (1 + m00 + m11 + m22) in S1 by ring. ra_simpl.
    split; [rewrite (pivot_self _ _ S1); ring|].
    repeat split; try (apply pivot_lin; exact S2); apply (pivot_sq _ _ _ _ _ S1 S2); lra.
  - rewrite Rlt_bool_false by exact T.
    assert (B : let i := if Rlt_bool m00 m11 then 1%nat else 0%nat in
                let i := if Rlt_bool (if (i =? 0)%nat then m00 else m11) m22 then 2%nat else i in
                (i = 0%nat /\ m11 <= m00 /\ m22 <= m00) \/ (i = 1%nat /\ m00 <= m11 /\ m22 <= m11) \/ (i = 2%nat /\ m00 <= m22 /\ m11 <= m22)).
    { cbv zeta. destruct (Rlt_le_dec m00 m11) as [L|L].
      - rewrite (Rlt_bool_true m00 m11) by exact L. cbn [Nat.eqb]. destruct (Rlt_le_dec m11 m22) as [L'|L'].
        + rewrite (Rlt_bool_true m11 m22) by exact L'. right; right. repeat split; lra.
        + rewrite (Rlt_bool_false m11 m22) by exact L'. right; left. repeat split; lra.
      - rewrite (Rlt_bool_false m00 m11) by exact L. cbn [Nat.eqb]. destruct (Rlt_le_dec m00 m22) as [L'|L'].
        + rewrite (Rlt_bool_true m00 m22) by exact L'. right; right. repeat split; lra.
        + rewrite (Rlt_bool_false m00 m22) by exact L'. left. repeat split; lra. }
    cbv zeta in B |- *.
    destruct B as [(-> & L1 & L2)|[(-> & L1 & L2)|(-> & L1 & L2)]].
    + destruct (SQ (m00 - m11 - m22 + 1) _ ltac:(lra) eq_refl) as [S1 S2]. set (s := sqrt (m00 - m11 - m22 + 1)) in *.
      replace (m00 - m11 - m22 + 1) with (1 + m00 - m11 - m22) in S1 by ring. ra_simpl.
      repeat split; first [apply pivot_self; exact S1 | apply pivot_lin; exact S2 | apply pivot_lin'; exact S2
        | apply (pivot_sq _ _ _ _ _ S1 S2); first [assumption | lra]].
    + destruct (SQ (m11 - m22 - m00 + 1) _ ltac:(lra) eq_refl) as [S1 S2]. set (s := sqrt (m11 - m22 - m00 + 1)) in *.
      replace (m11 - m22 - m00 + 1) with (1 - m00 + m11 - m22) in S1 by ring. rewrite (Rplus_comm m01 m10). ra_simpl.
      repeat split; first [apply pivot_self; exact S1 | apply pivot_lin; exact S2 | apply pivot_lin'; exact S2
        | apply (pivot_sq _ _ _ _ _ S1 S2); first [assumption | lra]].
    + destruct (SQ (m22 - m00 - m11 + 1) _ ltac:(lra) eq_refl) as [S1 S2]. set (s := sqrt (m22 - m00 - m11 + 1)) in *.
      replace (m22 - m00 - m11 + 1) with (1 - m00 - m11 + m22) in S1 by ring. rewrite (Rplus_comm m02 m20), (Rplus_comm m12 m21). ra_simpl.
      repeat split; first [apply pivot_self; exact S1 | apply pivot_lin; exact S2 | apply pivot_lin'; exact S2
        | apply (pivot_sq _ _ _ _ _ S1 S2); first [assumption | lra]].
Qed.
Lemma q_of_matrix_unit m : is_rotation m -> unit (q_of_matrix ra m).
Proof. intros H. exact (entries_unit _ _ (q_of_matrix_ok m H)). Qed.
Lemma q_of_matrix_matrix m : is_rotation m -> toRotationMatrix ra (q_of_matrix ra m) = m.
Proof. intros H. exact (entries_matrix _ _ (q_of_matrix_ok m H)). Qed.
