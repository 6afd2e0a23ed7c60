(** Random rotations are uniform (C190). *)
From Coq Require Import Reals Lra Psatz.
From Coquelicot Require Import Coquelicot.
From Flocq Require Import Core.
From Verif Require Import Base MathLinSpec MathModel MathReal RotationModel RotationSpec RotationProof RotationAngle RotationEuler RotationMisc RandomRotSpec.
Local Open Scope R_scope.

Lemma drawn a b c : quaternion_drawn a b c = mkQuat (cos (2 * PI * c) * sqrt a) (sin (2 * PI * b) * sqrt (1 - a)) (cos (2 * PI * b) * sqrt (1 - a)) (sin (2 * PI * c) * sqrt a).
Proof. reflexivity. Qed.
Lemma sqr_sc a : sin a * sin a = 1 - cos a * cos a. Proof. pose proof (sin2_cos2 a) as H. unfold Rsqr in H. lra. Qed.
Lemma quaternion_volume a b c : 0 < a < 1 -> stretches_volume quaternion_drawn a b c (2 * (PI * PI)).
Proof.
  intros H. set (r := sqrt a). set (q := sqrt (1 - a)).
  assert (Hr : 0 < r) by (apply sqrt_lt_R0; lra). assert (Hq : 0 < q) by (apply sqrt_lt_R0; lra).
  assert (Er : r * r = a) by (apply sqrt_sqrt; lra). assert (Eq : q * q = 1 - a) by (apply sqrt_sqrt; lra).
  set (sb := sin (2 * PI * b)). set (cb := cos (2 * PI * b)). set (sc := sin (2 * PI * c)). set (cc := cos (2 * PI * c)).
  assert (Eb : sb * sb = 1 - cb * cb) by apply sqr_sc. assert (Ec : sc * sc = 1 - cc * cc) by apply sqr_sc.
  exists (mkQuat (cc / (2 * r)) (- (sb / (2 * q))) (- (cb / (2 * q))) (sc / (2 * r))),
    (mkQuat 0 (2 * PI * cb * q) (- (2 * PI * sb * q)) 0), (mkQuat (- (2 * PI * sc * r)) 0 0 (2 * PI * cc * r)).
  unfold velocity. cbn [qw qx qy qz].
  split; [|split; [|split; [|split]]].
  - repeat split; apply is_derive_Reals; (eapply is_derive_ext; [intros t; rewrite drawn; cbn [qw qx qy qz]; reflexivity|]); auto_derive; try lra; try replace (1 + - a) with (1 - a) by ring; fold r q sb cb sc cc; field; lra.
  - repeat split; apply is_derive_Reals; (eapply is_derive_ext; [intros t; rewrite drawn; cbn [qw qx qy qz]; reflexivity|]); auto_derive; try exact I; try replace (1 + - a) with (1 - a) by ring; fold r q sb cb sc cc; ring.
  - repeat split; apply is_derive_Reals; (eapply is_derive_ext; [intros t; rewrite drawn; cbn [qw qx qy qz]; reflexivity|]); auto_derive; try exact I; try replace (1 + - a) with (1 - a) by ring; fold r q sb cb sc cc; ring.
  - pose proof PI_RGT_0. nra.
  - unfold squared_volume, dotq. cbn [qw qx qy qz].
    assert (D1 : cc / (2 * r) * (cc / (2 * r)) + - (sb / (2 * q)) * - (sb / (2 * q)) + - (cb / (2 * q)) * - (cb / (2 * q)) + sc / (2 * r) * (sc / (2 * r)) = / (4 * (a * (1 - a)))).
    { replace (cc / (2 * r) * (cc / (2 * r)) + - (sb / (2 * q)) * - (sb / (2 * q)) + - (cb / (2 * q)) * - (cb / (2 * q)) + sc / (2 * r) * (sc / (2 * r)))
        with ((cc * cc + sc * sc) / (4 * (r * r)) + (sb * sb + cb * cb) / (4 * (q * q))) by (field; lra).
      rewrite Eb, Ec, Er, Eq. field. lra. }
    rewrite D1.
    assert (D2 : 0 * 0 + 2 * PI * cb * q * (2 * PI * cb * q) + - (2 * PI * sb * q) * - (2 * PI * sb * q) + 0 * 0 = 4 * (PI * PI) * (1 - a)).
    { rewrite <- Eq. transitivity (4 * (PI * PI) * (q * q) * (cb * cb + sb * sb)); [ring|rewrite Eb; ring]. }
    rewrite D2.
    assert (D3 : - (2 * PI * sc * r) * - (2 * PI * sc * r) + 0 * 0 + 0 * 0 + 2 * PI * cc * r * (2 * PI * cc * r) = 4 * (PI * PI) * a).
    { rewrite <- Er. transitivity (4 * (PI * PI) * (r * r) * (cc * cc + sc * sc)); [ring|rewrite Ec; ring]. }
    rewrite D3. clear D1 D2 D3.
    replace (cc / (2 * r) * 0 + - (sb / (2 * q)) * (2 * PI * cb * q) + - (cb / (2 * q)) * - (2 * PI * sb * q) + sc / (2 * r) * 0) with 0 by (field; lra).
    replace (cc / (2 * r) * - (2 * PI * sc * r) + - (sb / (2 * q)) * 0 + - (cb / (2 * q)) * 0 + sc / (2 * r) * (2 * PI * cc * r)) with 0 by (field; lra).
    field. lra.
Qed.

(** ** Every quaternion once *)
Lemma turns_equal b b' : 0 <= b < 1 -> 0 <= b' < 1 -> cos (2 * PI * b) = cos (2 * PI * b') -> sin (2 * PI * b) = sin (2 * PI * b') -> b = b'.
Proof.
  intros H H' C S. pose proof PI_RGT_0 as P.
  assert (E : cos (2 * PI * b - 2 * PI * b') = 1).
  { rewrite cos_minus, C, S. pose proof (sin2_cos2 (2 * PI * b')) as Q. unfold Rsqr in Q. lra. }
  destruct (Req_dec b b') as [|N]; [assumption|exfalso].
  assert (G : forall d, 0 < d < 1 -> cos (2 * PI * d) < 1).
  { intros d D. replace (2 * PI * d) with (2 * (PI * d)) by ring. rewrite cos_2a_sin. assert (0 < sin (PI * d)) by (apply sin_gt_0; nra). nra. }
  destruct (Rlt_or_le b b').
  - specialize (G (b' - b) ltac:(lra)). rewrite <- cos_neg in E. replace (- (2 * PI * b - 2 * PI * b')) with (2 * PI * (b' - b)) in E by ring. lra.
  - specialize (G (b - b') ltac:(lra)). replace (2 * PI * b - 2 * PI * b') with (2 * PI * (b - b')) in E by ring. lra.
Qed.
Lemma quaternion_once a b c a' b' c' : 0 < a < 1 -> 0 <= b < 1 -> 0 <= c < 1 -> 0 < a' < 1 -> 0 <= b' < 1 -> 0 <= c' < 1 ->
  quaternion_drawn a b c = quaternion_drawn a' b' c' -> a = a' /\ b = b' /\ c = c'.
Proof.
  intros A B C A' B' C' E. destruct (random_quat_facts a b c ltac:(lra)) as (_ & W & _). destruct (random_quat_facts a' b' c' ltac:(lra)) as (_ & W' & _).
  assert (a = a') as <-. { rewrite <- W, <- W'. change (random_quaternion ra sin cos a b c) with (quaternion_drawn a b c). change (random_quaternion ra sin cos a' b' c') with (quaternion_drawn a' b' c'). now rewrite E. }
  rewrite !drawn in E. injection E as E1 E2 E3 E4.
  assert (0 < sqrt a) by (apply sqrt_lt_R0; lra). assert (0 < sqrt (1 - a)) by (apply sqrt_lt_R0; lra).
  split; [reflexivity|]. split; apply turns_equal; auto; eapply Rmult_eq_reg_r; try eassumption; lra.
Qed.
Lemma quaternion_covers q : unit q -> (qx q <> 0 \/ qy q <> 0) -> (qz q <> 0 \/ qw q <> 0) ->
  exists a b c, 0 < a < 1 /\ 0 <= b < 1 /\ 0 <= c < 1 /\ quaternion_drawn a b c = q.
Proof.
  intros U N M. destruct (random_quat_reaches q U N) as (a & b & c & A & B & C & E). exists a, b, c. split; [|auto].
  destruct (random_quat_facts a b c ltac:(lra)) as (_ & W & _). rewrite E in W. split; [|lra]. destruct M; nra.
Qed.

(** ** Euler angles *)
Lemma rpy_is r p y : QuaternionFromRPY ra sin cos r p y = mkQuat
  (cos (r / 2) * cos (p / 2) * cos (y / 2) - sin (r / 2) * sin (p / 2) * sin (y / 2))
  (sin (r / 2) * cos (p / 2) * cos (y / 2) + cos (r / 2) * sin (p / 2) * sin (y / 2))
  (cos (r / 2) * sin (p / 2) * cos (y / 2) - sin (r / 2) * cos (p / 2) * sin (y / 2))
  (cos (r / 2) * cos (p / 2) * sin (y / 2) + sin (r / 2) * sin (p / 2) * cos (y / 2)).
Proof.
  unfold QuaternionFromRPY, q_mul, q_of_angle_axis, unit_x, unit_y, unit_z. ra_simpl. cbn [qw qx qy qz].
  replace (1 / 2 * r) with (r / 2) by field. replace (1 / 2 * p) with (p / 2) by field. replace (1 / 2 * y) with (y / 2) by field. f_equal; ring.
Qed.
Lemma urdf_is r p y : QuaternionFromUrdfRPY ra sin cos r p y = mkQuat
  (cos (r / 2) * cos (p / 2) * cos (y / 2) + sin (r / 2) * sin (p / 2) * sin (y / 2))
  (sin (r / 2) * cos (p / 2) * cos (y / 2) - cos (r / 2) * sin (p / 2) * sin (y / 2))
  (cos (r / 2) * sin (p / 2) * cos (y / 2) + sin (r / 2) * cos (p / 2) * sin (y / 2))
  (cos (r / 2) * cos (p / 2) * sin (y / 2) - sin (r / 2) * sin (p / 2) * cos (y / 2)).
Proof.
  unfold QuaternionFromUrdfRPY, q_mul, q_of_angle_axis, unit_x, unit_y, unit_z. ra_simpl. cbn [qw qx qy qz].
  replace (1 / 2 * r) with (r / 2) by field. replace (1 / 2 * p) with (p / 2) by field. replace (1 / 2 * y) with (y / 2) by field. f_equal; ring.
Qed.
(** Near a draw that is no end of the range and not the one at which the pitch jumps, the pitch is
    the angle drawn plus a multiple of a half turn. *)
Definition shift (b c : R) : R := if Rlt_dec c (1 / 2) then (if Rlt_dec (1 / 2) b then - PI else PI) else 0.
Lemma angles_are a b c d : 0 < b < 1 -> (c < 1 / 2 -> b <> 1 / 2) ->
  angles_drawn a b c d = (2 * PI * a - PI, acos (1 - 2 * b) + PI / 2 + shift b c, 2 * PI * d - PI).
Proof.
  intros B N. unfold angles_drawn, GenerateUniformRandomEulerAngles, next. cbn [hd tl fst]. unfold random_euler. ra_simpl. unfold shift.
  pose proof PI_RGT_0 as P. destruct (Rlt_dec c (1 / 2)) as [C|C].
  - rewrite Rlt_bool_true by exact C. assert (A : cos (acos (1 - 2 * b)) = 1 - 2 * b) by (apply cos_acos; lra). pose proof (acos_bound (1 - 2 * b)) as Bo.
    destruct (Rlt_dec (1 / 2) b) as [D|D].
    + rewrite Rlt_bool_false; [f_equal; f_equal; lra|]. destruct (Rlt_or_le (acos (1 - 2 * b) + PI / 2) PI) as [L|L]; [|lra]. exfalso.
      assert (0 < cos (acos (1 - 2 * b))) by (apply cos_gt_0; lra). lra.
    + rewrite Rlt_bool_true; [f_equal; f_equal; lra|]. destruct (Rlt_or_le (acos (1 - 2 * b) + PI / 2) PI) as [L|L]; [lra|]. exfalso. specialize (N C).
      assert (cos (acos (1 - 2 * b)) <= 0) by (apply cos_le_0; lra). lra.
  - rewrite Rlt_bool_false by lra. f_equal. f_equal. lra.
Qed.
Definition pitch (b c : R) : R := acos (1 - 2 * b) + PI / 2 + shift b c.
Definition root (b : R) : R := sqrt (1 - (1 - 2 * b) * (1 - 2 * b)).
Lemma shift_near b c : 0 < b < 1 -> (c < 1 / 2 -> b <> 1 / 2) -> locally b (fun t => 0 < t < 1 /\ (c < 1 / 2 -> t <> 1 / 2) /\ shift t c = shift b c).
Proof.
  intros B N. unfold shift. destruct (Rlt_dec c (1 / 2)) as [C|C].
  - specialize (N C). destruct (Rlt_dec (1 / 2) b) as [D|D].
    + assert (E : 0 < Rmin (b - 1 / 2) (1 - b)) by (apply Rmin_glb_lt; lra). exists (mkposreal _ E). intros t T. unfold ball in T. cbn in T. unfold AbsRing_ball, abs, minus, plus, opp in T. cbn in T.
      apply Rabs_def2 in T. pose proof (Rmin_l (b - 1 / 2) (1 - b)). pose proof (Rmin_r (b - 1 / 2) (1 - b)). split; [lra|]. split; [intros; lra|]. destruct (Rlt_dec (1 / 2) t); [reflexivity|lra].
    + assert (E : 0 < Rmin (1 / 2 - b) b) by (apply Rmin_glb_lt; lra). exists (mkposreal _ E). intros t T. unfold ball in T. cbn in T. unfold AbsRing_ball, abs, minus, plus, opp in T. cbn in T.
      apply Rabs_def2 in T. pose proof (Rmin_l (1 / 2 - b) b). pose proof (Rmin_r (1 / 2 - b) b). split; [lra|]. split; [intros; lra|]. destruct (Rlt_dec (1 / 2) t); [lra|reflexivity].
  - assert (E : 0 < Rmin (1 - b) b) by (apply Rmin_glb_lt; lra). exists (mkposreal _ E). intros t T. unfold ball in T. cbn in T. unfold AbsRing_ball, abs, minus, plus, opp in T. cbn in T.
    apply Rabs_def2 in T. pose proof (Rmin_l (1 - b) b). pose proof (Rmin_r (1 - b) b). split; [lra|]. split; [intros; lra|reflexivity].
Qed.
Lemma root_pos b : 0 < b < 1 -> 0 < root b. Proof. intros B. apply sqrt_lt_R0. nra. Qed.
Lemma pitch_derive b c : 0 < b < 1 -> (c < 1 / 2 -> b <> 1 / 2) -> is_derive (fun t => pitch t c) b (2 / root b).
Proof.
  intros B N. apply (is_derive_ext_loc (fun t => acos (1 - 2 * t) + PI / 2 + shift b c)).
  { eapply filter_imp; [|exact (shift_near b c B N)]. intros t (_ & _ & E). unfold pitch. now rewrite E. }
  assert (D : is_derive acos (1 - 2 * b) (-1 / sqrt (1 - (1 - 2 * b)²))) by (apply is_derive_Reals; rewrite <- (derive_pt_acos (1 - 2 * b) ltac:(lra)); eapply derive_pt_eq_1; reflexivity).
  pose proof (root_pos b B) as P. unfold root in *. unfold Rsqr in D.
  evar_last.
  - apply (is_derive_plus (fun t => acos (1 - 2 * t) + PI / 2)); [apply (is_derive_plus (fun t => acos (1 - 2 * t)))|].
    + apply (is_derive_comp acos (fun t => 1 - 2 * t)); [exact D|auto_derive; [exact I|reflexivity]].
    + apply is_derive_const.
    + apply is_derive_const.
  - unfold scal, plus, zero. cbn. unfold mult. cbn. field. lra.
Qed.
Lemma cos_pitch b c : 0 < b < 1 -> (c < 1 / 2 -> b <> 1 / 2) -> cos (pitch b c) * cos (pitch b c) = root b * root b.
Proof.
  intros B N. assert (A : cos (acos (1 - 2 * b)) = 1 - 2 * b) by (apply cos_acos; lra). unfold root. rewrite sqrt_sqrt by nra.
  assert (S : sin (acos (1 - 2 * b)) * sin (acos (1 - 2 * b)) = 1 - (1 - 2 * b) * (1 - 2 * b)) by (rewrite sqr_sc, A; reflexivity).
  rewrite <- S. unfold pitch, shift. set (x := acos (1 - 2 * b)).
  assert (E : cos (x + PI / 2) = - sin x) by (rewrite cos_plus, cos_PI2, sin_PI2; ring).
  assert (F : sin (x + PI / 2) = cos x) by (rewrite sin_plus, cos_PI2, sin_PI2; ring).
  destruct (Rlt_dec c (1 / 2)); [destruct (Rlt_dec (1 / 2) b)|].
  - rewrite cos_plus, E, cos_neg, sin_neg, cos_PI, sin_PI. ring.
  - rewrite cos_plus, E, cos_PI, sin_PI. ring.
  - rewrite Rplus_0_r, E. ring.
Qed.

(** The Gram determinant of the three derivatives. *)
Lemma gram_rpy (k : R) (r p y v : R) : k * k = 1 ->
  let cr := cos (r / 2) in let sr := sin (r / 2) in let cp := cos (p / 2) in let sp := sin (p / 2) in let cy := cos (y / 2) in let sy := sin (y / 2) in
  squared_volume
    (mkQuat (PI * (- sr * cp * cy - k * (cr * sp * sy))) (PI * (cr * cp * cy - k * (sr * sp * sy))) (PI * (- sr * sp * cy - k * (cr * cp * sy))) (PI * (- sr * cp * sy + k * (cr * sp * cy))))
    (mkQuat (v / 2 * (- cr * sp * cy - k * (sr * cp * sy))) (v / 2 * (- sr * sp * cy + k * (cr * cp * sy))) (v / 2 * (cr * cp * cy + k * (sr * sp * sy))) (v / 2 * (- cr * sp * sy + k * (sr * cp * cy))))
    (mkQuat (PI * (- cr * cp * sy - k * (sr * sp * cy))) (PI * (- sr * cp * sy + k * (cr * sp * cy))) (PI * (- cr * sp * sy - k * (sr * cp * cy))) (PI * (cr * cp * cy - k * (sr * sp * sy)))) =
  PI * PI * (PI * PI) * (v * v / 4) * (cos p * cos p).
Proof.
  intros K cr sr cp sp cy sy.
  assert (Er : sr * sr = 1 - cr * cr) by apply sqr_sc. assert (Ep : sp * sp = 1 - cp * cp) by apply sqr_sc. assert (Ey : sy * sy = 1 - cy * cy) by apply sqr_sc.
  assert (C : cos p = cp * cp - sp * sp). { replace p with (2 * (p / 2)) at 1 by field. apply cos_2a. }
  rewrite C. clearbody cr sr cp sp cy sy.
  unfold squared_volume, dotq. cbn [qw qx qy qz]. set (P := PI). clearbody P.
  set (x0 := - sr * cp * cy - k * (cr * sp * sy)). set (x1 := cr * cp * cy - k * (sr * sp * sy)). set (x2 := - sr * sp * cy - k * (cr * cp * sy)). set (x3 := - sr * cp * sy + k * (cr * sp * cy)).
  set (y0 := - cr * sp * cy - k * (sr * cp * sy)). set (y1 := - sr * sp * cy + k * (cr * cp * sy)). set (y2 := cr * cp * cy + k * (sr * sp * sy)). set (y3 := - cr * sp * sy + k * (sr * cp * cy)).
  set (z0 := - cr * cp * sy - k * (sr * sp * cy)). set (z2 := - cr * sp * sy - k * (sr * cp * cy)).
  assert (XX : x0 * x0 + x1 * x1 + x2 * x2 + x3 * x3 = 1) by (unfold x0, x1, x2, x3; ring [K Er Ep Ey]).
  assert (YY : y0 * y0 + y1 * y1 + y2 * y2 + y3 * y3 = 1) by (unfold y0, y1, y2, y3; ring [K Er Ep Ey]).
  assert (ZZ : z0 * z0 + x3 * x3 + z2 * z2 + x1 * x1 = 1) by (unfold z0, x1, x3, z2; ring [K Er Ep Ey]).
  assert (XY : x0 * y0 + x1 * y1 + x2 * y2 + x3 * y3 = 0) by (unfold x0, x1, x2, x3, y0, y1, y2, y3; ring [K Er Ep Ey]).
  assert (YZ : y0 * z0 + y1 * x3 + y2 * z2 + y3 * x1 = 0) by (unfold z0, x1, x3, z2, y0, y1, y2, y3; ring [K Er Ep Ey]).
  assert (XZ : x0 * z0 + x1 * x3 + x2 * z2 + x3 * x1 = 2 * k * (cp * sp)) by (unfold x0, x1, x2, x3, z0, z2; ring [K Er Ep Ey]).
  clearbody x0 x1 x2 x3 y0 y1 y2 y3 z0 z2.
  replace (P * x0 * (P * x0) + P * x1 * (P * x1) + P * x2 * (P * x2) + P * x3 * (P * x3)) with (P * P) by (rewrite <- (Rmult_1_r (P * P)), <- XX; ring).
  replace (P * z0 * (P * z0) + P * x3 * (P * x3) + P * z2 * (P * z2) + P * x1 * (P * x1)) with (P * P) by (rewrite <- (Rmult_1_r (P * P)), <- ZZ; ring).
  replace (v / 2 * y0 * (v / 2 * y0) + v / 2 * y1 * (v / 2 * y1) + v / 2 * y2 * (v / 2 * y2) + v / 2 * y3 * (v / 2 * y3)) with (v * v / 4) by (rewrite <- (Rmult_1_r (v * v / 4)), <- YY; field).
  replace (P * x0 * (v / 2 * y0) + P * x1 * (v / 2 * y1) + P * x2 * (v / 2 * y2) + P * x3 * (v / 2 * y3)) with 0 by (rewrite <- (Rmult_0_r (P * (v / 2))), <- XY; field).
  replace (v / 2 * y0 * (P * z0) + v / 2 * y1 * (P * x3) + v / 2 * y2 * (P * z2) + v / 2 * y3 * (P * x1)) with 0 by (rewrite <- (Rmult_0_r (P * (v / 2))), <- YZ; field).
  replace (P * x0 * (P * z0) + P * x1 * (P * x3) + P * x2 * (P * z2) + P * x3 * (P * x1)) with (P * P * (2 * k * (cp * sp))) by (rewrite <- XZ; ring).
  generalize (v * v / 4). intros w. ring [K Ep].
Qed.
Definition euler_quat (k r p y : R) : quat R := mkQuat
  (cos (r / 2) * cos (p / 2) * cos (y / 2) - k * (sin (r / 2) * sin (p / 2) * sin (y / 2)))
  (sin (r / 2) * cos (p / 2) * cos (y / 2) + k * (cos (r / 2) * sin (p / 2) * sin (y / 2)))
  (cos (r / 2) * sin (p / 2) * cos (y / 2) - k * (sin (r / 2) * cos (p / 2) * sin (y / 2)))
  (cos (r / 2) * cos (p / 2) * sin (y / 2) + k * (sin (r / 2) * sin (p / 2) * cos (y / 2))).
Definition euler_drawn (k a b c d : R) : quat R := let '(r, p, y) := angles_drawn a b c d in euler_quat k r p y.
Lemma euler_volume k a b c d : k * k = 1 -> 0 < b < 1 -> (c < 1 / 2 -> b <> 1 / 2) -> stretches_volume (fun a b d => euler_drawn k a b c d) a b d (PI * PI).
Proof.
  intros K B N.
  assert (ED : forall a b d, 0 < b < 1 -> (c < 1 / 2 -> b <> 1 / 2) -> euler_drawn k a b c d = euler_quat k (2 * PI * a - PI) (pitch b c) (2 * PI * d - PI)).
  { intros a' b' d' B' N'. unfold euler_drawn. now rewrite angles_are. }
  pose proof (gram_rpy k (2 * PI * a - PI) (pitch b c) (2 * PI * d - PI) (2 / root b) K) as G. cbv zeta in G.
  pose proof (root_pos b B) as RP.
  match type of G with squared_volume ?x ?y ?z = _ => exists x, y, z end.
  split; [|split; [|split; [|split]]]; [| | |pose proof PI_RGT_0; nra|rewrite G, cos_pitch by assumption; field; lra]; clear G.
  - unfold velocity. cbn [qw qx qy qz]. repeat split; apply is_derive_Reals; (eapply is_derive_ext; [intros t; rewrite ED by assumption; unfold euler_quat; cbn [qw qx qy qz]; reflexivity|]);
      auto_derive; try exact I; replace ((2 * PI * a + - PI) * / 2) with ((2 * PI * a - PI) / 2) by (unfold Rdiv, Rminus; ring); field.
  - pose proof (pitch_derive b c B N) as D.
    assert (C : forall (F : R -> R) (l : R) (g : R -> R), is_derive F (pitch b c) l -> (forall t, 0 < t < 1 -> (c < 1 / 2 -> t <> 1 / 2) -> F (pitch t c) = g t) -> is_derive g b (2 / root b * l)).
    { intros F l g HF HG. apply (is_derive_ext_loc (fun t => F (pitch t c))).
      - eapply filter_imp; [|exact (shift_near b c B N)]. intros t (T & T' & _). now apply HG.
      - exact (is_derive_comp F (fun t => pitch t c) b l _ HF D). }
    unfold velocity. cbn [qw qx qy qz]. repeat split; apply is_derive_Reals.
    + evar_last; [apply (C (fun p => qw (euler_quat k (2 * PI * a - PI) p (2 * PI * d - PI))))|].
      * unfold euler_quat. cbn [qw]. auto_derive; [exact I|reflexivity].
      * intros t T T'. now rewrite ED.
      * change (pitch b c * / 2) with (pitch b c / 2). field. lra.
    + evar_last; [apply (C (fun p => qx (euler_quat k (2 * PI * a - PI) p (2 * PI * d - PI))))|].
      * unfold euler_quat. cbn [qx]. auto_derive; [exact I|reflexivity].
      * intros t T T'. now rewrite ED.
      * change (pitch b c * / 2) with (pitch b c / 2). field. lra.
    + evar_last; [apply (C (fun p => qy (euler_quat k (2 * PI * a - PI) p (2 * PI * d - PI))))|].
      * unfold euler_quat. cbn [qy]. auto_derive; [exact I|reflexivity].
      * intros t T T'. now rewrite ED.
      * change (pitch b c * / 2) with (pitch b c / 2). field. lra.
    + evar_last; [apply (C (fun p => qz (euler_quat k (2 * PI * a - PI) p (2 * PI * d - PI))))|].
      * unfold euler_quat. cbn [qz]. auto_derive; [exact I|reflexivity].
      * intros t T T'. now rewrite ED.
      * change (pitch b c * / 2) with (pitch b c / 2). field. lra.
  - unfold velocity. cbn [qw qx qy qz]. repeat split; apply is_derive_Reals; (eapply is_derive_ext; [intros t; rewrite ED by assumption; unfold euler_quat; cbn [qw qx qy qz]; reflexivity|]);
      auto_derive; try exact I; replace ((2 * PI * d + - PI) * / 2) with ((2 * PI * d - PI) / 2) by (unfold Rdiv, Rminus; ring); field.
Qed.

Lemma rotation_is a b c d : rotation_drawn a b c d = euler_drawn 1 a b c d.
Proof. unfold rotation_drawn, euler_drawn. destruct (angles_drawn a b c d) as [[r p] y]. change real_arith with ra. rewrite rpy_is. unfold euler_quat. f_equal; ring. Qed.
Lemma urdf_rotation_is a b c d : urdf_rotation_drawn a b c d = euler_drawn (-1) a b c d.
Proof. unfold urdf_rotation_drawn, euler_drawn. destruct (angles_drawn a b c d) as [[r p] y]. change real_arith with ra. rewrite urdf_is. unfold euler_quat. f_equal; ring. Qed.
Lemma velocity_ext f g x v : (forall t, f t = g t) -> velocity f x v -> velocity g x v.
Proof.
  intros E (A & B & C & D). unfold velocity. repeat split; apply is_derive_Reals.
  - apply is_derive_ext with (f := fun t => qw (f t)); [intros; now rewrite E|now apply is_derive_Reals].
  - apply is_derive_ext with (f := fun t => qx (f t)); [intros; now rewrite E|now apply is_derive_Reals].
  - apply is_derive_ext with (f := fun t => qy (f t)); [intros; now rewrite E|now apply is_derive_Reals].
  - apply is_derive_ext with (f := fun t => qz (f t)); [intros; now rewrite E|now apply is_derive_Reals].
Qed.
Lemma stretches_ext f g x y z v : (forall a b c, f a b c = g a b c) -> stretches_volume f x y z v -> stretches_volume g x y z v.
Proof. intros E (d & e & k & A & B & C & D). exists d, e, k. repeat split; try tauto; eapply velocity_ext; try eassumption; intros; apply E. Qed.
Lemma rpy_volume a b c d : 0 < b < 1 -> (c < 1 / 2 -> b <> 1 / 2) -> stretches_volume (fun a b d => rotation_drawn a b c d) a b d (PI * PI).
Proof. intros B N. apply (stretches_ext (fun a b d => euler_drawn 1 a b c d)); [intros; now rewrite rotation_is|]. apply euler_volume; auto. ring. Qed.
Lemma urdf_volume a b c d : 0 < b < 1 -> (c < 1 / 2 -> b <> 1 / 2) -> stretches_volume (fun a b d => urdf_rotation_drawn a b c d) a b d (PI * PI).
Proof. intros B N. apply (stretches_ext (fun a b d => euler_drawn (-1) a b c d)); [intros; now rewrite urdf_rotation_is|]. apply euler_volume; auto. ring. Qed.

Ltac entrywise := repeat match goal with |- (_, _) = (_, _) => apply f_equal2 end.
(** ** Every rotation once *)
Definition side (c : R) : R := if Rlt_dec c (1 / 2) then -1 else 1.
Lemma side_sqr c : side c = -1 \/ side c = 1. Proof. unfold side. destruct (Rlt_dec c (1 / 2)); auto. Qed.
Lemma angles_trig a b c d : 0 < b < 1 -> exists p, angles_drawn a b c d = (2 * PI * a - PI, p, 2 * PI * d - PI) /\ sin p = side c * (1 - 2 * b) /\ cos p = - side c * root b.
Proof.
  intros B. assert (A : cos (acos (1 - 2 * b)) = 1 - 2 * b) by (apply cos_acos; lra).
  assert (S : sin (acos (1 - 2 * b)) = root b).
  { unfold root. rewrite sin_acos by lra. reflexivity. }
  unfold angles_drawn, GenerateUniformRandomEulerAngles, next. cbn [hd tl fst]. unfold random_euler. ra_simpl. eexists. split; [reflexivity|].
  set (x := acos (1 - 2 * b)) in *. unfold side.
  assert (E : cos (x + PI / 2) = - sin x) by (rewrite cos_plus, cos_PI2, sin_PI2; ring).
  assert (F : sin (x + PI / 2) = cos x) by (rewrite sin_plus, cos_PI2, sin_PI2; ring).
  destruct (Rlt_dec c (1 / 2)) as [C|C].
  - rewrite Rlt_bool_true by exact C. destruct (Rlt_bool (x + PI / 2) PI).
    + rewrite (sin_plus (x + PI / 2) PI), (cos_plus (x + PI / 2) PI), E, F, cos_PI, sin_PI, A, S. split; ring.
    + rewrite (sin_minus (x + PI / 2) PI), (cos_minus (x + PI / 2) PI), E, F, cos_PI, sin_PI, A, S. split; ring.
  - rewrite Rlt_bool_false by lra. rewrite E, F, A, S. split; ring.
Qed.
Lemma cos_off a : cos (2 * PI * a - PI) = - cos (2 * PI * a). Proof. rewrite cos_minus, cos_PI, sin_PI. ring. Qed.
Lemma sin_off a : sin (2 * PI * a - PI) = - sin (2 * PI * a). Proof. rewrite sin_minus, cos_PI, sin_PI. ring. Qed.
Lemma rpy_rotates r p y : rotates (QuaternionFromRPY ra sin cos r p y) (mul3 (mul3 (rot_x r) (rot_y p)) (rot_z y)).
Proof. rewrite <- rpy_matrix. apply toRot_rotates, rpy_unit. Qed.
Lemma urdf_rotates r p y : rotates (QuaternionFromUrdfRPY ra sin cos r p y) (mul3 (mul3 (rot_z y) (rot_y p)) (rot_x r)).
Proof. rewrite <- urdf_matrix. apply toRot_rotates, urdf_unit. Qed.
Lemma off_equal a a' : 0 <= a < 1 -> 0 <= a' < 1 -> cos (2 * PI * a - PI) = cos (2 * PI * a' - PI) -> sin (2 * PI * a - PI) = sin (2 * PI * a' - PI) -> a = a'.
Proof. rewrite !cos_off, !sin_off. intros. apply turns_equal; auto; lra. Qed.
Lemma solved r p y r' p' y' : cos p = cos p' -> cos p <> 0 -> cos p * cos y = cos p' * cos y' -> cos p * sin y = cos p' * sin y' -> cos p * cos r = cos p' * cos r' -> cos p * sin r = cos p' * sin r' ->
  cos y = cos y' /\ sin y = sin y' /\ cos r = cos r' /\ sin r = sin r'.
Proof. intros E N. rewrite <- E. intros A B C D. repeat split; eapply Rmult_eq_reg_l; eassumption. Qed.
Lemma rpy_once a b c d a' b' c' d' m : (c < 1 / 2 <-> c' < 1 / 2) -> 0 <= a < 1 -> 0 < b < 1 -> 0 <= d < 1 -> 0 <= a' < 1 -> 0 < b' < 1 -> 0 <= d' < 1 ->
  rotates (rotation_drawn a b c d) m -> rotates (rotation_drawn a' b' c' d') m -> a = a' /\ b = b' /\ d = d'.
Proof.
  intros HC HA HB HD HA' HB' HD'. assert (SE : side c = side c') by (unfold side; destruct (Rlt_dec c (1 / 2)), (Rlt_dec c' (1 / 2)); tauto).
  destruct (angles_trig a b c d HB) as (p & E & Sp & Cp). destruct (angles_trig a' b' c' d' HB') as (p' & E' & Sp' & Cp').
  unfold rotation_drawn. rewrite E, E'. intros M M'. pose proof (rotates_unique _ _ _ M (rpy_rotates _ _ _)) as Q. pose proof (rotates_unique _ _ _ M' (rpy_rotates _ _ _)) as Q'.
  rewrite Q in Q'. clear Q M M'. unfold mul3, rot_x, rot_y, rot_z, transpose3, dot3 in Q'. injection Q' as Q1 Q2 Q3 _ _ Q6 _ _ Q9.
  rewrite <- SE in *. pose proof (root_pos b HB) as Rb. assert (b = b') as <- by (destruct (side_sqr c) as [S|S]; rewrite S in *; lra).
  assert (CE : cos p = cos p') by congruence. assert (N : cos p <> 0) by (rewrite Cp; destruct (side_sqr c) as [S|S]; rewrite S; lra).
  destruct (solved (2 * PI * a - PI) p (2 * PI * d - PI) (2 * PI * a' - PI) p' (2 * PI * d' - PI)) as (A1 & A2 & A3 & A4); auto; try lra.
  split; [apply off_equal; auto|]. split; [reflexivity|apply off_equal; auto].
Qed.
Lemma urdf_once a b c d a' b' c' d' m : (c < 1 / 2 <-> c' < 1 / 2) -> 0 <= a < 1 -> 0 < b < 1 -> 0 <= d < 1 -> 0 <= a' < 1 -> 0 < b' < 1 -> 0 <= d' < 1 ->
  rotates (urdf_rotation_drawn a b c d) m -> rotates (urdf_rotation_drawn a' b' c' d') m -> a = a' /\ b = b' /\ d = d'.
Proof.
  intros HC HA HB HD HA' HB' HD'. assert (SE : side c = side c') by (unfold side; destruct (Rlt_dec c (1 / 2)), (Rlt_dec c' (1 / 2)); tauto).
  destruct (angles_trig a b c d HB) as (p & E & Sp & Cp). destruct (angles_trig a' b' c' d' HB') as (p' & E' & Sp' & Cp').
  unfold urdf_rotation_drawn. rewrite E, E'. intros M M'. pose proof (rotates_unique _ _ _ M (urdf_rotates _ _ _)) as Q. pose proof (rotates_unique _ _ _ M' (urdf_rotates _ _ _)) as Q'.
  rewrite Q in Q'. clear Q M M'. unfold mul3, rot_x, rot_y, rot_z, transpose3, dot3 in Q'. injection Q' as Q1 _ _ Q4 _ _ Q7 Q8 Q9.
  rewrite <- SE in *. pose proof (root_pos b HB) as Rb. assert (b = b') as <- by (destruct (side_sqr c) as [S|S]; rewrite S in *; lra).
  assert (CE : cos p = cos p') by congruence. assert (N : cos p <> 0) by (rewrite Cp; destruct (side_sqr c) as [S|S]; rewrite S; lra).
  destruct (solved (2 * PI * a - PI) p (2 * PI * d - PI) (2 * PI * a' - PI) p' (2 * PI * d' - PI)) as (A1 & A2 & A3 & A4); auto; try lra.
  split; [apply off_equal; auto|]. split; [reflexivity|apply off_equal; auto].
Qed.

(** A draw for given angles, up to the half turns that leave the rotation as it is. *)
Lemma turn_of t : exists a, 0 <= a < 1 /\ cos (2 * PI * a - PI) = cos t /\ sin (2 * PI * a - PI) = sin t.
Proof.
  destruct (turn_spec (- sin t) (- cos t)) as (B & C & S). exists (turn (- sin t) (- cos t)). split; [exact B|]. rewrite cos_off, sin_off.
  pose proof (sqr_sc t) as Q. replace (- cos t * - cos t + - sin t * - sin t) with 1 in * by lra. rewrite sqrt_1 in *. lra.
Qed.
Lemma draw_for c r p y : cos p <> 0 -> exists a b d, 0 <= a < 1 /\ 0 < b < 1 /\ 0 <= d < 1 /\
  exists r' p' y' s, angles_drawn a b c d = (r', p', y') /\ s * s = 1 /\ sin p' = sin p /\ cos p' = s * cos p /\
    cos r' = s * cos r /\ sin r' = s * sin r /\ cos y' = s * cos y /\ sin y' = s * sin y.
Proof.
  intros N. pose proof (sqr_sc p) as Q. assert (L : -1 < sin p < 1) by (split; nra).
  set (b := (1 - side c * sin p) / 2). assert (B : 0 < b < 1) by (unfold b; destruct (side_sqr c) as [S|S]; rewrite S; lra).
  assert (E : 1 - 2 * b = side c * sin p) by (unfold b; lra).
  assert (RB : root b = Rabs (cos p)).
  { unfold root. rewrite E. replace (1 - side c * sin p * (side c * sin p)) with (cos p)²; [apply sqrt_Rsqr_abs|]. unfold Rsqr. destruct (side_sqr c) as [S|S]; rewrite S; lra. }
  set (s := if Rle_dec 0 (- side c * cos p) then 1 else -1).
  assert (SS : s * s = 1) by (unfold s; destruct (Rle_dec _ _); lra).
  assert (SC : - side c * root b = s * cos p).
  { rewrite RB. unfold s. destruct (Rle_dec 0 (- side c * cos p)) as [P|P]; destruct (side_sqr c) as [S|S]; rewrite S in *;
      (destruct (Rle_lt_dec 0 (cos p)); [rewrite Rabs_right by lra|rewrite Rabs_left by lra]); lra. }
  assert (TT : forall t, exists a, 0 <= a < 1 /\ cos (2 * PI * a - PI) = s * cos t /\ sin (2 * PI * a - PI) = s * sin t).
  { intros t. unfold s. destruct (Rle_dec 0 (- side c * cos p)) as [P|P].
    - destruct (turn_of t) as (a & A & C & S). exists a. split; [exact A|]. rewrite C, S. split; ring.
    - destruct (turn_of (t + PI)) as (a & A & C & S). exists a. split; [exact A|]. rewrite C, S, cos_plus, sin_plus, cos_PI, sin_PI. split; ring. }
  destruct (TT r) as (a & A & A1 & A2). destruct (TT y) as (d & D & D1 & D2). exists a, b, d. repeat (split; [assumption|]).
  destruct (angles_trig a b c d B) as (p' & EE & Sp & Cp). exists (2 * PI * a - PI), p', (2 * PI * d - PI), s.
  split; [exact EE|]. split; [exact SS|]. split; [rewrite Sp, E; destruct (side_sqr c) as [S|S]; rewrite S; ring|]. split; [rewrite Cp; exact SC|]. auto.
Qed.
Lemma rpy_covers c r p y : cos p <> 0 -> exists a b d, 0 <= a < 1 /\ 0 < b < 1 /\ 0 <= d < 1 /\ rotates (rotation_drawn a b c d) (mul3 (mul3 (rot_x r) (rot_y p)) (rot_z y)).
Proof.
  intros N. destruct (draw_for c r p y N) as (a & b & d & A & B & D & r' & p' & y' & s & E & SS & E1 & E2 & E3 & E4 & E5 & E6).
  exists a, b, d. repeat (split; [assumption|]). unfold rotation_drawn. rewrite E.
  replace (mul3 (mul3 (rot_x r) (rot_y p)) (rot_z y)) with (mul3 (mul3 (rot_x r') (rot_y p')) (rot_z y')); [apply rpy_rotates|].
  unfold mul3, rot_x, rot_y, rot_z, transpose3, dot3. rewrite E1, E2, E3, E4, E5, E6. entrywise; ring [SS].
Qed.
Lemma urdf_covers c r p y : cos p <> 0 -> exists a b d, 0 <= a < 1 /\ 0 < b < 1 /\ 0 <= d < 1 /\ rotates (urdf_rotation_drawn a b c d) (mul3 (mul3 (rot_z y) (rot_y p)) (rot_x r)).
Proof.
  intros N. destruct (draw_for c r p y N) as (a & b & d & A & B & D & r' & p' & y' & s & E & SS & E1 & E2 & E3 & E4 & E5 & E6).
  exists a, b, d. repeat (split; [assumption|]). unfold urdf_rotation_drawn. rewrite E.
  replace (mul3 (mul3 (rot_z y) (rot_y p)) (rot_x r)) with (mul3 (mul3 (rot_z y') (rot_y p')) (rot_x r')); [apply urdf_rotates|].
  unfold mul3, rot_x, rot_y, rot_z, transpose3, dot3. rewrite E1, E2, E3, E4, E5, E6. entrywise; ring [SS].
Qed.
Lemma matrix_angles m : is_rotation m -> exists r p y, m = mul3 (mul3 (rot_x r) (rot_y p)) (rot_z y).
Proof. intros H. pose proof (euler_round_trip m H) as E. destruct (eulerAngles ra sin cos Ratan2 m) as [[r p] y]. exists r, p, y. now symmetry. Qed.
Lemma transpose_rotation m : is_rotation m -> is_rotation (transpose3 m).
Proof.
  intros H. destruct (matrix_angles m H) as (r & p & y & ->). pose proof (urdf_unit (- r) (- p) (- y)) as U. pose proof (toRot_rotation _ U) as T. rewrite urdf_matrix in T.
  replace (transpose3 (mul3 (mul3 (rot_x r) (rot_y p)) (rot_z y))) with (mul3 (mul3 (rot_z (- y)) (rot_y (- p))) (rot_x (- r))); [exact T|].
  unfold mul3, rot_x, rot_y, rot_z, transpose3, dot3. rewrite !cos_neg, !sin_neg. entrywise; ring.
Qed.
Lemma matrix_angles_urdf m : is_rotation m -> exists r p y, m = mul3 (mul3 (rot_z y) (rot_y p)) (rot_x r).
Proof.
  intros H. destruct (matrix_angles _ (transpose_rotation m H)) as (r & p & y & E). exists (- r), (- p), (- y).
  replace m with (transpose3 (transpose3 m)) by (destruct m as [[[[? ?] ?] [[? ?] ?]] [[? ?] ?]]; reflexivity). rewrite E.
  unfold mul3, rot_x, rot_y, rot_z, transpose3, dot3. rewrite !cos_neg, !sin_neg. entrywise; ring.
Qed.
Lemma sin_pm p : cos p = 0 -> sin p = 1 \/ sin p = -1.
Proof. intros E. pose proof (sqr_sc p) as Q. rewrite E in Q. destruct (Rle_lt_dec 0 (sin p)); [left|right]; nra. Qed.
Lemma rpy_all c m : is_rotation m -> apply3 m (0, 0, 1) <> (1, 0, 0) -> apply3 m (0, 0, 1) <> (-1, 0, 0) ->
  exists a b d, 0 <= a < 1 /\ 0 < b < 1 /\ 0 <= d < 1 /\ rotates (rotation_drawn a b c d) m.
Proof.
  intros H N1 N2. destruct (matrix_angles m H) as (r & p & y & ->). apply rpy_covers. intros C. destruct (sin_pm p C) as [S|S]; [apply N1|apply N2];
    unfold apply3, mul3, rot_x, rot_y, rot_z, transpose3, dot3; rewrite S, C; entrywise; ring.
Qed.
Lemma urdf_all c m : is_rotation m -> apply3 m (1, 0, 0) <> (0, 0, 1) -> apply3 m (1, 0, 0) <> (0, 0, -1) ->
  exists a b d, 0 <= a < 1 /\ 0 < b < 1 /\ 0 <= d < 1 /\ rotates (urdf_rotation_drawn a b c d) m.
Proof.
  intros H N1 N2. destruct (matrix_angles_urdf m H) as (r & p & y & ->). apply urdf_covers. intros C. destruct (sin_pm p C) as [S|S]; [apply N2|apply N1];
    unfold apply3, mul3, rot_x, rot_y, rot_z, transpose3, dot3; rewrite S, C; entrywise; ring.
Qed.
