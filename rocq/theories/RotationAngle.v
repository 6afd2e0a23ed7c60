(** Angles between quaternions, distances and interpolation of RotationModel.v, in
    exact arithmetic. *)
From Coq Require Import Reals Lra Psatz Nsatz.
From Flocq Require Import Core.
From Verif Require Import Base UtilityModel MathModel MathReal MathLinModel MathLinSpec MathLinProof RotationModel RotationSpec RotationProof RotationEuler.
Local Open Scope R_scope.

(** ** Angles *)
Lemma dotq_comm p q : dotq p q = dotq q p. Proof. unfold dotq. ring. Qed.
Lemma cauchy4 a b c d e f g h : (a * e + b * f + c * g + d * h) * (a * e + b * f + c * g + d * h) <= (a * a + b * b + c * c + d * d) * (e * e + f * f + g * g + h * h).
Proof.
  assert (E : (a * a + b * b + c * c + d * d) * (e * e + f * f + g * g + h * h) - (a * e + b * f + c * g + d * h) * (a * e + b * f + c * g + d * h)
    = (a * f - b * e) ^ 2 + (a * g - c * e) ^ 2 + (a * h - d * e) ^ 2 + (b * g - c * f) ^ 2 + (b * h - d * f) ^ 2 + (c * h - d * g) ^ 2) by ring.
  pose proof (pow2_ge_0 (a * f - b * e)). pose proof (pow2_ge_0 (a * g - c * e)). pose proof (pow2_ge_0 (a * h - d * e)).
  pose proof (pow2_ge_0 (b * g - c * f)). pose proof (pow2_ge_0 (b * h - d * f)). pose proof (pow2_ge_0 (c * h - d * g)). lra.
Qed.
Lemma dotq_sq p q : unit p -> unit q -> dotq p q * dotq p q <= 1.
Proof. unfold unit, dotq. intros U V. pose proof (cauchy4 (qw p) (qx p) (qy p) (qz p) (qw q) (qx q) (qy q) (qz q)) as C. rewrite U, V in C. lra. Qed.
Lemma dotq_bound p q : unit p -> unit q -> 0 <= Rabs (dotq p q) <= 1.
Proof. intros U V. pose proof (dotq_sq p q U V). split; [apply Rabs_pos|]. apply Rabs_le. split; nra. Qed.
Lemma trace_dot p q : unit p -> unit q ->
  trace3 (mul3 (transpose3 (toRotationMatrix ra p)) (toRotationMatrix ra q)) = 4 * (dotq p q * dotq p q) - 1.
Proof.
  unfold unit, dotq. destruct p as [a b c d], q as [e f g h]. unfold trace3, mul3, transpose3, toRotationMatrix, dot3. ra_simpl. intros U V. nsatz.
Qed.
(** The angle between the rotations. *)
Definition theta (p q : quat R) : R := acos (2 * (dotq p q * dotq p q) - 1).
Lemma rotates_unique q m n : rotates q m -> rotates q n -> m = n.
Proof.
  intros A B. destruct m as [[[[m00 m01] m02] [[m10 m11] m12]] [[m20 m21] m22]], n as [[[[n00 n01] n02] [[n10 n11] n12]] [[n20 n21] n22]].
  assert (E : forall v, apply3 (m00, m01, m02, (m10, m11, m12), (m20, m21, m22)) v = apply3 (n00, n01, n02, (n10, n11, n12), (n20, n21, n22)) v).
  { intros v. specialize (A v). specialize (B v). rewrite A in B. injection B as E. apply pair3_eq; assumption. }
  pose proof (E (1, 0, 0)) as E1. pose proof (E (0, 1, 0)) as E2. pose proof (E (0, 0, 1)) as E3. unfold apply3, dot3 in E1, E2, E3.
  injection E1; injection E2; injection E3; intros. repeat apply pair3_eq; lra.
Qed.
Lemma angle_theta p q : unit p -> unit q -> angle_between (toRotationMatrix ra p) (toRotationMatrix ra q) = theta p q.
Proof. intros U V. unfold angle_between, angle_of, theta. rewrite trace_dot by assumption. f_equal. field. Qed.
Lemma quaternion_angle_iff p q t : unit p -> unit q -> (quaternion_angle p q t <-> t = theta p q).
Proof.
  intros U V. split.
  - intros (m & n & A & B & _ & _ & ->). rewrite (rotates_unique _ _ _ A (toRot_rotates p U)), (rotates_unique _ _ _ B (toRot_rotates q V)). apply angle_theta; assumption.
  - intros ->. exists (toRotationMatrix ra p), (toRotationMatrix ra q). repeat split; try apply toRot_rotates; try (apply toRot_rotation); auto. symmetry. apply angle_theta; assumption.
Qed.
Lemma theta_range p q : 0 <= theta p q <= PI. Proof. apply acos_bound. Qed.
Lemma double_acos x : 0 <= x <= 1 -> acos (2 * (x * x) - 1) = 2 * acos x /\ 0 <= acos x <= PI / 2.
Proof.
  intros H. pose proof PI_RGT_0.
  assert (B : 0 <= acos x <= PI / 2).
  { destruct (acos_bound x) as [B0 B1]. split; [exact B0|]. destruct (Rle_or_lt (acos x) (PI / 2)) as [L|L]; [exact L|]. exfalso.
    assert (cos (acos x) < 0) by (apply cos_lt_0; lra). rewrite cos_acos in H1 by lra. lra. }
  split; [|exact B]. rewrite <- (acos_cos (2 * acos x)) by lra. f_equal. rewrite cos_2a_cos, cos_acos by lra. ring.
Qed.
Lemma theta_half p q : unit p -> unit q -> theta p q = 2 * acos (Rabs (dotq p q)) /\ 0 <= acos (Rabs (dotq p q)) <= PI / 2.
Proof.
  intros U V. destruct (double_acos (Rabs (dotq p q)) (dotq_bound p q U V)) as [E B]. split; [|exact B]. rewrite <- E. unfold theta. f_equal. f_equal. f_equal.
  rewrite <- Rabs_mult. symmetry. apply Rabs_pos_eq. nra.
Qed.
Lemma sin_acos_eq x : -1 <= x <= 1 -> sin (acos x) = sqrt (1 - x * x).
Proof. intros H. rewrite sin_acos by exact H. unfold Rsqr. reflexivity. Qed.
Lemma gram p q r : unit p -> unit q -> unit r ->
  (dotq p r - dotq p q * dotq q r) * (dotq p r - dotq p q * dotq q r) <= (1 - dotq p q * dotq p q) * (1 - dotq q r * dotq q r).
Proof.
  intros U V W. set (x := dotq p q). set (z := dotq q r).
  pose proof (cauchy4 (qw p - x * qw q) (qx p - x * qx q) (qy p - x * qy q) (qz p - x * qz q) (qw r - z * qw q) (qx r - z * qx q) (qy r - z * qy q) (qz r - z * qz q)) as C.
  match type of C with ?a * ?a <= ?b * ?c =>
    replace a with (dotq p r - x * z) in C; [replace b with (1 - x * x) in C; [replace c with (1 - z * z) in C; [exact C|]|]|] end.
  - unfold unit in *. transitivity (dotq r r - 2 * z * dotq q r + z * z * dotq q q); [rewrite V, W; fold z; ring|unfold dotq; ring].
  - unfold unit in *. transitivity (dotq p p - 2 * x * dotq p q + x * x * dotq q q); [rewrite V, U; fold x; ring|unfold dotq; ring].
  - unfold unit in *. transitivity (dotq p r - z * dotq p q - x * dotq q r + x * z * dotq q q); [rewrite V; fold x z; ring|unfold dotq; ring].
Qed.
Lemma cos_le_le a b : 0 <= a <= PI -> 0 <= b <= PI -> cos b <= cos a -> a <= b.
Proof. intros A B C. destruct (Rle_or_lt a b) as [L|L]; [exact L|]. exfalso. assert (cos a < cos b) by (apply cos_decreasing_1; lra). lra. Qed.
Lemma theta_triangle p q r : unit p -> unit q -> unit r -> theta p r <= theta p q + theta q r.
Proof.
  intros U V W. destruct (theta_half p q U V) as [E1 B1], (theta_half q r V W) as [E2 B2], (theta_half p r U W) as [E3 B3].
  rewrite E1, E2, E3. pose proof PI_RGT_0.
  assert (acos (Rabs (dotq p r)) <= acos (Rabs (dotq p q)) + acos (Rabs (dotq q r))); [|lra].
  pose proof (dotq_bound p q U V). pose proof (dotq_bound q r V W). pose proof (dotq_bound p r U W).
  apply cos_le_le; [lra|lra|]. rewrite cos_plus, !cos_acos, !sin_acos_eq by lra.
  assert (SQ : forall x, Rabs x * Rabs x = x * x) by (intros x; rewrite <- Rabs_mult; apply Rabs_pos_eq; nra). rewrite !SQ.
  pose proof (dotq_sq p q U V). pose proof (dotq_sq q r V W).
  rewrite <- sqrt_mult by lra.
  assert (G : Rabs (dotq p r - dotq p q * dotq q r) <= sqrt ((1 - dotq p q * dotq p q) * (1 - dotq q r * dotq q r))).
  { rewrite <- sqrt_Rsqr_abs. apply sqrt_le_1_alt. unfold Rsqr. apply gram; assumption. }
  rewrite <- Rabs_mult. pose proof (Rabs_triang_inv (dotq p q * dotq q r) (dotq p r)) as T. rewrite (Rabs_minus_sym (dotq p q * dotq q r)) in T. lra.
Qed.
Lemma theta_self p : unit p -> theta p p = 0.
Proof. unfold unit, theta. intros ->. replace (2 * (1 * 1) - 1) with 1 by ring. apply acos_1. Qed.
Lemma theta_opp p q : theta p (oppq q) = theta p q /\ theta (oppq p) q = theta p q.
Proof. unfold theta. split; f_equal; f_equal; f_equal; unfold dotq, oppq; ra_simpl; ring. Qed.
Lemma theta_sym p q : theta p q = theta q p. Proof. unfold theta. rewrite dotq_comm. reflexivity. Qed.
Lemma dotq_mul_l r p q : unit r -> dotq (q_mul ra r p) (q_mul ra r q) = dotq p q.
Proof. unfold unit. intros U. transitivity (dotq r r * dotq p q); [unfold dotq, q_mul; ra_simpl; ring|rewrite U; ring]. Qed.
Lemma dotq_mul_r r p q : unit r -> dotq (q_mul ra p r) (q_mul ra q r) = dotq p q.
Proof. unfold unit. intros U. transitivity (dotq r r * dotq p q); [unfold dotq, q_mul; ra_simpl; ring|rewrite U; ring]. Qed.
(** Equal rotations: quaternions equal up to sign. *)
Lemma dotq_one p q : unit p -> unit q -> dotq p q = 1 -> p = q.
Proof.
  unfold unit, dotq. destruct p as [a b c d], q as [e f g h]. ra_simpl. intros U V W.
  assert (Z : (a - e) ^ 2 + (b - f) ^ 2 + (c - g) ^ 2 + (d - h) ^ 2 = 0) by nra.
  pose proof (pow2_ge_0 (a - e)). pose proof (pow2_ge_0 (b - f)). pose proof (pow2_ge_0 (c - g)). pose proof (pow2_ge_0 (d - h)).
  assert (Q : forall x, x ^ 2 = 0 -> x = 0) by (intros x E; destruct (Req_dec x 0); [auto|]; exfalso; apply (pow_nonzero x 2); auto).
  f_equal; apply Rminus_diag_uniq; apply Q; lra.
Qed.

(** ** Distance *)
Lemma eps_real : eps ra = / 4503599627370496. Proof. unfold eps. ra_simpl. unfold Rdiv. rewrite Rmult_1_l. reflexivity. Qed.
Lemma cos_small x : 0 <= x <= 2 -> 1 - x * x / 2 <= cos x <= 1 - x * x / 2 + x * x * (x * x) / 24.
Proof.
  intros H. destruct (pre_cos_bound x 0) as [A B]; [lra|lra|]. unfold cos_approx, cos_term in A, B. cbn in A, B. lra.
Qed.
Lemma small_angle d : 1 - eps ra <= d <= 1 -> acos (2 * (d * d) - 1) <= / 10000000.
Proof.
  rewrite eps_real. intros H. pose proof PI_RGT_0. pose proof PI2_1.
  apply cos_le_le; [apply acos_bound|lra|]. rewrite cos_acos by nra. destruct (cos_small (/ 10000000)) as [_ C]; [lra|].
  eapply Rle_trans; [exact C|]. assert (1 - 2 * / 4503599627370496 <= d * d) by nra. lra.
Qed.
Lemma dq_abs p q : qw p * qw q + qx p * qx q + qy p * qy q + qz p * qz q = dotq p q. Proof. reflexivity. Qed.
Lemma distance_cases p q : unit p -> unit q ->
  (Rabs (dotq p q) < 1 - eps ra /\ DistanceQuaternion ra acos p q = theta p q) \/
  (1 - eps ra <= Rabs (dotq p q) /\ DistanceQuaternion ra acos p q = 0 /\ theta p q <= / 10000000).
Proof.
  intros U V. unfold DistanceQuaternion. ra_simpl. rewrite dq_abs.
  assert (SQ : Rabs (dotq p q) * Rabs (dotq p q) = dotq p q * dotq p q) by (rewrite <- Rabs_mult; apply Rabs_pos_eq; nra).
  change (a_of ra 1 - eps ra) with (1 - eps ra).
  destruct (Rlt_le_dec (Rabs (dotq p q)) (1 - eps ra)) as [L|L].
  - left. split; [exact L|]. rewrite Rlt_bool_true by exact L. rewrite SQ. reflexivity.
  - right. rewrite Rlt_bool_false by exact L. repeat split; [exact L|]. unfold theta. rewrite <- SQ. apply small_angle. pose proof (dotq_bound p q U V). lra.
Qed.

(** ** Spherical interpolation *)
Lemma slerp_identity A B : sin A * sin A + sin B * sin B + 2 * sin A * sin B * cos (A + B) = sin (A + B) * sin (A + B).
Proof. rewrite cos_plus, sin_plus. pose proof (cs1 A). pose proof (cs1 B). nsatz. Qed.
Lemma slerp_first A B : sin A + sin B * cos (A + B) = cos B * sin (A + B).
Proof. rewrite cos_plus, sin_plus. pose proof (cs1 B). nsatz. Qed.
Lemma sign_abs d : (if Rlt_bool d 0 then -1 else 1) * d = Rabs d.
Proof. destruct (Rlt_le_dec d 0) as [L|L]; [rewrite Rlt_bool_true by exact L; rewrite Rabs_left by lra|rewrite Rlt_bool_false by lra; rewrite Rabs_pos_eq by lra]; ring. Qed.
Lemma dotq_comb p q a b r : dotq (q_add ra (q_scale ra a p) (q_scale ra b q)) r = a * dotq p r + b * dotq q r.
Proof. unfold dotq, q_add, q_scale. ra_simpl. ring. Qed.
Lemma q_dot_dotq p q : q_dot ra p q = dotq p q. Proof. unfold q_dot, dotq. ra_simpl. ring. Qed.
(** The main case. *)
Lemma slerp_far p q t : unit p -> unit q -> Rabs (dotq p q) < 1 - eps ra ->
  let th := acos (Rabs (dotq p q)) in
  let s := if Rlt_bool (dotq p q) 0 then -1 else 1 in
  let r := slerp ra sin acos p t q in
  unit r /\ dotq p r = cos (t * th) /\ dotq q r = s * cos ((1 - t) * th).
Proof.
  intros U V L th s r. pose proof (dotq_bound p q U V) as DB.
  assert (SINTH : 0 < sin th).
  { unfold th. rewrite sin_acos_eq by lra. apply sqrt_lt_R0. rewrite eps_real in L. nra. }
  assert (COSTH : cos th = Rabs (dotq p q)) by (unfold th; apply cos_acos; lra).
  assert (SD : s * dotq p q = cos th) by (rewrite COSTH; apply sign_abs).
  assert (SS : s * s = 1) by (unfold s; destruct (Rlt_bool (dotq p q) 0); ring).
  set (A := (1 - t) * th). set (B := t * th).
  assert (AB : A + B = th) by (unfold A, B; ring).
  assert (R : r = q_add ra (q_scale ra (sin A / sin th) p) (q_scale ra (s * (sin B / sin th)) q)).
  { unfold r, slerp. rewrite q_dot_dotq. change (aabs ra (dotq p q)) with (Rabs (dotq p q)). change (asub ra (a_of ra 1) (eps ra)) with (1 - eps ra).
    change (aleb ra (1 - eps ra) (Rabs (dotq p q))) with (Rle_bool (1 - eps ra) (Rabs (dotq p q))). rewrite Rle_bool_false by exact L. fold th.
    change (altb ra (dotq p q) (a_of ra 0)) with (Rlt_bool (dotq p q) 0). f_equal. f_equal. unfold s. change (amul ra t th) with B. ra_simpl. destruct (Rlt_bool (dotq p q) 0); ring. }
  rewrite R. clear R r. clearbody A B s th. subst th. clear L.
  unfold unit in *.
  assert (P1 : dotq (q_add ra (q_scale ra (sin A / sin (A + B)) p) (q_scale ra (s * (sin B / sin (A + B))) q)) p = cos B).
  { rewrite dotq_comb, U, (dotq_comm q p). replace (s * (sin B / sin (A + B)) * dotq p q) with (sin B / sin (A + B) * (s * dotq p q)) by ring. rewrite SD.
    replace (sin A / sin (A + B) * 1 + sin B / sin (A + B) * cos (A + B)) with ((sin A + sin B * cos (A + B)) / sin (A + B)) by (field; lra).
    rewrite slerp_first. field. lra. }
  assert (P2 : dotq (q_add ra (q_scale ra (sin A / sin (A + B)) p) (q_scale ra (s * (sin B / sin (A + B))) q)) q = s * cos A).
  { rewrite dotq_comb, V. replace (dotq p q) with (s * cos (A + B)) by (rewrite <- SD, <- Rmult_assoc, SS; ring).
    replace (sin A / sin (A + B) * (s * cos (A + B)) + s * (sin B / sin (A + B)) * 1) with (s * ((sin B + sin A * cos (B + A)) / sin (A + B))) by (rewrite (Rplus_comm B A); field; lra).
    rewrite slerp_first, (Rplus_comm B A). field. lra. }
  rewrite (dotq_comm p), (dotq_comm q). repeat split; [|exact P1|exact P2].
  rewrite dotq_comb, (dotq_comm p), (dotq_comm q), P1, P2.
  replace (sin A / sin (A + B) * cos B + s * (sin B / sin (A + B)) * (s * cos A)) with ((sin A * cos B + s * s * (cos A * sin B)) / sin (A + B)) by (field; lra).
  rewrite SS, Rmult_1_l, <- sin_plus. field. lra.
Qed.
Lemma slerp_near p q t : unit p -> unit q -> 1 - eps ra <= Rabs (dotq p q) ->
  let s := if Rlt_bool (dotq p q) 0 then -1 else 1 in
  slerp ra sin acos p t q = q_add ra (q_scale ra (1 - t) p) (q_scale ra (s * t) q).
Proof.
  intros U V L s. unfold slerp. rewrite q_dot_dotq. change (aabs ra (dotq p q)) with (Rabs (dotq p q)). change (asub ra (a_of ra 1) (eps ra)) with (1 - eps ra).
  change (aleb ra (1 - eps ra) (Rabs (dotq p q))) with (Rle_bool (1 - eps ra) (Rabs (dotq p q))). rewrite Rle_bool_true by exact L.
  change (altb ra (dotq p q) (a_of ra 0)) with (Rlt_bool (dotq p q) 0). f_equal. f_equal. unfold s. ra_simpl. destruct (Rlt_bool (dotq p q) 0); ring.
Qed.
Lemma near_norm p q t : unit p -> unit q -> 1 - eps ra <= Rabs (dotq p q) -> 0 <= t <= 1 ->
  1 - eps ra <= dotq (slerp ra sin acos p t q) (slerp ra sin acos p t q) <= 1.
Proof.
  intros U V L T. rewrite slerp_near by assumption. set (s := if Rlt_bool (dotq p q) 0 then -1 else 1).
  assert (SS : s * s = 1) by (unfold s; destruct (Rlt_bool (dotq p q) 0); ring).
  assert (SD : s * dotq p q = Rabs (dotq p q)) by apply sign_abs.
  pose proof (dotq_bound p q U V).
  rewrite dotq_comb, (dotq_comm p), (dotq_comm q), !dotq_comb. unfold unit in *. rewrite U, V, (dotq_comm q p).
  replace ((1 - t) * ((1 - t) * 1 + s * t * dotq p q) + s * t * ((1 - t) * dotq p q + s * t * 1))
    with ((1 - t) * (1 - t) + 2 * (1 - t) * t * (s * dotq p q) + s * s * (t * t)) by ring. rewrite SS, SD.
  assert (0 <= t * (1 - t)) by nra. assert (t * (1 - t) <= / 4) by (pose proof (pow2_ge_0 (t - / 2)); lra). rewrite eps_real in *. split; nra.
Qed.
Lemma slerp_zero p q : unit p -> unit q -> slerp ra sin acos p 0 q = p.
Proof.
  intros U V. destruct (Rlt_le_dec (Rabs (dotq p q)) (1 - eps ra)) as [L|L].
  - destruct (slerp_far p q 0 U V L) as (W & P & _). rewrite Rmult_0_l, cos_0 in P. symmetry. apply dotq_one; assumption.
  - rewrite slerp_near by assumption. destruct p, q. unfold q_add, q_scale. ra_simpl. f_equal; ring.
Qed.
Lemma unit_opp q : unit q -> unit (oppq q). Proof. unfold unit, dotq, oppq. ra_simpl. intros <-. ring. Qed.
Lemma slerp_one p q : unit p -> unit q -> slerp ra sin acos p 1 q = if Rlt_bool (dotq p q) 0 then oppq q else q.
Proof.
  intros U V. destruct (Rlt_le_dec (Rabs (dotq p q)) (1 - eps ra)) as [L|L].
  - destruct (slerp_far p q 1 U V L) as (W & _ & P). rewrite Rminus_diag_eq, Rmult_0_l, cos_0 in P by reflexivity. symmetry.
    destruct (Rlt_bool (dotq p q) 0).
    + apply dotq_one; [apply unit_opp; exact V|exact W|].
      replace (dotq (oppq q) (slerp ra sin acos p 1 q)) with (- dotq q (slerp ra sin acos p 1 q)) by (unfold dotq, oppq; ra_simpl; ring). rewrite P. ring.
    + apply dotq_one; [exact V|exact W|]. rewrite P. ring.
  - rewrite slerp_near by assumption. destruct (Rlt_bool (dotq p q) 0); destruct p, q; unfold q_add, q_scale, oppq; ra_simpl; f_equal; ring.
Qed.
Lemma slerp_angles p q t : unit p -> unit q -> 0 <= t <= 1 -> / 10000000 < theta p q ->
  unit (slerp ra sin acos p t q) /\ theta p (slerp ra sin acos p t q) = t * theta p q /\ theta (slerp ra sin acos p t q) q = (1 - t) * theta p q.
Proof.
  intros U V T H. destruct (distance_cases p q U V) as [[L _]|[_ [_ B]]]; [|lra].
  destruct (slerp_far p q t U V L) as (W & P & Q). split; [exact W|].
  destruct (theta_half p q U V) as [E B]. set (th := acos (Rabs (dotq p q))) in *. pose proof PI_RGT_0.
  assert (D : forall x, 0 <= x <= 1 -> acos (2 * (cos (x * th) * cos (x * th)) - 1) = x * (2 * th)).
  { intros x Hx. replace (2 * (cos (x * th) * cos (x * th)) - 1) with (cos (x * (2 * th))) by (replace (x * (2 * th)) with (2 * (x * th)) by ring; rewrite cos_2a_cos; ring).
    apply acos_cos. nra. }
  rewrite E. split.
  - unfold theta. rewrite P. apply D. exact T.
  - rewrite theta_sym. unfold theta. rewrite Q.
    match goal with |- acos (2 * (?s * ?c * (?s * ?c)) - 1) = _ => replace (s * c * (s * c)) with (c * c) by (destruct (Rlt_bool (dotq p q) 0); ring) end.
    apply D. lra.
Qed.
