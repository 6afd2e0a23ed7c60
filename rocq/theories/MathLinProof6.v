(** Planes, weighted cosines, and orthogonal vectors in double arithmetic. *)
From Coq Require Import Reals Lra Psatz.
From Flocq Require Import Core BinarySingleNaN.
From Verif Require Import Base UtilityModel Double DoubleFacts MathModel MathReal MathVec MathLinModel MathLinSpec MathLinProof.
Local Open Scope R_scope.

Lemma norm_mono u v : dot u u <= dot v v -> norm u <= norm v. Proof. apply sqrt_le_1_alt. Qed.
Lemma coef_norm b v : dot (vscale (coef b v) b) (vscale (coef b v) b) = coef b v * dot b v.
Proof. rewrite dot_scale, dot_comm, dot_scale, <- (coef_dot b v). reflexivity. Qed.
Lemma vsub_neg u v : length u = length v -> dot (vsub u v) (vsub u v) = dot (vsub v u) (vsub v u).
Proof. intros E. rewrite !dot_sub_sq by auto. rewrite (dot_comm v u). ring. Qed.

Section Plane.
Variables o n x : list R.
Hypothesis Lo : length o = length n.
Hypothesis Lx : length x = length n.
Let p := mkPlane o n.
Let v := vsub x o.
Lemma len_v : length v = length n. Proof. unfold v. rewrite vsub_length; congruence. Qed.
Definition foot : list R := vadd o (vsub v (vscale (coef n v) n)).
Lemma len_rej : length (vsub v (vscale (coef n v) n)) = length n.
Proof. rewrite vsub_length; [apply len_v|]. rewrite vscale_length. apply len_v. Qed.
Lemma foot_length : length foot = length n. Proof. unfold foot. rewrite vadd_length; [exact Lo|]. rewrite len_rej. exact Lo. Qed.
Lemma project_point : ProjectPointOntoPlane ra p x = Ok foot.
Proof.
  unfold ProjectPointOntoPlane, p. cbn [plane_origin plane_normal]. rewrite eig_sub_real by congruence. cbn [bind]. fold v.
  rewrite rejection_real by (symmetry; apply len_v). cbn [bind]. apply eig_add_real. rewrite len_rej. exact Lo.
Qed.
Lemma raw_dot : GetRawDotProduct ra p x = Ok (dot (vsub x o) n).
Proof. unfold GetRawDotProduct, p. cbn [plane_origin plane_normal]. rewrite eig_sub_real by congruence. cbn [bind]. rewrite eig_dot_real. reflexivity. Qed.
Lemma plane_dist : GetDistanceToPlane ra p x = Ok (norm (vscale (coef n v) n)) /\ GetSquaredDistanceToPlane ra p x = Ok (dot (vscale (coef n v) n) (vscale (coef n v) n)).
Proof.
  unfold GetDistanceToPlane, GetSquaredDistanceToPlane, p. cbn [plane_origin plane_normal]. rewrite eig_sub_real by congruence. cbn [bind]. fold v.
  rewrite projection_real by (symmetry; apply len_v). cbn [bind]. rewrite eig_norm_real, eig_dot_real. auto.
Qed.
Lemma foot_on : dot (vsub foot o) n = 0.
Proof. unfold foot. rewrite vsub_add_l by (rewrite len_rej; exact Lo). rewrite dot_comm. apply reject_orthogonal. symmetry. apply len_v. Qed.
Lemma foot_dist : vsub x foot = vscale (coef n v) n.
Proof.
  rewrite <- (vsub_sub x foot o); [|rewrite foot_length; exact Lx|rewrite foot_length; congruence]. unfold foot at 1. rewrite vsub_add_l by (rewrite len_rej; exact Lo). fold v.
  apply vsub_self_scale. apply len_v.
Qed.
Lemma foot_nearest y : length y = length n -> dot (vsub y o) n = 0 -> norm (vsub x foot) <= norm (vsub x y).
Proof.
  intros Ly H. rewrite foot_dist. apply norm_mono. rewrite coef_norm.
  rewrite <- (vsub_sub x y o) by congruence. fold v. set (u := vsub y o) in *.
  assert (Lu : length u = length n) by (unfold u; rewrite vsub_length; congruence).
  assert (Lvu : length (vsub v u) = length n) by (rewrite vsub_length; rewrite len_v; congruence).
  pose proof (cauchy n (vsub v u) ltac:(congruence)) as C.
  rewrite (dot_comm n (vsub v u)), dot_sub in C by (rewrite len_v; congruence). rewrite H, (dot_comm v n) in C.
  pose proof (dot_nonneg (vsub v u)). pose proof (coef_dot n v) as K. destruct (dot_pos_or n) as [P|[P Z]].
  - apply Rmult_le_reg_l with (dot n n); [exact P|]. rewrite <- Rmult_assoc, (Rmult_comm (dot n n)), K. nra.
  - rewrite P in K. rewrite <- K. lra.
Qed.
End Plane.

Lemma cosine_real u v w : length u = length v -> length u = length w -> Forall (fun z => 0 <= z) w ->
  0 < weighted_dot u u w -> 0 < weighted_dot v v w ->
  let c := weighted_dot u v w / (sqrt (weighted_dot u u w) * sqrt (weighted_dot v v w)) in
  WeightedCosineAngleBetweenVectors ra u v w = Ok c /\ -1 <= c <= 1.
Proof.
  intros E F P H1 H2 c. unfold WeightedCosineAngleBetweenVectors, WeightedNorm, WeightedSquaredNorm. rewrite !weighted_real by congruence. cbn [bind].
  change (asqrt ra) with sqrt. change (altb ra) with Rlt_bool. change (a_of ra 0) with 0. apply sqrt_lt_R0 in H1, H2.
  rewrite !Rlt_bool_true by assumption. cbn [andb].
  assert (B : -1 <= c <= 1).
  { pose proof (weighted_cauchy u v w P E F) as C. unfold c. clear c. set (a := sqrt (weighted_dot u u w)) in *. set (b := sqrt (weighted_dot v v w)) in *. assert (0 < a * b) as Q by (apply Rmult_lt_0_compat; assumption).
    apply Rabs_le_inv in C. split; [apply Rmult_le_reg_r with (a * b)|apply Rmult_le_reg_r with (a * b)]; try exact Q; unfold Rdiv; rewrite Rmult_assoc, Rinv_l by lra; lra. }
  split; [|exact B]. apply (f_equal Ok). change (adiv ra) with Rdiv. change (amul ra) with Rmult. fold c. unfold std_max, std_min. change (altb ra) with Rlt_bool. change (a_of ra 1) with 1. change (aopp ra 1) with (- 1).
  rewrite (Rlt_bool_false 1 c) by lra. destruct (Rlt_bool_spec (- 1) c); lra.
Qed.
Lemma cosine_throws u v w : length u = length v -> length u = length w -> Forall (fun z => 0 <= z) w ->
  weighted_dot u u w = 0 \/ weighted_dot v v w = 0 -> WeightedCosineAngleBetweenVectors ra u v w = Throw InvalidArgument.
Proof.
  intros E F P H. unfold WeightedCosineAngleBetweenVectors, WeightedNorm, WeightedSquaredNorm. rewrite !weighted_real by congruence. cbn [bind].
  change (asqrt ra) with sqrt. change (altb ra) with Rlt_bool. change (a_of ra 0) with 0. destruct H as [-> | ->]; rewrite sqrt_0, (Rlt_bool_false 0 0) by lra; rewrite ?Bool.andb_false_r; reflexivity.
Qed.

(** GetArbitraryOrthogonalVector of (49, 0, 0): 49 * (1/2401 rounded...) is not 1, and
    the rest that remains is taken for an orthogonal vector. *)
Definition v49 : list double := [d_of_Z 49; d0; d0].
Definition rest49 : double := binary_normalize 53 1024 eq_refl eq_refl mode_NE 1 (-53) false.
Lemma orthogonal_49 : GetArbitraryOrthogonalVector double_arith v49 = Ok [rest49; d0; d0].
Proof.
  assert (X : match GetArbitraryOrthogonalVector double_arith v49 with Ok l => map (@B2SF 53 1024) l = map (@B2SF 53 1024) [rest49; d0; d0] | _ => False end) by (vm_compute; reflexivity).
  destruct (GetArbitraryOrthogonalVector double_arith v49) as [l| | |]; try contradiction. apply (f_equal Ok).
  generalize dependent [rest49; d0; d0]. intros m. revert m. induction l as [|a l IH]; intros [|b m] X; try discriminate; [reflexivity|].
  cbn [map] in X. injection X as X1 X2. rewrite (IH m X2). f_equal. apply B2SF_inj. exact X1.
Qed.
Lemma values_49 : B2R (d_of_Z 49) = 49 /\ B2R rest49 = bpow radix2 (-53) /\ B2R d0 = 0.
Proof.
  split; [apply (d_of_Z_exact 49); lia|]. split; [|reflexivity].
  assert (S : B2SF rest49 = B2SF (binary_normalize 53 1024 eq_refl eq_refl mode_NE 4503599627370496 (-105) false)) by (vm_compute; reflexivity).
  unfold rest49. pose proof (binary_normalize_correct 53 1024 eq_refl eq_refl mode_NE 1 (-53) false) as C. cbv zeta in C. unfold F2R in C. cbn [Fnum Fexp] in C.
  change (round_mode mode_NE) with ZnearestE in C. fold fexp64 in C. change (round radix2 fexp64 ZnearestE (1 * bpow radix2 (-53))) with (rnd64 (1 * bpow radix2 (-53))) in C.
  rewrite rnd64_exact in C by lia. rewrite Rlt_bool_true in C; [destruct C as [C _]; rewrite C; ring|].
  rewrite Rmult_1_l, Rabs_pos_eq by apply bpow_ge_0. apply bpow_lt. lia.
Qed.
