(** Far tails in double arithmetic, and the samples of the truncated distribution. *)
From Coq Require Import Reals Lra Psatz.
From Coquelicot Require Import Coquelicot.
From Flocq Require Import Core BinarySingleNaN.
From Verif Require Import Base Double DoubleFacts MathModel MathReal MathDouble GaussianModel GaussianSpec GaussianErf.
Local Open Scope R_scope.

Lemma exp_quarter n : (5 / 4) ^ n <= exp (INR n * / 4).
Proof.
  induction n as [|n IH]; [cbn; rewrite Rmult_0_l, exp_0; lra|]. rewrite S_INR, Rmult_plus_distr_r, Rmult_1_l, exp_plus. cbn [pow].
  rewrite (Rmult_comm (5 / 4)). apply Rmult_le_compat; [apply pow_le; lra|lra|exact IH|]. pose proof (exp_ineq1_le (/ 4)). lra.
Qed.
Lemma exp_49 : exp (Ropp 49) <= / 2 ^ 58.
Proof.
  rewrite exp_Ropp. apply Rinv_le_contravar; [apply pow_lt; lra|]. eapply Rle_trans; [|replace 49 with (INR 196 * / 4) by (rewrite INR_IZR_INZ; change (Z.of_nat 196) with 196%Z; lra); apply exp_quarter].

  replace ((5 / 4) ^ 196) with (5 ^ 196 / 4 ^ 196) by (unfold Rdiv; rewrite Rpow_mult_distr, pow_inv; reflexivity).
  apply Rmult_le_reg_r with (4 ^ 196); [apply pow_lt; lra|]. unfold Rdiv. rewrite Rmult_assoc, Rinv_l, Rmult_1_r by (apply pow_nonzero; lra).
  rewrite !pow_IZR, <- mult_IZR. apply IZR_le. vm_compute. discriminate.
Qed.
Lemma ker_small x : 7 <= x -> RInt (fun t => ker x t) 0 1 <= / 2 ^ 58.
Proof.
  intros H. eapply Rle_trans; [|exact exp_49].
  pose proof (RInt_le (fun t => ker x t) (fun _ => exp (Ropp 49)) 0 1 ltac:(lra) (ker_int x 0 1) (ex_RInt_const 0 1 (exp (Ropp 49)))) as L.
  rewrite (RInt_const 0 1 (exp (Ropp 49)) : RInt (fun _ => exp (Ropp 49)) 0 1 = _) in L. unfold scal in L. cbn in L. unfold mult in L. cbn in L. rewrite Rminus_0_r, Rmult_1_l in L. apply L.
  intros t Ht. unfold ker. pose proof (den_pos t) as D. apply Rmult_le_reg_r with (1 + t * t); [exact D|]. unfold Rdiv. rewrite Rmult_assoc, Rinv_l, Rmult_1_r by lra.
  apply Rle_trans with (exp (Ropp 49)); [|pose proof (exp_pos (Ropp 49)); nra]. destruct (Req_dec (- (x * x) * (1 + t * t)) (Ropp 49)) as [-> |N]; [lra|]. apply Rlt_le, exp_increasing. assert (49 <= x * x) by nra. assert (0 <= t * t) by nra. nra.
Qed.
Lemma erf_tail x : 7 <= x -> 1 - / 2 ^ 57 <= error_function x < 1.
Proof.
  intros H. change (error_function x) with (erf x). split; [|apply erf_bound].
  pose proof (ker_small x H) as K. pose proof (total_const x) as E. rewrite total_0 in E. unfold total in E.
  pose proof sqrt_pi_pos as P. pose proof PI_RGT_0 as PP. pose proof (sqrt_sqrt PI ltac:(lra)) as S. pose proof PI_ineq 0 as PI3. 
  assert (P3 : 2 <= PI) by (pose proof PI2_3_2; lra).
  assert (Q : erf x * erf x = 1 - 4 / PI * RInt (fun t => ker x t) 0 1).
  { transitivity (4 / PI * (erf_int x * erf_int x)).
    - unfold erf. replace (2 / sqrt PI * erf_int x * (2 / sqrt PI * erf_int x)) with (4 / (sqrt PI * sqrt PI) * (erf_int x * erf_int x)) by (field; lra). rewrite S. reflexivity.
    - replace (erf_int x * erf_int x) with (PI / 4 - RInt (fun t => ker x t) 0 1) by lra. field. lra. }
  assert (F : 4 / PI <= 2) by (apply Rmult_le_reg_r with PI; [lra|]; unfold Rdiv; rewrite Rmult_assoc, Rinv_l by lra; lra).
  assert (F0 : 0 <= 4 / PI) by (apply Rlt_le, Rdiv_lt_0_compat; lra).
  pose proof (ker_int_pos x) as KP.
  assert (Z : 0 <= erf x) by (rewrite <- erf_0; destruct (Req_dec x 0); [lra|apply Rlt_le, erf_increasing; lra]).
  pose proof (erf_bound x). assert (W : erf x * erf x <= erf x) by nra.
  assert (M : 4 / PI * RInt (fun t => ker x t) 0 1 <= 2 * / 2 ^ 58) by (apply Rmult_le_compat; lra).
  replace (2 * / 2 ^ 58) with (/ 2 ^ 57) in M by (cbn [pow]; field). lra.
Qed.
(** A correctly rounded erf is 1 beyond 7. *)
Definition correct_erf (f : double -> double) : Prop :=
  forall x, is_finite x = true -> is_finite (f x) = true /\ B2R (f x) = rnd64 (error_function (B2R x)).
Lemma erf_one f x : correct_erf f -> is_finite x = true -> dle (d_of_Z 7) x = true -> f x = d_of_Z 1.
Proof.
  intros C F L. destruct (C x F) as [F1 V]. apply dle_R in L; [|apply (d_of_Z_exact 7); lia|exact F]. rewrite (proj1 (d_of_Z_exact 7 ltac:(lia))) in L.
  destruct (erf_tail _ L) as [T1 T2]. destruct (d_of_Z_exact 1 ltac:(lia)) as [O1 O2].
  pose proof (rnd_near (error_function (B2R x)) (d_of_Z 1)) as N. rewrite O1, <- V in N.
  assert (S57 : / 2 ^ 57 < / 2 ^ 55 / 2) by (cbn [pow]; lra).
  rewrite (Rabs_pos_eq (1 - _)) in N by lra. apply Rabs_le_inv in N.
  assert (U : B2R (f x) <= 1) by (rewrite V; rewrite <- O1, <- (rnd64_fix (d_of_Z 1)), O1; apply rnd64_mono; lra).
  assert (X : B2R (f x) = 1).
  { destruct (multiple_of (f x) (-1) ltac:(lia)) as [k K]; [rewrite Rabs_pos_eq; [change (bpow radix2 (-1)) with (/ 2); cbn [pow] in *; lra|cbn [pow] in *; lra]|].
    change (-1 - 52)%Z with (-53)%Z in K. assert (B : bpow radix2 (-53) = / 2 ^ 53) by (change (bpow radix2 (-53)) with (/ IZR (2 ^ 53)); rewrite pow_IZR; reflexivity).
    rewrite B in K. assert (IZR k <= IZR (2 ^ 53)) as K1.
    { apply Rmult_le_reg_r with (/ 2 ^ 53); [apply Rinv_0_lt_compat, pow_lt; lra|]. rewrite <- K. replace (IZR (2 ^ 53) * / 2 ^ 53) with 1; [exact U|]. rewrite pow_IZR. change (2 ^ Z.of_nat 53)%Z with (2 ^ 53)%Z. field; apply not_0_IZR; discriminate. }
    assert (IZR (2 ^ 53 - 1) < IZR k) as K2.
    { apply Rmult_lt_reg_r with (/ 2 ^ 53); [apply Rinv_0_lt_compat, pow_lt; lra|]. rewrite <- K. cbn [pow] in *. rewrite minus_IZR. lra. }
    apply le_IZR in K1. apply lt_IZR in K2. assert (k = 2 ^ 53)%Z by lia. subst k. rewrite K, pow_IZR. change (2 ^ Z.of_nat 53)%Z with (2 ^ 53)%Z. field; apply not_0_IZR; discriminate. }
  apply B2R_Bsign_inj; [exact F1|exact O2|rewrite X, O1; reflexivity|].
  destruct (f x) as [s|s| |s m e B]; try discriminate; [cbn in X; lra|]. destruct s; [|reflexivity]. rewrite finite_val in X. cbn [cond_Zopp] in X.
  pose proof (bpow_gt_0 radix2 e). assert (IZR (- Zpos m) < 0) by (apply IZR_lt; lia). nra.
Qed.
Definition far_cdf (f : double -> double) := EvaluateTruncatedGaussianCDF double_arith f d0 (d_of_Z 40) (d_of_Z 50) (d_of_Z 1) (d_of_Z 45).
Lemma far_tail_nan f : correct_erf f -> far_cdf f = Ok B754_nan.
Proof.
  intros C. unfold far_cdf, EvaluateTruncatedGaussianCDF, EvaluateGaussianCDF.
  replace (altb double_arith (d_of_Z 50) (d_of_Z 40)) with false by (vm_compute; reflexivity).
  replace (aleb double_arith (d_of_Z 45) (d_of_Z 40)) with false by (vm_compute; reflexivity).
  replace (aleb double_arith (d_of_Z 50) (d_of_Z 45)) with false by (vm_compute; reflexivity). cbv zeta.
  cbn [a_of aadd asub amul adiv asqrt double_arith].
  rewrite !(erf_one f) by (exact C || (vm_compute; reflexivity)). apply (f_equal Ok). apply B2SF_inj. vm_compute. reflexivity.
Qed.
