(** C184: the samples of TruncatedGaussianDistribution have the truncated Gaussian distribution. *)
From Coq Require Import Reals Lra Psatz List.
From Flocq Require Import Core.
From Coquelicot Require Import Coquelicot.
From Verif Require Import Base MathModel MathReal GaussianModel GaussianSpec GaussianErf GaussianProof GaussianProof3 SamplerSpec SamplerProof.
Import ListNotations.
Local Open Scope R_scope.

(** Sampling repeats independent trials, with fresh draws each, and returns what the first
    successful one returns. *)
Theorem C184_trials_partial : forall mean sd lo hi d, 0 < sd -> proper lo hi -> ~ narrow_tail mean sd lo hi ->
  MakeTruncatedGaussian mean sd lo hi = Ok d ->
  forall failed trial x, Forall (is_trial d) failed -> Forall (fun t => one_trial d t = None) failed ->
  is_trial d trial -> one_trial d trial = Some x ->
  forall fuel rest, (length failed < fuel)%nat -> Sample noted fuel d (concat failed ++ trial ++ rest) = Ok (x, rest).
Proof.
  intros m s lo hi d H P N E. destruct (constructor_decides m s lo hi H P) as (d' & E' & D). rewrite E in E'. injection E' as <-.
  eapply decided_trials; eassumption.
Qed.
(** The probability that a trial returns something between x and y is proportional to the
    probability of the Gaussian distribution between x and y, for all x and y in the bounds. *)
Theorem C184_distribution_partial : forall mean sd lo hi, 0 < sd -> proper lo hi -> ~ narrow_tail mean sd lo hi ->
  exists d c, MakeTruncatedGaussian mean sd lo hi = Ok d /\ 0 < c /\
  forall x y, x <= y -> in_bounds lo hi x -> in_bounds lo hi y ->
  exists p, IntegrateGaussian real_arith error_function mean sd x y = Ok p /\ hit_probability d x y (c * p).
Proof.
  intros m s lo hi H P N. destruct (constructor_decides m s lo hi H P) as (d & E & D). exists d, (hit_factor d). split; [exact E|]. split; [apply hit_factor_pos|].
  intros x y L X Y. exists (CDF m s y - CDF m s x). split.
  - unfold IntegrateGaussian. cbn [altb real_arith]. rewrite Rlt_bool_false by lra. reflexivity.
  - eapply decided_hits; eassumption.
Qed.
(** So with finite bounds a trial that returns something returns a number between x and y with
    the probability of the truncated distribution. *)
Theorem C184_truncated_partial : forall mean sd lo hi, 0 < sd -> lo < hi -> ~ narrow_tail mean sd (Fin lo) (Fin hi) ->
  exists d total, MakeTruncatedGaussian mean sd (Fin lo) (Fin hi) = Ok d /\ hit_probability d lo hi total /\ 0 < total /\
  forall x y, lo <= x -> x <= y -> y <= hi ->
  exists p, IntegrateTruncatedGaussian real_arith error_function mean lo hi sd x y = Ok p /\ hit_probability d x y (p * total).
Proof.
  intros m s lo hi H B N. assert (P : proper (Fin lo) (Fin hi)) by (exists lo; split; cbn; lra).
  destruct (constructor_decides m s _ _ H P) as (d & E & D).
  pose proof (mass_pos m s H lo hi B) as MP. unfold mass in MP. pose proof (hit_factor_pos d) as HP.
  exists d, (hit_factor d * (CDF m s hi - CDF m s lo)). split; [exact E|]. split; [|split; [apply Rmult_lt_0_compat; assumption|]].
  - eapply decided_hits; try eassumption; try split; cbn; lra.
  - intros x y X L Y. unfold IntegrateTruncatedGaussian. rewrite !tcdf by assumption. cbn [altb asub real_arith bind]. rewrite !Rlt_bool_false by lra. eexists. split; [reflexivity|].
    rewrite !T_inside by (try assumption; lra).
    match goal with |- hit_probability _ _ _ ?v => replace v with (hit_factor d * (CDF m s y - CDF m s x)) by (unfold mass; field; lra) end.
    eapply decided_hits; try eassumption; try split; cbn; lra.
Qed.
(** False for the narrow tail of C111: no trial returns anything in the bounds, though the
    Gaussian distribution has positive probability there. *)
Theorem C184_narrow_tail_refuted : exists d, MakeTruncatedGaussian 10 1 (Fin 12) (Fin (121 / 10)) = Ok d /\
  (exists p, IntegrateGaussian real_arith error_function 10 1 12 (121 / 10) = Ok p /\ 0 < p) /\
  forall z u, 12 <= z <= 121 / 10 -> 0 <= u < 1 -> ~ hits d [Range z; Unit u] 12 (121 / 10).
Proof.
  exists narrow_d. split; [exact narrow_made|]. split.
  - exists (CDF 10 1 (121 / 10) - CDF 10 1 12). split; [unfold IntegrateGaussian; cbn [altb real_arith]; rewrite Rlt_bool_false by lra; reflexivity|].
    pose proof (cdf_increasing 10 1 ltac:(lra) 12 (121 / 10) ltac:(lra)). lra.
  - intros z u Z U (r & Q & B). unfold one_trial, Sample, narrow_d in Q. cbn [tg_case tg_std_lower tg_std_upper tg_range tg_mean tg_stddev ComplexAcceptReject noted range_draw unit_draw fst snd] in Q.
    destruct (Rle_bool u _); cbn [bind fst snd] in Q; [|discriminate]. injection Q as Q. lra.
Qed.
Print Assumptions C184_trials_partial. Print Assumptions C184_distribution_partial. Print Assumptions C184_truncated_partial. Print Assumptions C184_narrow_tail_refuted.

(** Bounds around the mean, half a line far from it, and both bounds on one side. *)
Lemma wide_tail : ~ narrow_tail 0 1 (Fin 1) (Fin 100).
Proof.
  intros (l & h & E1 & E2 & _ & Q). injection E1 as <-. injection E2 as <-. cbv zeta in Q.
  replace ((100 - 0) / 1) with 100 in Q by field. replace ((1 - 0) / 1) with 1 in Q by field. replace (1 ^ 2 + 4) with 5 in Q by ring.
  assert (S5 : 2 <= sqrt 5) by (rewrite <- (sqrt_square 2) by lra; apply sqrt_le_1_alt; lra).
  assert (SE : sqrt (exp 1) <= 3). { rewrite <- (sqrt_square 3) by lra. apply sqrt_le_1_alt. pose proof exp_le_3. lra. }
  assert (W : (1 ^ 2 - 1 * sqrt 5) / 4 < 0) by lra.
  assert (X : exp ((1 ^ 2 - 1 * sqrt 5) / 4) <= 1) by (apply exp_increasing in W; rewrite exp_0 in W; lra).
  assert (D : 2 * sqrt (exp 1) / (1 + sqrt 5) <= 6). { apply Rmult_le_reg_r with (1 + sqrt 5); [lra|]. unfold Rdiv. rewrite Rmult_assoc, Rinv_l by lra. lra. }
  assert (D0 : 0 <= 2 * sqrt (exp 1) / (1 + sqrt 5)). { apply Rmult_le_pos; [|apply Rlt_le, Rinv_0_lt_compat; lra]. pose proof (sqrt_pos (exp 1)). lra. }
  pose proof (exp_pos ((1 ^ 2 - 1 * sqrt 5) / 4)). nra.
Qed.
Example C184_nonvacuous : ~ narrow_tail 0 1 (Fin 1) (Fin 100) /\ ~ narrow_tail 0 1 NegInf (Fin (-3)) /\ proper NegInf (Fin (-3)) /\
  exists d, MakeTruncatedGaussian 0 1 (Fin 1) (Fin 100) = Ok d /\ is_trial d [Exponential 0; Unit 0] /\ one_trial d [Exponential 0; Unit 0] = Some 1.
Proof.
  split; [exact wide_tail|]. split; [intros (l & h & E & _); discriminate|]. split; [exists (-4); split; cbn; [exact I|lra]|].
  assert (P : proper (Fin 1) (Fin 100)) by (exists 1; split; cbn; lra).
  destruct (constructor_decides 0 1 (Fin 1) (Fin 100) ltac:(lra) P) as (d & E & D). exists d. split; [exact E|].
  inversion D as [d' C M T L U|d' l C M T Eh El L|d' h C M T El Eh L|d' l h El Eh O M T L U Rg C]; subst d'; try discriminate.
  - exfalso. clear D. unfold MakeTruncatedGaussian in E. rewrite Req_bool_false in E by lra. cbv zeta in E. cbn [ext_sub ext_div] in E. unfold ext_ltb in E. cbn [ext_leb is_pos_inf is_neg_inf] in E.
    rewrite (Rle_bool_false ((1 - 0) / 1) 0), (Rle_bool_true 0 ((100 - 0) / 1)) in E by lra. cbn [andb orb negb ext_leb is_pos_inf is_neg_inf] in E.
    rewrite ?(Rle_bool_false ((1 - 0) / 1) 0), ?(Rle_bool_true 0 ((100 - 0) / 1)) in E by lra. cbn [andb orb negb] in E. injection E as <-. cbn [tg_case] in C. destruct (CheckSimple _ _); discriminate.
  - assert (l = 1) by congruence. assert (h = 100) by congruence. subst l h.
    assert (K : CheckSimple ((1 - 0) / 1) ((100 - 0) / 1) = true).
    { destruct (CheckSimple ((1 - 0) / 1) ((100 - 0) / 1)) eqn:K; [reflexivity|]. exfalso. apply wide_tail. exists 1, 100. split; [reflexivity|]. split; [reflexivity|]. split; [lra|]. cbv zeta. unfold CheckSimple in K. cbv zeta in K.
      match type of K with Rlt_bool ?a ?b = false => destruct (Rlt_bool_spec a b) as [Z|Z]; [discriminate|exact Z] end. }
    rewrite K in C. split; [constructor; congruence|]. rewrite (trial_closed d _ 0 0 C L), M, T, U. pose proof (rho_range ((1 - 0) / 1) 0).
    rewrite Rle_bool_true by lra. cbn [andb]. pose proof (alpha_pos ((1 - 0) / 1)) as A. fold (alpha ((1 - 0) / 1)) in A.
    assert (V : prop ((1 - 0) / 1) 0 = 1) by (unfold prop; field; lra). rewrite V. cbn [ext_leb]. rewrite Rle_bool_true by lra. f_equal. ring.
Qed.
