(** C109-C112: gaussian_distributions.hpp.  [RInt] and [is_derive] are Coquelicot's
    integral and derivative; [error_function] is defined in GaussianSpec.v. *)
From Coq Require Import Reals Lra Psatz.
From Coquelicot Require Import Coquelicot.
From Flocq Require Import Core BinarySingleNaN.
From Verif Require Import Base Double DoubleFacts MathModel MathReal GaussianModel GaussianSpec GaussianErf GaussianProof GaussianProof2 GaussianProof3.
Local Open Scope R_scope.

(** C109: the CDF is strictly increasing, between 0 and 1, one half at the mean, and
    its derivative is the PDF, which is positive. *)
Theorem C109_distribution_function : forall mean sd, 0 < sd ->
  let F := EvaluateGaussianCDF real_arith error_function mean sd in
  let f := EvaluateGaussianPDF real_arith exp mean sd in
  (forall x, 0 < F x < 1) /\ (forall x y, x < y -> F x < F y) /\ F mean = 1 / 2 /\
  (forall x, is_derive F x (f x)) /\ (forall x, 0 < f x).
Proof.
  intros m s H. cbv zeta. split; [intros; apply cdf_bounds; exact H|]. split; [intros; apply cdf_increasing; assumption|].
  split; [apply cdf_mean; exact H|]. split; [intros; apply cdf_derive; exact H|intros; apply pdf_pos; exact H].
Qed.
(** C109: IntegrateGaussian is the integral of the PDF, a probability, and refuses
    limits in the wrong order. *)
Theorem C109_integral : forall mean sd a b, 0 < sd ->
  (a <= b -> exists p, IntegrateGaussian real_arith error_function mean sd a b = Ok p /\
     is_RInt (EvaluateGaussianPDF real_arith exp mean sd) a b p /\ 0 <= p < 1) /\
  (b < a -> IntegrateGaussian real_arith error_function mean sd a b = Throw InvalidArgument).
Proof.
  intros m s a b H. unfold IntegrateGaussian. cbn [altb real_arith]. split; intros L.
  - rewrite Rlt_bool_false by lra. eexists. split; [reflexivity|]. split; [apply pdf_integral; exact H|].
    pose proof (cdf_monotone m s H a b L). pose proof (cdf_bounds m s a). pose proof (cdf_bounds m s b). cbn [asub real_arith]. lra.
  - rewrite Rlt_bool_true by lra. reflexivity.
Qed.
Print Assumptions C109_distribution_function.
Print Assumptions C109_integral.
Example C109_nonvacuous : 0 < 3 /\ 0 < EvaluateGaussianPDF real_arith exp 1 3 5. Proof. split; [lra|apply pdf_pos; lra]. Qed.

(** C110: the truncated CDF rises from 0 at the lower to 1 at the upper bound; inside
    its derivative is the truncated PDF, and IntegrateTruncatedGaussian is the
    integral of that PDF between any two limits, inside or outside the bounds. *)
Theorem C110_truncated_partial : forall mean sd lo hi, 0 < sd -> lo < hi ->
  exists F f,
  (forall x, EvaluateTruncatedGaussianCDF real_arith error_function mean lo hi sd x = Ok (F x)) /\
  (forall x, EvaluateTruncatedGaussianPDF real_arith exp error_function mean lo hi sd x = Ok (f x)) /\
  (forall x, 0 <= F x <= 1) /\ (forall x y, x <= y -> F x <= F y) /\ (forall x, x <= lo -> F x = 0) /\ (forall x, hi <= x -> F x = 1) /\
  (forall x, lo < x < hi -> is_derive F x (f x)) /\ (forall x, 0 <= f x) /\ is_RInt f lo hi 1 /\
  (forall a b, a <= b -> exists p, IntegrateTruncatedGaussian real_arith error_function mean lo hi sd a b = Ok p /\ is_RInt f a b p /\ 0 <= p <= 1).
Proof.
  intros m s lo hi Hs Hb. exists (T m s lo hi), (t m s lo hi). split; [intros; apply tcdf; assumption|]. split; [intros; apply tpdf; assumption|].
  split; [intros; apply T_range; assumption|]. split; [intros; apply T_mono; assumption|]. split; [intros; apply T_low; assumption|]. split; [intros; apply T_high; assumption|].
  split; [intros; apply T_derive; assumption|]. split; [intros; apply t_nonneg; assumption|].
  split; [replace 1 with (T m s lo hi hi - T m s lo hi lo) by (rewrite T_high, T_low by lra; ring); apply t_int; lra|].
  intros a b L. unfold IntegrateTruncatedGaussian. rewrite !tcdf by assumption. cbn [altb asub real_arith bind]. rewrite !Rlt_bool_false by lra. eexists. split; [reflexivity|].
  split; [apply t_int; assumption|]. pose proof (T_range m s Hs lo hi Hb a). pose proof (T_range m s Hs lo hi Hb b). pose proof (T_mono m s Hs lo hi Hb a b L). lra.
Qed.
Theorem C110_refused_partial : forall mean sd lo hi x, hi < lo ->
  EvaluateTruncatedGaussianCDF real_arith error_function mean lo hi sd x = Throw InvalidArgument /\
  EvaluateTruncatedGaussianPDF real_arith exp error_function mean lo hi sd x = Throw InvalidArgument.
Proof. intros m s lo hi x H. unfold EvaluateTruncatedGaussianCDF, EvaluateTruncatedGaussianPDF. cbn [altb real_arith]. rewrite Rlt_bool_true by exact H. auto. Qed.
(** C110 is false in double arithmetic: with a correctly rounded erf the CDF of the
    standard Gaussian truncated to [40, 50] is NaN at 45. *)
Theorem C110_far_tail_refuted : exists lo hi x : double,
  is_finite lo = true /\ is_finite hi = true /\ is_finite x = true /\ B2R lo < B2R x < B2R hi /\
  forall f, (forall x, is_finite x = true -> is_finite (f x) = true /\ B2R (f x) = rnd64 (error_function (B2R x))) ->
  EvaluateTruncatedGaussianCDF double_arith f d0 lo hi (d_of_Z 1) x = Ok B754_nan.
Proof.
  exists (d_of_Z 40), (d_of_Z 50), (d_of_Z 45). destruct (d_of_Z_exact 40 ltac:(lia)) as [-> ->], (d_of_Z_exact 45 ltac:(lia)) as [-> ->], (d_of_Z_exact 50 ltac:(lia)) as [-> ->].
  repeat (split; [reflexivity || lra|]). exact far_tail_nan.
Qed.
Print Assumptions C110_truncated_partial.
Print Assumptions C110_refused_partial.
Print Assumptions C110_far_tail_refuted.
Example C110_nonvacuous : 0 < 2 /\ -1 < 3. Proof. lra. Qed.

(** C111: whatever the draws, every sample lies between the bounds; proved unless the
    bounds are finite, on one side of the mean and close to each other. *)
Theorem C111_in_bounds_partial : forall (G : Type) (src : source G) mean sd lo hi, source_ok src -> 0 < sd -> proper lo hi ->
  exists d, MakeTruncatedGaussian mean sd lo hi = Ok d /\
  (~ narrow_tail mean sd lo hi -> forall n fuel g xs g', SampleMany src n fuel d g = Ok (xs, g') -> length xs = n /\ Forall (in_bounds lo hi) xs).
Proof.
  intros G src m s lo hi (E & _) H P. destruct (constructor_decides m s lo hi H P) as (d & M & D). exists d. split; [exact M|].
  intros N n fuel g xs g' S. eapply samples_in; eassumption.
Qed.
(** C111: sampling around a mean inside the bounds ends as soon as a draw fits. *)
Theorem C111_terminates_partial : forall (G : Type) (src : source G) mean sd lo hi k g, 0 < sd -> in_bounds lo hi mean ->
  in_bounds lo hi (mean + sd * nth_draw (normal_draw src) k g) ->
  exists d x g', MakeTruncatedGaussian mean sd lo hi = Ok d /\ Sample src (S k) d g = Ok (x, g').
Proof.
  intros G src m s lo hi k g H M B. destruct (constructor_decides m s lo hi H (ex_intro _ m M)) as (d & E & D). exists d.
  destruct M as [M1 M2], B as [B1 B2].
  inversion D as [d' C Mm T L U|d' l C Mm T Eh El L|d' h C Mm T El Eh L|d' l h El Eh O Mm T L U Rg C]; subst d'.
  - destruct (naive_terminates src (tg_std_lower d) (tg_std_upper d) k g) as (y & g' & Q).
    { rewrite L, U. split; [apply above_scale|apply below_scale]; assumption. }
    eexists. exists g'. split; [exact E|]. unfold Sample. rewrite C, Q. reflexivity.
  - exfalso. subst lo hi. cbn in M1. assert (K : MakeTruncatedGaussian m s (Fin l) PosInf = Ok (mkTG m s (Fin ((l - m) / s)) PosInf TYPE_1 (Fin l, PosInf))).
    { assert ((l - m) / s <= 0) as W. { destruct (Rle_lt_dec ((l - m) / s) 0) as [W|W]; [exact W|]. apply div_pos_iff in W; [lra|exact H]. }
      unfold MakeTruncatedGaussian. rewrite Req_bool_false by lra. cbv zeta. cbn [ext_sub ext_div]. rewrite Rlt_bool_true by exact H. unfold ext_ltb. cbn [ext_leb is_pos_inf is_neg_inf].
      rewrite (Rle_bool_true _ _ W). cbn [andb orb negb ext_leb is_pos_inf is_neg_inf]. rewrite ?(Rle_bool_true _ _ W). reflexivity. }
    rewrite K in E. injection E as <-. discriminate C.
  - exfalso. subst lo hi. cbn in M2. assert (K : MakeTruncatedGaussian m s NegInf (Fin h) = Ok (mkTG m s NegInf (Fin ((h - m) / s)) TYPE_1 (NegInf, Fin h))).
    { assert (0 <= (h - m) / s) as W. { destruct (Rle_lt_dec 0 ((h - m) / s)) as [W|W]; [exact W|]. apply div_neg_iff in W; [lra|exact H]. }
      unfold MakeTruncatedGaussian. rewrite Req_bool_false by lra. cbv zeta. cbn [ext_sub ext_div]. rewrite Rlt_bool_true by exact H. unfold ext_ltb. cbn [ext_leb is_pos_inf is_neg_inf].
      rewrite (Rle_bool_true _ _ W). cbn [andb orb negb ext_leb is_pos_inf is_neg_inf]. rewrite ?(Rle_bool_true _ _ W). reflexivity. }
    rewrite K in E. injection E as <-. discriminate C.
  - exfalso. subst lo hi. cbn in M1, M2. lra.
Qed.
(** C111 is false for narrow tails: with mean 10, deviation 1 and bounds [12, 12.1] all
    samples are 22 or more, and there are some. *)
Theorem C111_narrow_tail_refuted : exists d, MakeTruncatedGaussian 10 1 (Fin 12) (Fin (121 / 10)) = Ok d /\
  (forall G (src : source G) fuel g x g', source_ok src -> Sample src fuel d g = Ok (x, g') -> 22 <= x) /\
  exists (src : source unit) x, source_ok src /\ Sample src 1 d tt = Ok (x, tt).
Proof.
  exists narrow_d. split; [exact narrow_made|]. split; [intros G src fuel g x g' O S; eapply narrow_far; eassumption|].
  destruct narrow_sample as [x X]. exists eager, x. split; [exact eager_ok|exact X].
Qed.
(** C111 is false for a zero deviation: the mean is returned, bounds or not. *)
Theorem C111_zero_deviation_refuted : exists d, MakeTruncatedGaussian 0 0 (Fin 1) (Fin 2) = Ok d /\
  forall G (src : source G) fuel g, Sample src fuel d g = Ok (0, g).
Proof. exists (mkTG 0 0 (Fin 0) (Fin 0) NONE (Fin 1, Fin 2)). split; [unfold MakeTruncatedGaussian; rewrite Req_bool_true by reflexivity; reflexivity|reflexivity]. Qed.
Print Assumptions C111_in_bounds_partial.
Print Assumptions C111_terminates_partial.
Print Assumptions C111_narrow_tail_refuted.
Print Assumptions C111_zero_deviation_refuted.
Example C111_nonvacuous : source_ok eager /\ proper (Fin (-1)) PosInf /\ ~ narrow_tail 0 1 (Fin (-1)) PosInf /\
  exists d x, MakeTruncatedGaussian 0 1 (Fin (-1)) PosInf = Ok d /\ Sample eager 1 d tt = Ok (x, tt).
Proof.
  split; [exact eager_ok|]. assert (P : in_bounds (Fin (-1)) PosInf 0) by (split; cbn; [lra|exact I]). split; [exists 0; exact P|]. split; [intros (l & h & _ & E & _); discriminate|].
  destruct (C111_terminates_partial unit eager 0 1 (Fin (-1)) PosInf 0 tt) as (d & x & [] & E & S); [lra|exact P|split; [cbn [above nth_draw normal_draw eager fst]; lra|exact I]|]. exists d, x. auto.
Qed.

(** C112: the multivariate distribution should take a mean of n rows and an n x n
    covariance; it takes n = 1 only. *)
Theorem C112_sizes_partial : forall n, CheckMultivariateSizes n n n = Ok tt <-> n = 1%nat.
Proof. intros n. unfold CheckMultivariateSizes. rewrite !Nat.eqb_refl. cbn [negb orb]. destruct n as [|[|n]]; cbn; split; intros H; congruence || discriminate. Qed.
Theorem C112_sizes_refuted : forall n, (2 <= n)%nat -> CheckMultivariateSizes n n n = Throw InvalidArgument.
Proof. intros n H. unfold CheckMultivariateSizes. rewrite !Nat.eqb_refl. cbn [negb orb]. destruct n as [|[|n]]; [lia..|reflexivity]. Qed.
Print Assumptions C112_sizes_partial.
Print Assumptions C112_sizes_refuted.
Example C112_nonvacuous : CheckMultivariateSizes 1 1 1 = Ok tt. Proof. reflexivity. Qed.
