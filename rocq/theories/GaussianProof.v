(** Proofs about gaussian_distributions.hpp in exact arithmetic. *)
From Coq Require Import Reals Lra Psatz.
From Flocq Require Import Core.
From Coquelicot Require Import Coquelicot.
From Verif Require Import Base MathModel MathReal GaussianModel GaussianSpec GaussianErf.
Local Open Scope R_scope.

Ltac as_R := match goal with |- @eq _ ?a ?b => change (@eq R a b) end.
Lemma erf_eq x : error_function x = erf x. Proof. reflexivity. Qed.
Notation CDF := (EvaluateGaussianCDF real_arith error_function).
Notation PDF := (EvaluateGaussianPDF real_arith exp).
Notation TCDF := (EvaluateTruncatedGaussianCDF real_arith error_function).
Notation TPDF := (EvaluateTruncatedGaussianPDF real_arith exp error_function).
Lemma cdf_eq m s x : CDF m s x = 1 / 2 * (1 + erf ((x - m) / s / sqrt 2)). Proof. reflexivity. Qed.
Lemma pdf_eq m s x : PDF m s x = 1 / (s * sqrt (2 * PI)) * exp (- ((x - m) * (x - m) / (2 * s * s))). Proof. reflexivity. Qed.
Lemma sqrt2_pos : 0 < sqrt 2. Proof. apply sqrt_lt_R0. lra. Qed.
Section S.
Variables m s : R. Hypothesis Hs : 0 < s.
Lemma arg_mono x y : x < y -> (x - m) / s / sqrt 2 < (y - m) / s / sqrt 2.
Proof. intros H. pose proof sqrt2_pos. apply Rmult_lt_compat_r; [apply Rinv_0_lt_compat; lra|]. apply Rmult_lt_compat_r; [apply Rinv_0_lt_compat; lra|lra]. Qed.
Lemma cdf_increasing x y : x < y -> CDF m s x < CDF m s y.
Proof. intros H. rewrite !cdf_eq. pose proof (erf_increasing _ _ (arg_mono _ _ H)). lra. Qed.
Lemma cdf_monotone x y : x <= y -> CDF m s x <= CDF m s y.
Proof. intros [H| ->]; [apply Rlt_le, cdf_increasing, H|lra]. Qed.
Lemma cdf_bounds x : 0 < CDF m s x < 1.
Proof. rewrite cdf_eq. pose proof (erf_bound ((x - m) / s / sqrt 2)). lra. Qed.
Lemma cdf_mean : CDF m s m = 1 / 2.
Proof. rewrite cdf_eq. replace ((m - m) / s / sqrt 2) with 0 by (pose proof sqrt2_pos; field; lra). rewrite erf_0. lra. Qed.
Lemma cdf_derive x : is_derive (CDF m s) x (PDF m s x).
Proof.
  pose proof sqrt2_pos as P2. pose proof sqrt_pi_pos as PP.
  evar_last.
  - apply (is_derive_ext (fun x => 1 / 2 + 1 / 2 * erf ((x - m) / s / sqrt 2))); [intros t; rewrite cdf_eq; as_R; ring|].
    apply (is_derive_plus (fun _ => 1 / 2) (fun x => 1 / 2 * erf ((x - m) / s / sqrt 2))); [apply is_derive_const|].
    apply is_derive_scal. apply (is_derive_comp erf (fun x => (x - m) / s / sqrt 2)); [apply erf_derive|].
    instantiate (1 := / s / sqrt 2). auto_derive; [exact I|]. field. lra.
  - rewrite pdf_eq. rewrite sqrt_mult by (pose proof PI_RGT_0; lra). unfold plus, zero, scal, mult. cbn. unfold mult. cbn.
    replace (- ((x - m) / s / sqrt 2 * ((x - m) / s / sqrt 2))) with (- ((x - m) * (x - m) / (2 * s * s))).
    + field. lra.
    + pose proof (sqrt_sqrt 2 ltac:(lra)) as Q. apply Ropp_eq_compat.
      replace ((x - m) / s / sqrt 2 * ((x - m) / s / sqrt 2)) with ((x - m) * (x - m) / ((sqrt 2 * sqrt 2) * s * s)) by (field; lra). rewrite Q. reflexivity.
Qed.
Lemma pdf_pos x : 0 < PDF m s x.
Proof.
  rewrite pdf_eq. apply Rmult_lt_0_compat; [|apply exp_pos]. apply Rdiv_lt_0_compat; [lra|]. apply Rmult_lt_0_compat; [exact Hs|]. apply sqrt_lt_R0. pose proof PI_RGT_0. lra.
Qed.
Lemma pdf_cont x : continuous (PDF m s) x.
Proof.
  apply (ex_derive_continuous (PDF m s)). apply (ex_derive_ext (fun x => 1 / (s * sqrt (2 * PI)) * exp (- ((x - m) * (x - m) / (2 * s * s))))); [intros; reflexivity|].
  auto_derive. repeat split; try lra.
Qed.
Lemma pdf_integral a b : is_RInt (PDF m s) a b (CDF m s b - CDF m s a).
Proof. apply (is_RInt_derive (CDF m s) (PDF m s)); intros; [apply cdf_derive|apply pdf_cont]. Qed.

(** Truncated. *)
Variables lo hi : R. Hypothesis Hb : lo < hi.
Definition mass : R := CDF m s hi - CDF m s lo.
Lemma mass_pos : 0 < mass. Proof. unfold mass. pose proof (cdf_increasing _ _ Hb). lra. Qed.
Definition T (x : R) : R := if Rle_dec x lo then 0 else if Rle_dec hi x then 1 else (CDF m s x - CDF m s lo) / mass.
Definition t (x : R) : R := if Rle_dec x lo then 0 else if Rle_dec hi x then 0 else PDF m s x / mass.
Lemma tcdf x : TCDF m lo hi s x = Ok (T x).
Proof.
  unfold EvaluateTruncatedGaussianCDF, T. cbn [altb aleb a_of real_arith]. rewrite Rlt_bool_false by lra.
  destruct (Rle_dec x lo) as [H|H]; [rewrite Rle_bool_true by exact H; reflexivity|]. rewrite Rle_bool_false by lra.
  destruct (Rle_dec hi x) as [K|K]; [rewrite Rle_bool_true by exact K; reflexivity|]. rewrite Rle_bool_false by lra. reflexivity.
Qed.
Lemma tpdf x : TPDF m lo hi s x = Ok (t x).
Proof.
  unfold EvaluateTruncatedGaussianPDF, t. cbn [altb aleb a_of real_arith]. rewrite Rlt_bool_false by lra.
  destruct (Rle_dec x lo) as [H|H]; [rewrite Rle_bool_true by exact H; reflexivity|]. rewrite Rle_bool_false by lra.
  destruct (Rle_dec hi x) as [K|K]; [rewrite Rle_bool_true by exact K; reflexivity|]. rewrite Rle_bool_false by lra. reflexivity.
Qed.
(** T in the closed interval. *)
Lemma T_inside x : lo <= x <= hi -> T x = (CDF m s x - CDF m s lo) / mass.
Proof.
  intros H. pose proof mass_pos. unfold T. destruct (Rle_dec x lo) as [K|K]; [assert (x = lo) by lra; subst x; field; lra|].
  destruct (Rle_dec hi x) as [K2|K2]; [assert (x = hi) by lra; subst x; fold mass; field; lra|reflexivity].
Qed.
Lemma T_low x : x <= lo -> T x = 0. Proof. intros H. unfold T. destruct (Rle_dec x lo); [reflexivity|contradiction]. Qed.
Lemma T_high x : hi <= x -> T x = 1. Proof. intros H. unfold T. destruct (Rle_dec x lo); [lra|]. destruct (Rle_dec hi x); [reflexivity|contradiction]. Qed.
Lemma T_range x : 0 <= T x <= 1.
Proof.
  destruct (Rle_lt_dec x lo) as [H|H]; [rewrite T_low by exact H; lra|]. destruct (Rle_lt_dec hi x) as [K|K]; [rewrite T_high by exact K; lra|].
  rewrite T_inside by lra. pose proof mass_pos as P. pose proof (cdf_increasing _ _ H). pose proof (cdf_increasing _ _ K). unfold mass in *. split.
  - apply Rlt_le, Rdiv_lt_0_compat; lra.
  - apply Rmult_le_reg_r with (CDF m s hi - CDF m s lo); [exact P|]. unfold Rdiv. rewrite Rmult_assoc, Rinv_l by lra. lra.
Qed.
Lemma T_mono x y : x <= y -> T x <= T y.
Proof.
  intros L. destruct (Rle_lt_dec x lo) as [H|H]; [rewrite (T_low x) by exact H; apply T_range|]. destruct (Rle_lt_dec hi y) as [K|K]; [rewrite (T_high y) by exact K; apply T_range|].
  rewrite !T_inside by lra. pose proof mass_pos. apply Rmult_le_compat_r; [apply Rlt_le, Rinv_0_lt_compat; lra|]. pose proof (cdf_monotone _ _ L). lra.
Qed.
Lemma T_derive x : lo < x < hi -> is_derive T x (t x).
Proof.
  intros H. pose proof mass_pos as P. unfold t. destruct (Rle_dec x lo) as [K|K]; [lra|]. destruct (Rle_dec hi x) as [K2|K2]; [lra|].
  apply (is_derive_ext_loc (fun x => / mass * CDF m s x + - (/ mass * CDF m s lo))).
  - assert (E : 0 < Rmin (x - lo) (hi - x)) by (apply Rmin_pos; lra). exists (mkposreal _ E). intros y By. cbn in By. unfold AbsRing_ball, abs, minus, plus, opp in By. cbn in By.
    pose proof (Rmin_l (x - lo) (hi - x)). pose proof (Rmin_r (x - lo) (hi - x)). apply Rabs_lt_between in By. rewrite T_inside by lra. as_R. unfold Rdiv. ring.
  - evar_last; [apply (is_derive_plus (fun x => / mass * CDF m s x) (fun _ => - (/ mass * CDF m s lo))); [apply is_derive_scal, cdf_derive|apply is_derive_const]|].
    unfold plus, zero. cbn. as_R. unfold Rdiv. ring.
Qed.
Lemma t_nonneg x : 0 <= t x.
Proof. unfold t. destruct (Rle_dec x lo); [lra|]. destruct (Rle_dec hi x); [lra|]. apply Rlt_le, Rdiv_lt_0_compat; [apply pdf_pos|apply mass_pos]. Qed.
Lemma zero_int (f : R -> R) a b : a <= b -> (forall x, a < x < b -> f x = 0) -> is_RInt f a b 0.
Proof.
  intros L H. apply (is_RInt_ext (fun _ => 0)).
  - rewrite Rmin_left, Rmax_right by exact L. intros x Hx. symmetry. apply H, Hx.
  - evar_last; [apply (is_RInt_const a b 0)|]. unfold scal. cbn. unfold mult. cbn. as_R. ring.
Qed.
Lemma t_int_low a b : a <= b -> b <= lo -> is_RInt t a b (T b - T a).
Proof. intros L H. rewrite !T_low by lra. replace (0 - 0) with 0 by ring. apply zero_int; [exact L|]. intros x Hx. unfold t. destruct (Rle_dec x lo); [reflexivity|lra]. Qed.
Lemma t_int_high a b : a <= b -> hi <= a -> is_RInt t a b (T b - T a).
Proof. intros L H. rewrite !T_high by lra. replace (1 - 1) with 0 by ring. apply zero_int; [exact L|]. intros x Hx. unfold t. destruct (Rle_dec x lo); [reflexivity|]. destruct (Rle_dec hi x); [reflexivity|lra]. Qed.
Lemma t_int_mid a b : lo <= a -> a <= b -> b <= hi -> is_RInt t a b (T b - T a).
Proof.
  intros H1 L H2. apply (is_RInt_ext (fun x => scal (/ mass) (PDF m s x))).
  - rewrite Rmin_left, Rmax_right by exact L. intros x Hx. unfold t. destruct (Rle_dec x lo); [lra|]. destruct (Rle_dec hi x); [lra|]. apply Rmult_comm.
  - evar_last; [apply (is_RInt_scal (PDF m s) a b (/ mass)); apply pdf_integral|]. rewrite !T_inside by lra. unfold scal. cbn. unfold mult. cbn. as_R. unfold Rdiv. ring.
Qed.
Lemma t_int_point a : is_RInt t a a (T a - T a).
Proof. replace (T a - T a) with (@zero R_NormedModule) by (unfold zero; cbn; as_R; ring). apply is_RInt_point. Qed.
Lemma t_int a b : a <= b -> is_RInt t a b (T b - T a).
Proof.
  intros L. set (c := Rmax a (Rmin b lo)). set (d := Rmax a (Rmin b hi)).
  assert (C : a <= c /\ c <= d /\ d <= b).
  { unfold c, d. repeat split; [apply Rmax_l| |apply Rmax_lub; [exact L|apply Rmin_l]]. apply Rmax_lub; [apply Rmax_l|]. eapply Rle_trans; [|apply Rmax_r]. apply Rmin_glb; [apply Rmin_l|]. eapply Rle_trans; [apply Rmin_r|lra]. }
  destruct C as (C1 & C2 & C3).
  assert (I1 : is_RInt t a c (T c - T a)).
  { destruct (Rle_lt_dec c lo) as [K|K]; [apply t_int_low; assumption|]. assert (c = a) as -> ; [|apply t_int_point].
    unfold c, Rmax, Rmin in *. repeat destruct Rle_dec; lra. }
  assert (I2 : is_RInt t c d (T d - T c)).
  { destruct (Rle_lt_dec lo c) as [K|K].
    - destruct (Rle_lt_dec d hi) as [K2|K2]; [apply t_int_mid; assumption|].
      assert (d = a) by (unfold d, Rmax, Rmin in *; repeat destruct Rle_dec; lra).
      assert (c = d) as -> by lra. apply t_int_point.
    - assert (E : c = b) by (unfold c, Rmax, Rmin in *; repeat destruct Rle_dec; lra).
      assert (d = c) as -> by lra. apply t_int_point. }
  assert (I3 : is_RInt t d b (T b - T d)).
  { destruct (Rle_lt_dec hi d) as [K|K]; [apply t_int_high; assumption|].
    assert (E : d = b) by (unfold d, Rmax, Rmin in *; repeat destruct Rle_dec; lra). rewrite E. apply t_int_point. }
  evar_last; [apply (is_RInt_Chasles t a d b); [apply (is_RInt_Chasles t a c d); eassumption|exact I3]|]. unfold plus. cbn. as_R. ring.
Qed.
End S.
