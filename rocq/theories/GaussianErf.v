(** The error function, and the bound |erf| < 1. *)
From Coq Require Import Reals Lra Psatz.
From Coquelicot Require Import Coquelicot.
Local Open Scope R_scope.

Definition gauss (t : R) : R := exp (- (t * t)).
Definition erf_int (x : R) : R := RInt gauss 0 x.
(** erf x = 2 / sqrt pi * integral from 0 to x of exp (- t^2). *)
Definition erf (x : R) : R := 2 / sqrt PI * erf_int x.

Lemma gauss_pos t : 0 < gauss t. Proof. apply exp_pos. Qed.
Lemma gauss_cont t : continuous gauss t.
Proof. apply (ex_derive_continuous gauss). unfold gauss. auto_derive. exact I. Qed.
Lemma gauss_int a b : ex_RInt gauss a b.
Proof. apply (ex_RInt_continuous gauss). intros. apply gauss_cont. Qed.
Lemma erf_int_derive x : is_derive erf_int x (gauss x).
Proof.
  apply (is_derive_RInt gauss erf_int 0 x); [|apply gauss_cont]. apply filter_forall. intros y. apply (RInt_correct gauss), gauss_int.
Qed.

(** The second half of the classical argument: with
    [k x t = exp (- x^2 (1 + t^2)) / (1 + t^2)] the sum
    (integral of gauss from 0 to x)^2 + (integral of k x from 0 to 1) is constant. *)
Definition ker (x t : R) : R := exp (- (x * x) * (1 + t * t)) / (1 + t * t).
Definition dker (x t : R) : R := - 2 * x * exp (- (x * x) * (1 + t * t)).
Lemma den_pos t : 0 < 1 + t * t. Proof. nra. Qed.
Lemma ker_derive x t : is_derive (fun u => ker u t) x (dker x t).
Proof. unfold ker, dker. pose proof (den_pos t). auto_derive; [lra|]. field. lra. Qed.
Lemma ker_cont x t : continuous (fun t => ker x t) t.
Proof. apply (ex_derive_continuous (fun t => ker x t)). unfold ker. pose proof (den_pos t). auto_derive. lra. Qed.
Lemma ker_int x a b : ex_RInt (fun t => ker x t) a b.
Proof. apply (ex_RInt_continuous (fun t => ker x t)). intros. apply ker_cont. Qed.
Lemma dker_cont x t : continuity_2d_pt dker x t.
Proof.
  unfold dker. apply continuity_2d_pt_mult.
  - apply continuity_2d_pt_mult; [apply continuity_2d_pt_const|apply continuity_2d_pt_id1].
  - apply (continuity_1d_2d_pt_comp exp (fun u v => - (u * u) * (1 + v * v))).
    + apply derivable_continuous_pt, derivable_pt_exp.
    + apply continuity_2d_pt_mult.
      * apply continuity_2d_pt_opp, continuity_2d_pt_mult; apply continuity_2d_pt_id1.
      * apply continuity_2d_pt_plus; [apply continuity_2d_pt_const|apply continuity_2d_pt_mult; apply continuity_2d_pt_id2].
Qed.
Lemma ker_int_derive x : is_derive (fun u => RInt (fun t => ker u t) 0 1) x (RInt (fun t => dker x t) 0 1).
Proof.
  replace (RInt (fun t => dker x t) 0 1) with (RInt (fun t => Derive (fun u => ker u t) x) 0 1).
  2:{ apply RInt_ext. intros t _. apply is_derive_unique, ker_derive. }
  apply (is_derive_RInt_param ker 0 1 x).
  - apply filter_forall. intros y t _. eexists. apply ker_derive.
  - intros t _. apply (continuity_2d_pt_ext dker); [|apply dker_cont]. intros u v. symmetry. apply is_derive_unique, ker_derive.
  - apply filter_forall. intros y. apply ker_int.
Qed.
(** Substituting s = x t: the derivative is - 2 gauss x * erf_int x. *)
Lemma dker_int x : RInt (fun t => dker x t) 0 1 = - 2 * gauss x * erf_int x.
Proof.
  apply is_RInt_unique. apply (is_RInt_ext (fun t => scal (- 2 * gauss x) (scal x (gauss (x * t + 0))))).
  - intros t _. unfold dker, scal, gauss. cbn. unfold mult. cbn.
    replace (- (x * x) * (1 + t * t)) with (- (x * x) + - ((x * t + 0) * (x * t + 0))) by ring. rewrite exp_plus. ring.
  - apply (is_RInt_scal (fun t => scal x (gauss (x * t + 0))) 0 1 (- 2 * gauss x) (erf_int x)).
    apply (is_RInt_comp_lin gauss x 0 0 1). replace (x * 0 + 0) with 0 by ring. replace (x * 1 + 0) with x by ring. apply (RInt_correct gauss), gauss_int.
Qed.
Definition total (x : R) : R := erf_int x * erf_int x + RInt (fun t => ker x t) 0 1.
Lemma total_derive x : is_derive total x 0.
Proof.
  unfold total. evar_last; [apply (is_derive_plus (fun x => erf_int x * erf_int x) (fun x => RInt (fun t => ker x t) 0 1)); [|apply ker_int_derive]|].
  - apply (is_derive_mult erf_int erf_int x (gauss x) (gauss x)); [apply erf_int_derive|apply erf_int_derive|]. intros; apply Rmult_comm.
  - rewrite dker_int. unfold plus, mult. cbn. ring.
Qed.
Lemma total_const x : total x = total 0.
Proof.
  destruct (Req_dec x 0) as [-> |N]; [reflexivity|].
  destruct (MVT_gen total 0 x (fun _ => 0)) as (c & _ & E).
  - intros y _. apply total_derive.
  - intros y _. apply continuity_pt_filterlim. apply (ex_derive_continuous total). eexists. apply total_derive.
  - rewrite Rmult_0_l in E. lra.
Qed.
Lemma total_0 : total 0 = PI / 4.
Proof.
    assert (H : is_RInt (fun t => ker 0 t) 0 1 (atan 1 - atan 0)).
  { apply (is_RInt_ext (fun t => / (1 + t * t))).
    { intros t _. unfold ker. replace (- (0 * 0) * (1 + t * t)) with 0 by ring. rewrite exp_0. unfold Rdiv. symmetry. apply Rmult_1_l. }
    apply (is_RInt_derive atan (fun t => / (1 + t * t))).
    - intros t _. evar_last; [apply is_derive_Reals, derivable_pt_lim_atan|]. change (/ (1 + t ^ 2) = / (1 + t * t)); f_equal; ring.
    - intros t _. apply (ex_derive_continuous (fun t => / (1 + t * t))). pose proof (den_pos t). auto_derive. lra. }
  pose proof (is_RInt_unique (V := R_CompleteNormedModule) (fun t => ker 0 t) 0 1 (atan 1 - atan 0) H) as H1. clear H. rename H1 into H. rewrite atan_0, atan_1 in H. assert (Z : erf_int 0 = 0) by apply (RInt_point 0 gauss). unfold total. rewrite Z. change (0 * 0 + RInt (fun t => ker 0 t) 0 1 = PI / 4). rewrite H. unfold minus, plus, opp. cbn. ring.
Qed.
Lemma ker_int_pos x : 0 < RInt (fun t => ker x t) 0 1.
Proof.
  apply RInt_gt_0; [lra| |]; intros t _.
  - apply Rdiv_lt_0_compat; [apply exp_pos|apply den_pos].
  - apply ker_cont.
Qed.
Lemma erf_int_bound x : erf_int x * erf_int x < PI / 4.
Proof. rewrite <- total_0, <- (total_const x). unfold total. pose proof (ker_int_pos x). lra. Qed.

Lemma sqrt_pi_pos : 0 < sqrt PI. Proof. apply sqrt_lt_R0, PI_RGT_0. Qed.
Lemma erf_bound x : -1 < erf x < 1.
Proof.
  pose proof (erf_int_bound x) as B. pose proof sqrt_pi_pos as P. pose proof (sqrt_sqrt PI ltac:(apply Rlt_le, PI_RGT_0)) as S.
  assert (Q : erf x * erf x < 1).
  { unfold erf. replace (2 / sqrt PI * erf_int x * (2 / sqrt PI * erf_int x)) with (4 / (sqrt PI * sqrt PI) * (erf_int x * erf_int x)) by (field; lra).
    rewrite S. pose proof PI_RGT_0. apply Rmult_lt_reg_l with (PI / 4); [lra|]. replace (PI / 4 * (4 / PI * (erf_int x * erf_int x))) with (erf_int x * erf_int x) by (field; lra). lra. }
  split; nra.
Qed.
Lemma erf_derive x : is_derive erf x (2 / sqrt PI * exp (- (x * x))).
Proof.
  evar_last; [apply (is_derive_scal erf_int x (2 / sqrt PI) (gauss x)); apply erf_int_derive|]. reflexivity.
Qed.
Lemma erf_0 : erf 0 = 0.
Proof. unfold erf, erf_int. rewrite RInt_point. apply Rmult_0_r. Qed.
Lemma erf_increasing x y : x < y -> erf x < erf y.
Proof.
  intros H. unfold erf. apply Rmult_lt_compat_l; [apply Rdiv_lt_0_compat; [lra|apply sqrt_pi_pos]|].
  assert (C : erf_int y = erf_int x + RInt gauss x y) by (symmetry; apply (RInt_Chasles gauss 0 x y); apply gauss_int).
  pose proof (RInt_gt_0 gauss x y H (fun t _ => gauss_pos t) (fun t _ => gauss_cont t)). rewrite C. lra.
Qed.
