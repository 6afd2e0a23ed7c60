(** More proofs about MathModel.v in IEEE binary64. *)
From Coq Require Import Reals Lra Psatz.
From Flocq Require Import Core BinarySingleNaN.
From Verif Require Import Base UtilityModel Double DoubleFacts MathModel MathReal MathDouble.
Local Open Scope R_scope.

Lemma d0_val : B2R (d_of_Z 0) = 0 /\ is_finite (d_of_Z 0) = true. Proof. apply (d_of_Z_exact 0); lia. Qed.
Lemma d1_val : B2R (d_of_Z 1) = 1 /\ is_finite (d_of_Z 1) = true. Proof. apply (d_of_Z_exact 1); lia. Qed.
Lemma d2_val : B2R (d_of_Z 2) = 2 /\ is_finite (d_of_Z 2) = true. Proof. apply (d_of_Z_exact 2); lia. Qed.
Lemma Rminus_diag x : x - x = 0. Proof. ring. Qed.
Lemma big10 : 10 <= bpow radix2 1023.
Proof. apply Rle_trans with (bpow radix2 4); [change (bpow radix2 4) with 16; lra|apply bpow_le; lia]. Qed.

(** Values that need no rounding are only shifted by whole turns. *)
Lemma wrapD_value v : is_finite v = true -> 0 <= rnd64 (B2R v + PD) < 2 * PD -> B2R (wrapD v) = rnd64 (B2R v + PD) - PD.
Proof.
  intros Fv H. destruct (wrapD_spec v Fv) as (_ & B & k & E). pose proof dpi_bounds.
  assert (k = 0%Z); [|subst k; lra].
  assert (-1 < IZR k < 1) as [K1 K2].
  { split; apply Rmult_lt_reg_r with (2 * PD); lra. }
  apply lt_IZR in K1, K2. lia.
Qed.
(** Wrapping twice is wrapping once for values not below minus one half turn. *)
Lemma wrapD_idem v : is_finite v = true -> - PD <= B2R v -> B2R (wrapD (wrapD v)) = B2R (wrapD v).
Proof.
  intros Fv Hv. pose proof dpi_bounds as B. destruct dpi_val as [_ Fp]. destruct (dadd_pi_val v Fv) as [E F]. destruct two_pi_val as [E2 F2].
  destruct (wrapD_spec v Fv) as (Fr & Br & k & Er).
  assert (X0 : 0 <= rnd64 (B2R v + PD)) by (rewrite <- rnd64_0; apply rnd64_mono; lra).
  destruct (fmod_val (dsub v (Bopp dpi)) (dsub dpi (Bopp dpi)) F F2) as [EM FM]; [rewrite E2; lra|]. rewrite E, E2 in EM.
  destruct (Rfmod_bounds (rnd64 (B2R v + PD)) (2 * PD)) as (R1 & _ & _); [lra|]. specialize (R1 X0).
  assert (S : B2R (wrapD v) + PD = B2R (dfmod (dsub v (Bopp dpi)) (dsub dpi (Bopp dpi)))).
  { rewrite EM, Er. unfold Rfmod. unfold Rfmod in R1. set (n := Ztrunc _) in *.
    assert (k = n); [|subst k; ring].
    assert (-1 < IZR (k - n) < 1) as [K1 K2].
    { rewrite minus_IZR. split; apply Rmult_lt_reg_r with (2 * PD); lra. }
    apply lt_IZR in K1, K2. lia. }
  rewrite (wrapD_value (wrapD v) Fr); rewrite S, rnd64_fix; [rewrite <- S; ring|rewrite <- S; lra].
Qed.

Lemma sdistD_spec p1 p2 : is_finite p1 = true -> is_finite p2 = true ->
  is_finite (sdistD p1 p2) = true /\ - PD <= B2R (sdistD p1 p2) < PD.
Proof.
  intros F1 F2. unfold ContinuousRevoluteSignedDistance. cbn [asub double_arith].
  destruct (wrapD_spec p1 F1) as (G1 & B1 & _), (wrapD_spec p2 F2) as (G2 & B2' & _). pose proof dpi_bounds. pose proof big10.
  destruct (dsub_val (wrapD p2) (wrapD p1) G2 G1) as [_ G].
  - apply Rabs_le. lra.
  - destruct (wrapD_spec _ G) as (H1 & H2 & _). auto.
Qed.
Lemma pi2_val : B2R (dmul (d_of_Z 2) dpi) = 2 * PD /\ is_finite (dmul (d_of_Z 2) dpi) = true.
Proof.
  destruct d2_val as [V2 F2]. destruct dpi_val as [V F]. pose proof dpi_bounds. pose proof big10.
  destruct (dmul_val _ _ F2 F) as [E G].
  - rewrite V2. apply Rabs_le. lra.
  - split; [|exact G]. rewrite E, V2. rewrite V. replace (2 * (IZR 7074237752028440 * bpow radix2 (-51))) with (IZR 7074237752028440 * bpow radix2 (-50)).
    + apply rnd64_exact; lia.
    + change (-50)%Z with (1 + -51)%Z. rewrite bpow_plus. change (bpow radix2 1) with 2. ring.
Qed.
Lemma rangeD_spec s e : is_finite s = true -> is_finite e = true ->
  let r := GetContinuousRevoluteRange double_arith s e in is_finite r = true /\ 0 <= B2R r <= 2 * PD.
Proof.
  intros Fs Fe. cbv zeta. unfold GetContinuousRevoluteRange. cbn [aleb a_of aadd amul a_pi double_arith].
  destruct (sdistD_spec s e Fs Fe) as (F & B). destruct d0_val as [Z0 FZ]. destruct pi2_val as [E2 F2]. pose proof dpi_bounds. pose proof big10.
  destruct (dle (d_of_Z 0) (sdistD s e)) eqn:D.
  - apply (dle_R _ _ FZ F) in D. rewrite Z0 in D. split; [exact F|lra].
  - assert (N : B2R (sdistD s e) < 0) by (rewrite <- Z0; apply Rnot_le_lt; intros C; apply (dle_R _ _ FZ F) in C; congruence).
    destruct (dadd_val _ _ F2 F) as [EA FA]; [rewrite E2; apply Rabs_le; lra|]. split; [exact FA|]. rewrite EA, E2.
    split.
    + rewrite <- rnd64_0. apply rnd64_mono. lra.
    + assert (R2 : rnd64 (2 * PD) = 2 * PD) by (rewrite <- E2; apply rnd64_fix). rewrite <- R2 at 2. apply rnd64_mono. lra.
Qed.
(** An angle is always within a range that starts at it. *)
Lemma start_accepted s r : is_finite s = true -> is_finite r = true -> 0 <= B2R r -> CheckInContinuousRevoluteRange double_arith s r s = true.
Proof.
  intros Fs Fr Hr. unfold CheckInContinuousRevoluteRange. cbn [aleb a_of aadd amul a_pi double_arith].
  destruct (wrapD_spec s Fs) as (F1 & B1 & _).
  destruct (sdistD_spec (wrapD s) (wrapD s) F1 F1) as [FD BD].
  assert (V : B2R (sdistD (wrapD s) (wrapD s)) = 0).
  { unfold ContinuousRevoluteSignedDistance. cbn [asub double_arith]. destruct (wrapD_spec _ F1) as (F2 & _ & _).
    destruct (dsub_val (wrapD (wrapD s)) (wrapD (wrapD s)) F2 F2) as [E F]; [rewrite Rminus_diag, Rabs_R0; apply bpow_ge_0|].
    rewrite Rminus_diag, rnd64_0 in E. pose proof dpi_bounds.
    rewrite (wrapD_value _ F); rewrite E, Rplus_0_l, rnd64_fix; lra. }
  destruct d0_val as [Z0 FZ].
  replace (dle (d_of_Z 0) (sdistD (wrapD s) (wrapD s))) with true by (symmetry; apply dle_R; auto; rewrite V, Z0; lra).
  apply dle_R; auto. rewrite V. exact Hr.
Qed.
Lemma start_in_bounds s e : is_finite s = true -> is_finite e = true -> CheckInContinuousRevoluteBounds double_arith s e s = true.
Proof. intros Fs Fe. destruct (rangeD_spec s e Fs Fe) as [F [L _]]. apply start_accepted; assumption. Qed.

(** Clamping the ratio. *)
Lemma clamp01D r : is_finite r = true -> exists c, clamp01 double_arith r = Ok c /\ is_finite c = true /\ B2R c = Rmax 0 (Rmin 1 (B2R r)).
Proof.
  intros Fr. destruct d0_val as [Z0 FZ], d1_val as [Z1 FO]. unfold clamp01, ClampValue. cbn [altb aleb a_of double_arith].
  replace (dle (d_of_Z 0) (d_of_Z 1)) with true by (symmetry; apply dle_R; auto; lra).
  destruct (dlt r (d_of_Z 0)) eqn:D1.
  - apply (dlt_R _ _ Fr FZ) in D1. exists (d_of_Z 0). split; [reflexivity|]. split; [exact FZ|]. rewrite Z0 in *. rewrite Rmin_right by lra. rewrite Rmax_left by lra. reflexivity.
  - assert (N1 : 0 <= B2R r) by (rewrite <- Z0; apply Rnot_lt_le; intros C; apply (dlt_R _ _ Fr FZ) in C; congruence).
    destruct (dlt (d_of_Z 1) r) eqn:D2.
    + apply (dlt_R _ _ FO Fr) in D2. exists (d_of_Z 1). split; [reflexivity|]. split; [exact FO|]. rewrite Z1 in *. rewrite Rmin_left by lra. rewrite Rmax_right by lra. reflexivity.
    + assert (N2 : B2R r <= 1) by (rewrite <- Z1; apply Rnot_lt_le; intros C; apply (dlt_R _ _ FO Fr) in C; congruence).
      exists r. split; [reflexivity|]. split; [exact Fr|]. rewrite Rmin_right by lra. rewrite Rmax_right by lra. reflexivity.
Qed.
Lemma clamp01_range x : 0 <= Rmax 0 (Rmin 1 x) <= 1.
Proof. split; [apply Rmax_l|]. apply Rmax_lub; [lra|apply Rmin_l]. Qed.

(** Interpolation of an angle stays in the canonical range. *)
Lemma interp_revoluteD p1 p2 r : is_finite p1 = true -> is_finite p2 = true -> is_finite r = true -> Rabs (B2R p1) <= bpow radix2 1022 ->
  exists q, InterpolateContinuousRevolute double_arith p1 p2 r = Ok q /\ is_finite q = true /\ - PD <= B2R q < PD.
Proof.
  intros F1 F2 Fr H1. unfold InterpolateContinuousRevolute. destruct (clamp01D r Fr) as (c & Ec & Fc & Vc). rewrite Ec. cbn [bind].
  pose proof (clamp01_range (B2R r)) as Bc. rewrite <- Vc in Bc. destruct (sdistD_spec p1 p2 F1 F2) as [FD BD]. pose proof dpi_bounds as B. pose proof big10 as G.
  eexists. split; [reflexivity|]. unfold AddContinuousRevoluteValues. cbn [aadd amul double_arith].
  assert (P4 : Rabs (B2R (sdistD p1 p2) * B2R c) <= 4).
  { rewrite Rabs_mult. rewrite (Rabs_pos_eq (B2R c)) by lra. assert (Rabs (B2R (sdistD p1 p2)) <= 4) by (apply Rabs_le; lra).
    pose proof (Rabs_pos (B2R (sdistD p1 p2))). nra. }
  destruct (dmul_val _ _ FD Fc) as [EM FM]; [lra|].
  assert (P4' : Rabs (B2R (dmul (sdistD p1 p2) c)) <= 4).
  { rewrite EM. apply abs_round_le_generic; try typeclasses eauto; [|exact P4]. change 4 with (bpow radix2 2). apply generic_format_bpow. reflexivity || (unfold fexp64, SpecFloat.fexp, SpecFloat.emin; lia). }
  destruct (dadd_val _ _ F1 FM) as [EA FA].
  { eapply Rle_trans; [apply Rabs_triang|]. apply Rle_trans with (bpow radix2 1022 + bpow radix2 1022).
    - assert (bpow radix2 2 <= bpow radix2 1022) by (apply bpow_le; lia). change (bpow radix2 2) with 4 in H. lra.
    - change 1023%Z with (1 + 1022)%Z. rewrite (bpow_plus radix2 1 1022). change (bpow radix2 1) with 2. lra. }
  destruct (wrapD_spec _ FA) as (W1 & W2 & _). auto.
Qed.

(** Interpolation of scalars. *)
Lemma interpD p1 p2 r : is_finite p1 = true -> is_finite p2 = true -> is_finite r = true ->
  Rabs (B2R p1) <= bpow radix2 1022 -> Rabs (B2R p2) <= bpow radix2 1022 ->
  exists q, Interpolate double_arith p1 p2 r = Ok q /\ is_finite q = true /\
    (B2R r <= 0 -> B2R q = B2R p1) /\ (1 <= B2R r -> B2R q = B2R p2) /\
    Rabs (B2R q - (B2R p1 + Rmax 0 (Rmin 1 (B2R r)) * (B2R p2 - B2R p1))) <= bpow radix2 (-51) * (Rabs (B2R p1) + Rabs (B2R p2)) + bpow radix2 (-1073).
Proof.
  intros F1 F2 Fr H1 H2. unfold Interpolate. destruct (clamp01D r Fr) as (c & Ec & Fc & Vc). rewrite Ec. cbn [bind].
  pose proof (clamp01_range (B2R r)) as Bc. rewrite <- Vc in Bc |- *. eexists. split; [reflexivity|]. cbn [aadd amul asub a_of double_arith].
  destruct d1_val as [Z1 FO].
  assert (E22 : bpow radix2 1023 = 2 * bpow radix2 1022) by (change 1023%Z with (1 + 1022)%Z; rewrite (bpow_plus radix2 1 1022); reflexivity).
  assert (P22 : 1 <= bpow radix2 1022) by (change 1 with (bpow radix2 0); apply bpow_le; lia).
  destruct (dsub_val (d_of_Z 1) c FO Fc) as [ES FS]; [rewrite Z1; apply Rabs_le; lra|]. rewrite Z1 in ES.
  set (s := dsub (d_of_Z 1) c) in *.
  assert (Bs : 0 <= B2R s <= 1).
  { assert (R1 : rnd64 1 = 1) by (apply (rnd64_IZR 1); lia). rewrite ES. split; [rewrite <- rnd64_0|rewrite <- R1 at 2]; apply rnd64_mono; lra. }
  assert (PM : forall (p t : double), Rabs (B2R p) <= bpow radix2 1022 -> 0 <= B2R t <= 1 -> Rabs (B2R p * B2R t) <= Rabs (B2R p)).
  { intros p t _ Ht. rewrite Rabs_mult, (Rabs_pos_eq (B2R t)) by lra. pose proof (Rabs_pos (B2R p)). nra. }
  pose proof (PM p1 s H1 Bs) as M1. pose proof (PM p2 c H2 Bc) as M2.
  destruct (dmul_val p1 s F1 FS) as [EA FA]; [lra|]. destruct (dmul_val p2 c F2 Fc) as [EB FB]; [lra|].
  assert (PR : forall (p : double) z, Rabs z <= Rabs (B2R p) -> Rabs (rnd64 z) <= Rabs (B2R p)).
  { intros p z Hz. apply abs_round_le_generic; try typeclasses eauto; [|exact Hz]. apply generic_format_abs, (generic_format_B2R 53 1024 p). }
  pose proof (PR _ _ M1) as N1. pose proof (PR _ _ M2) as N2. rewrite <- EA in N1. rewrite <- EB in N2.
  assert (NS : Rabs (B2R (dmul p1 s) + B2R (dmul p2 c)) <= Rabs (B2R p1) + Rabs (B2R p2)) by (eapply Rle_trans; [apply Rabs_triang|lra]).
  destruct (dadd_val _ _ FA FB) as [EQ FQ]; [lra|]. split; [exact FQ|].
  split; [|split].
  - intros Hr. rewrite (Rmin_right 1 (B2R r)), Rmax_left in Vc by lra. rewrite EQ, EA, EB, ES, Vc.
    replace (rnd64 (1 - 0)) with 1 by (rewrite Rminus_0_r; symmetry; apply (rnd64_IZR 1); lia).
    rewrite Rmult_0_r, rnd64_0, Rplus_0_r, Rmult_1_r, !rnd64_fix. reflexivity.
  - intros Hr. rewrite (Rmin_left 1 (B2R r)), Rmax_right in Vc by lra. rewrite EQ, EA, EB, ES, Vc.
    rewrite Rminus_diag, rnd64_0, Rmult_0_r, rnd64_0, Rplus_0_l, Rmult_1_r, !rnd64_fix. reflexivity.
  - assert (XS : Rabs (B2R s - (1 - B2R c)) <= bpow radix2 (-53)).
    { rewrite ES. destruct (Req_dec (1 - B2R c) 0) as [Z|Z]; [rewrite Z, rnd64_0, Rminus_0_r, Rabs_R0; apply bpow_ge_0|].
      destruct (Rle_or_lt (bpow radix2 (-1022)) (Rabs (1 - B2R c))) as [L|L].
      - destruct (rnd64_rel _ L) as (eps & Be & ->). replace ((1 - B2R c) * (1 + eps) - (1 - B2R c)) with (eps * (1 - B2R c)) by ring.
        rewrite Rabs_mult, (Rabs_pos_eq (1 - B2R c)) by lra. pose proof (Rabs_pos eps). nra.
      - eapply Rle_trans; [apply half_ulp|]. rewrite (Rabs_pos_eq (1 - B2R c)) in * by lra.
        assert (bpow radix2 (-1022) <= bpow radix2 (-54)) by (apply bpow_le; lia). assert (bpow radix2 (-1075) <= bpow radix2 (-54)) by (apply bpow_le; lia).
        assert (bpow radix2 (-53) = 2 * bpow radix2 (-54)) by (change (-53)%Z with (1 + -54)%Z; rewrite (bpow_plus radix2 1 (-54)); reflexivity).
        assert (bpow radix2 (-53) <= 1) by (change 1 with (bpow radix2 0); apply bpow_le; lia). pose proof (bpow_ge_0 radix2 (-53)). nra. }
    assert (X1 : Rabs (B2R p1 * B2R s - B2R p1 * (1 - B2R c)) <= bpow radix2 (-53) * Rabs (B2R p1)).
    { rewrite <- Rmult_minus_distr_l, Rabs_mult, Rmult_comm. apply Rmult_le_compat_r; [apply Rabs_pos|exact XS]. }
    pose proof (half_ulp (B2R p1 * B2R s)) as X2. rewrite <- EA in X2. pose proof (half_ulp (B2R p2 * B2R c)) as X3. rewrite <- EB in X3.
    pose proof (half_ulp (B2R (dmul p1 s) + B2R (dmul p2 c))) as X4. rewrite <- EQ in X4.
    assert (Y2 : bpow radix2 (-53) * Rabs (B2R p1 * B2R s) <= bpow radix2 (-53) * Rabs (B2R p1)) by (apply Rmult_le_compat_l; [apply bpow_ge_0|exact M1]).
    assert (Y3 : bpow radix2 (-53) * Rabs (B2R p2 * B2R c) <= bpow radix2 (-53) * Rabs (B2R p2)) by (apply Rmult_le_compat_l; [apply bpow_ge_0|exact M2]).
    assert (Y4 : bpow radix2 (-53) * Rabs (B2R (dmul p1 s) + B2R (dmul p2 c)) <= bpow radix2 (-53) * (Rabs (B2R p1) + Rabs (B2R p2))) by (apply Rmult_le_compat_l; [apply bpow_ge_0|exact NS]).
    assert (E51 : bpow radix2 (-51) = 4 * bpow radix2 (-53)) by (change (-51)%Z with (2 + -53)%Z; rewrite (bpow_plus radix2 2 (-53)); reflexivity).
    assert (E73 : bpow radix2 (-1073) = 4 * bpow radix2 (-1075)) by (change (-1073)%Z with (2 + -1075)%Z; rewrite (bpow_plus radix2 2 (-1075)); reflexivity).
    rewrite E51, E73. set (u := bpow radix2 (-53)) in *. set (t := bpow radix2 (-1075)) in *.
    assert (0 <= u * Rabs (B2R p1)) by (apply Rmult_le_pos; [apply bpow_ge_0|apply Rabs_pos]).
    assert (0 <= u * Rabs (B2R p2)) by (apply Rmult_le_pos; [apply bpow_ge_0|apply Rabs_pos]). assert (0 <= t) by apply bpow_ge_0.
    apply Rabs_le_inv in X1, X2, X3, X4. apply Rabs_le. lra.
Qed.
