(** Proofs about MathModel.v in IEEE binary64 (C68, C69, C88-...). *)
From Coq Require Import Reals Lra Psatz.
From Flocq Require Import Core BinarySingleNaN Sterbenz.
From Verif Require Import Base UtilityModel Double DoubleFacts MathModel MathReal.
Local Open Scope R_scope.

Notation wrapD := (EnforceContinuousRevoluteBounds double_arith).
Notation sdistD := (ContinuousRevoluteSignedDistance double_arith).
Notation PD := (B2R dpi).

Lemma dpi_val : PD = IZR 7074237752028440 * bpow radix2 (-51) /\ is_finite dpi = true.
Proof.
  split; [|reflexivity]. unfold dpi, d_of_me.
  pose proof (binary_normalize_correct 53 1024 eq_refl eq_refl mode_NE 7074237752028440 (-51) false) as C.
  cbv zeta in C. unfold F2R in C. cbn [Fnum Fexp] in C. change (round_mode mode_NE) with ZnearestE in C. fold fexp64 in C.
  change (round radix2 fexp64 ZnearestE (IZR 7074237752028440 * bpow radix2 (-51))) with (rnd64 (IZR 7074237752028440 * bpow radix2 (-51))) in C.
  rewrite rnd64_exact in C by lia. rewrite Rlt_bool_true in C; [apply C|].
  apply Rle_lt_trans with (bpow radix2 2); [|apply bpow_lt; lia]. rewrite Rabs_mult, !Rabs_pos_eq by (try apply bpow_ge_0; apply IZR_le; lia).
  change (bpow radix2 2) with 4. change (bpow radix2 (-51)) with (/ IZR (2 ^ 51)).
  apply Rmult_le_reg_r with (IZR (2 ^ 51)); [apply IZR_lt; reflexivity|]. rewrite Rmult_assoc, Rinv_l, Rmult_1_r, <- mult_IZR; [apply IZR_le; lia|apply IZR_neq; lia].
Qed.
Lemma dpi_bounds : 314159 / 100000 < PD < 314160 / 100000.
Proof.
  destruct dpi_val as [-> _]. change (bpow radix2 (-51)) with (/ IZR (2 ^ 51)). 
  assert (0 < IZR (2 ^ 51)) by (apply IZR_lt; reflexivity).
  split; apply Rmult_lt_reg_r with (IZR (2^51)); try assumption; rewrite (Rmult_assoc (IZR 7074237752028440)), Rinv_l, Rmult_1_r by lra;
  [replace (314159 / 100000 * IZR (2 ^ 51)) with (IZR (314159 * 2 ^ 51) / 100000)|replace (314160 / 100000 * IZR (2 ^ 51)) with (IZR (314160 * 2 ^ 51) / 100000)];
  try (rewrite mult_IZR; field); apply Rmult_lt_reg_r with 100000; try lra; unfold Rdiv; rewrite Rmult_assoc, Rinv_l, Rmult_1_r by lra; rewrite <- mult_IZR; apply IZR_lt; reflexivity.
Qed.

(** The exact remainder. *)
Lemma finite_val s m e B : B2R (B754_finite s m e B : double) = IZR (cond_Zopp s (Zpos m)) * bpow radix2 e.
Proof. reflexivity. Qed.
Lemma finite_bounds m e : SpecFloat.bounded 53 1024 m e = true -> (Zpos m < 2 ^ 53)%Z /\ (-1074 <= e)%Z.
Proof.
  intros B. unfold SpecFloat.bounded in B. apply andb_prop in B as [B1 _]. unfold SpecFloat.canonical_mantissa in B1. apply Zeq_bool_eq in B1.
  unfold SpecFloat.fexp, SpecFloat.emin in B1. rewrite Zpos_digits2_pos in B1. split; [|lia].
  pose proof (Zdigits_correct radix2 (Zpos m)) as [_ D]. rewrite Z.abs_eq in D by lia.
  eapply Z.lt_le_trans; [exact D|]. change (radix_val radix2) with 2%Z. apply Z.pow_le_mono_r; lia.
Qed.

Lemma normalize_exact m e s : (Z.abs m <= 2 ^ 53)%Z -> (-1074 <= e)%Z -> IZR (Z.abs m) * bpow radix2 e < bpow radix2 1024 ->
  let r := binary_normalize 53 1024 eq_refl eq_refl mode_NE m e s : double in
  B2R r = IZR m * bpow radix2 e /\ is_finite r = true.
Proof.
  intros Hm He Hb r. pose proof (binary_normalize_correct 53 1024 eq_refl eq_refl mode_NE m e s) as C.
  cbv zeta in C. unfold F2R in C. cbn [Fnum Fexp] in C. change (round_mode mode_NE) with ZnearestE in C. fold fexp64 in C.
  change (round radix2 fexp64 ZnearestE (IZR m * bpow radix2 e)) with (rnd64 (IZR m * bpow radix2 e)) in C.
  rewrite rnd64_exact in C by assumption. rewrite Rlt_bool_true in C; [unfold r; tauto|].
  rewrite Rabs_mult, <- abs_IZR, (Rabs_pos_eq (bpow radix2 e)) by apply bpow_ge_0. exact Hb.
Qed.

Lemma fmod_val x y : is_finite x = true -> is_finite y = true -> 0 < B2R y ->
  B2R (dfmod x y) = Rfmod (B2R x) (B2R y) /\ is_finite (dfmod x y) = true.
Proof.
  intros Fx Fy Py. destruct y as [sy|sy| |sy my ey By]; try discriminate; [cbn in Py; lra|].
  destruct x as [sx|sx| |sx mx ex Bx]; try discriminate.
  { cbn [dfmod]. split; [|reflexivity]. change (B2R (B754_zero sx : double)) with 0. unfold Rfmod, Rdiv. rewrite Rmult_0_l, (Ztrunc_IZR 0). ring. }
  assert (sy = false).
  { destruct sy; [|reflexivity]. exfalso. rewrite finite_val in Py. cbn [cond_Zopp] in Py. pose proof (bpow_gt_0 radix2 ey).
    assert (IZR (- Z.pos my) < 0) by (apply IZR_lt; lia). nra. }
  subst sy. cbn [dfmod]. set (e := Z.min ex ey).
  apply finite_bounds in Bx as Bx'. apply finite_bounds in By as By'. destruct Bx' as [Lx Ex], By' as [Ly Ey].
  set (X := (Z.pos mx * 2 ^ (ex - e))%Z). set (Y := (Z.pos my * 2 ^ (ey - e))%Z).
  assert (HX : (0 < X)%Z) by (unfold X; apply Z.mul_pos_pos; [lia|apply Z.pow_pos_nonneg; lia]).
  assert (HY : (0 < Y)%Z) by (unfold Y; apply Z.mul_pos_pos; [lia|apply Z.pow_pos_nonneg; lia]).
  assert (VX : B2R (B754_finite sx mx ex Bx : double) = IZR (cond_Zopp sx X) * bpow radix2 e).
  { rewrite finite_val. unfold X. replace (cond_Zopp sx (Z.pos mx * 2 ^ (ex - e))) with (cond_Zopp sx (Z.pos mx) * 2 ^ (ex - e))%Z by (destruct sx; cbn [cond_Zopp]; ring).
    rewrite mult_IZR, IZR_pow2 by lia. rewrite Rmult_assoc, <- bpow_plus. do 2 f_equal. lia. }
  assert (VY : B2R (B754_finite false my ey By : double) = IZR Y * bpow radix2 e).
  { rewrite finite_val. unfold Y. cbn [cond_Zopp]. rewrite mult_IZR, IZR_pow2 by lia. rewrite Rmult_assoc, <- bpow_plus. do 2 f_equal. lia. }
  set (r := Z.rem X Y).
  assert (Hr : (0 <= r < Y)%Z) by (apply Z.rem_bound_pos; lia).
  assert (HrX : (r <= X)%Z) by (apply Z.rem_le; lia).
  assert (Hr53 : (r <= 2 ^ 53)%Z).
  { destruct (Z.min_spec ex ey) as [[L M]|[L M]]; fold e in M.
    - assert (X = Z.pos mx) by (unfold X; rewrite M, Z.sub_diag; lia). lia.
    - assert (Y = Z.pos my) by (unfold Y; rewrite M, Z.sub_diag; lia). lia. }
  assert (Ar : Z.abs (cond_Zopp sx r) = r) by (destruct sx; cbn [cond_Zopp]; lia).
  destruct (normalize_exact (cond_Zopp sx r) e sx) as [V F].
  { rewrite Ar. exact Hr53. } { unfold e. lia. }
  { rewrite Ar. apply Rle_lt_trans with (IZR Y * bpow radix2 e).
    - apply Rmult_le_compat_r; [apply bpow_ge_0|]. apply IZR_le. lia.
    - rewrite <- VY. pose proof (abs_B2R_lt_emax 53 1024 eq_refl eq_refl (B754_finite false my ey By)) as A || pose proof (abs_B2R_lt_emax 53 1024 (B754_finite false my ey By)) as A || pose proof (abs_B2R_lt_emax (B754_finite false my ey By : double)) as A.
      apply Rle_lt_trans with (2 := A). apply Rle_abs. }
  cbv zeta in V, F. split; [|exact F]. rewrite V, VX, VY. unfold Rfmod.
  assert (HYR : IZR Y <> 0) by (apply IZR_neq; lia). pose proof (bpow_gt_0 radix2 e) as He.
  replace (IZR (cond_Zopp sx X) * bpow radix2 e / (IZR Y * bpow radix2 e)) with (IZR (cond_Zopp sx X) / IZR Y) by (field; split; [lra|exact HYR]).
  rewrite Ztrunc_div by lia. rewrite <- Rmult_assoc, <- mult_IZR, <- Rmult_minus_distr_r, <- minus_IZR. do 2 f_equal.
  pose proof (Z.quot_rem (cond_Zopp sx X) Y ltac:(lia)) as Q.
  assert (cond_Zopp sx r = Z.rem (cond_Zopp sx X) Y) as ->; [|lia].
  unfold r. destruct sx; cbn [cond_Zopp]; [|reflexivity]. rewrite Z.rem_opp_l by lia. reflexivity.
Qed.

(** Rounding of [v + P] never overflows and errs by at most half an ulp. *)
Lemma rnd_near x (f : double) : Rabs (rnd64 x - x) <= Rabs (B2R f - x).
Proof.
  pose proof (round_N_pt radix2 fexp64 (fun x => negb (Z.even x)) x) as [_ H].
  apply (H (B2R f)). apply (generic_format_B2R 53 1024 f).
Qed.
Lemma max_val (v : double) : Rabs (B2R v) <= bpow radix2 1024 - bpow radix2 971.
Proof. apply (abs_B2R_le_emax_minus_prec 53 1024 eq_refl v). Qed.
Lemma dadd_pi_val v : is_finite v = true -> B2R (dsub v (Bopp dpi)) = rnd64 (B2R v + PD) /\ is_finite (dsub v (Bopp dpi)) = true.
Proof.
  intros Fv. destruct dpi_val as [_ Fp].
  assert (Fo : is_finite (Bopp dpi) = true) by (rewrite is_finite_Bopp; exact Fp).
  pose proof (Bminus_correct 53 1024 eq_refl eq_refl mode_NE v (Bopp dpi) Fv Fo) as C. rewrite B2R_Bopp in C.
  replace (B2R v - - PD) with (B2R v + PD) in C by ring. change (round_mode mode_NE) with ZnearestE in C. fold fexp64 in C.
  change (round radix2 fexp64 ZnearestE (B2R v + PD)) with (rnd64 (B2R v + PD)) in C.
  rewrite Rlt_bool_true in C; [tauto|].
  pose proof (rnd_near (B2R v + PD) v) as N. pose proof (max_val v) as M. pose proof dpi_bounds as B.
  replace (B2R v - (B2R v + PD)) with (- PD) in N by ring. rewrite Rabs_Ropp, (Rabs_pos_eq PD) in N by lra.
  assert (G : bpow radix2 3 < bpow radix2 971) by (apply bpow_lt; lia). change (bpow radix2 3) with 8 in G.
  apply Rabs_le_inv in M. apply Rabs_le_inv in N. apply Rabs_lt. lra.
Qed.
Lemma two_pi_val : B2R (dsub dpi (Bopp dpi)) = 2 * PD /\ is_finite (dsub dpi (Bopp dpi)) = true.
Proof.
  destruct dpi_val as [V F]. destruct (dadd_pi_val dpi F) as [E G]. split; [|exact G]. rewrite E, V.
  replace (IZR 7074237752028440 * bpow radix2 (-51) + IZR 7074237752028440 * bpow radix2 (-51)) with (IZR 7074237752028440 * bpow radix2 (-50)).
  - rewrite rnd64_exact by lia. change (-50)%Z with (1 + -51)%Z. rewrite bpow_plus. change (bpow radix2 1) with 2. ring.
  - change (-50)%Z with (1 + -51)%Z. rewrite bpow_plus. change (bpow radix2 1) with 2. ring.
Qed.
(** A representable number of magnitude at least 2^e is a multiple of 2^(e-52). *)
Lemma multiple_of (x : double) e : (-1022 <= e)%Z -> bpow radix2 e <= Rabs (B2R x) -> exists m, B2R x = IZR m * bpow radix2 (e - 52).
Proof.
  intros He H. pose proof (generic_format_B2R 53 1024 x) as G. unfold generic_format in G. fold fexp64 in G.
  set (c := cexp radix2 fexp64 (B2R x)) in *. assert (C : (e - 52 <= c)%Z).
  { unfold c, cexp. pose proof (mag_ge_bpow radix2 (B2R x) (e + 1)) as M. rewrite fexp64_FLT. unfold FLT_exp.
    assert (e + 1 <= mag radix2 (B2R x))%Z; [apply M; replace (e + 1 - 1)%Z with e by lia; exact H|]. lia. }
  exists (Ztrunc (scaled_mantissa radix2 fexp64 (B2R x)) * 2 ^ (c - (e - 52)))%Z.
  rewrite mult_IZR, IZR_pow2 by lia. rewrite Rmult_assoc, <- bpow_plus. replace (c - (e - 52) + (e - 52))%Z with c by lia. exact G.
Qed.
Lemma small_multiple_exact z m e k : z = IZR m * bpow radix2 e -> (-1074 <= e)%Z -> (e + 53 = k)%Z -> Rabs z <= bpow radix2 k -> rnd64 z = z.
Proof.
  intros -> He Hk H. apply rnd64_exact; [|exact He].
  rewrite Rabs_mult, <- abs_IZR, (Rabs_pos_eq (bpow radix2 e)) in H by apply bpow_ge_0.
  replace k with (53 + e)%Z in H by lia. rewrite bpow_plus in H. apply Rmult_le_reg_r in H; [|apply bpow_gt_0].
  apply le_IZR. rewrite IZR_pow2 by lia. exact H.
Qed.

Lemma pi51 k : IZR k * PD = IZR (k * 7074237752028440) * bpow radix2 (-51).
Proof. destruct dpi_val as [-> _]. rewrite mult_IZR. ring. Qed.

(** [sh] is the shift by an odd number of half turns that the code applies last. *)
Lemma shift_exact (v : double) n sh : is_finite v = true ->
  let x := rnd64 (B2R v + PD) in
  let rem := x - IZR n * (2 * PD) in
  (Rabs x < 2 * PD -> n = 0%Z) ->
  ((sh = -1)%Z /\ 0 <= rem < 2 * PD /\ (n = 0%Z -> 0 <= x) \/ (sh = 1)%Z /\ - (2 * PD) < rem < 0 /\ (n = 0%Z -> x < 0)) ->
  rnd64 (rem + IZR sh * PD) = rem + IZR sh * PD.
Proof.
  intros Fv x rem Hn Hs. pose proof dpi_bounds as B. destruct (dadd_pi_val v Fv) as [E F]. set (xd := dsub v (Bopp dpi)) in *.
  fold x in E.
  assert (Hz : Rabs (rem + IZR sh * PD) <= PD).
  { destruct Hs as [(-> & H & _)|(-> & H & _)]; apply Rabs_le; lra. }
  assert (Hs2 : sh = (-1)%Z \/ sh = 1%Z) by tauto.
  assert (B4 : PD <= bpow radix2 2) by (change (bpow radix2 2) with 4; lra).
  (* any multiple of 2^-51 is fine *)
  assert (M51 : forall a, x = IZR a * bpow radix2 (-51) -> rnd64 (rem + IZR sh * PD) = rem + IZR sh * PD).
  { intros a Ha. apply (small_multiple_exact _ (a + (sh - 2 * n) * 7074237752028440) (-51) 2); try lia; [|lra].
    rewrite plus_IZR, Rmult_plus_distr_r, <- Ha, <- pi51, minus_IZR, mult_IZR. unfold rem. ring. }
  destruct (Rle_or_lt 2 (Rabs x)) as [H2|H2].
  { destruct (multiple_of xd 1) as [a Ha]; [lia|rewrite E; exact H2|]. rewrite E in Ha. apply (M51 a). exact Ha. }
  assert (N0 : n = 0%Z) by (apply Hn; lra). assert (Er : rem = x) by (unfold rem; rewrite N0; ring). clearbody rem. subst rem. subst n. clear Hn M51.
  destruct (Rle_or_lt (3/2) (Rabs x)) as [H1|H1].
  { destruct (multiple_of xd 0) as [a Ha]; [lia|rewrite E; change (bpow radix2 0) with 1; lra|]. rewrite E in Ha.
    apply (small_multiple_exact _ (a + sh * (7074237752028440 * 2)) (-52) 1); try lia.
    - rewrite plus_IZR, Rmult_plus_distr_r. change (0 - 52)%Z with (-52)%Z in Ha. rewrite <- Ha. f_equal.
      rewrite pi51. assert (E2 : bpow radix2 (-51) = 2 * bpow radix2 (-52)) by (change (-51)%Z with (1 + -52)%Z; rewrite bpow_plus; reflexivity).
      rewrite E2, !mult_IZR. ring.
    - change (bpow radix2 1) with 2. destruct Hs as [(-> & H & H0)|(-> & H & H0)]; apply Rabs_le; specialize (H0 eq_refl);
      [rewrite Rabs_pos_eq in H1, H2 by lra|rewrite Rabs_left in H1, H2 by lra]; lra. }
  assert (HV : Rabs (B2R v + PD) < 3/2).
  { assert (R32 : rnd64 (3/2) = 3/2).
    { replace (3/2) with (IZR 3 * bpow radix2 (-1)); [apply rnd64_exact; lia|]. change (bpow radix2 (-1)) with (/2). lra. }
    assert (R32' : rnd64 (-(3/2)) = -(3/2)).
    { replace (-(3/2)) with (IZR (-3) * bpow radix2 (-1)); [apply rnd64_exact; lia|]. change (bpow radix2 (-1)) with (/2). lra. }
    apply Rabs_def2 in H1. apply Rabs_def1.
    - apply Rnot_le_lt. intros C. apply rnd64_mono in C. rewrite R32 in C. fold x in C. lra.
    - apply Rnot_le_lt. intros C. apply rnd64_mono in C. rewrite R32' in C. fold x in C. lra. }
  apply Rabs_def2 in HV.
  assert (EX : x = B2R v + PD).
  { unfold x. apply round_generic; [typeclasses eauto|]. replace (B2R v + PD) with (PD - (- B2R v)) by ring.
    apply sterbenz; try typeclasses eauto.
    - apply (generic_format_B2R 53 1024 dpi).
    - rewrite <- B2R_Bopp. apply (generic_format_B2R 53 1024 (Bopp v)).
    - lra. }
  rewrite EX in *. destruct Hs as [(-> & H & H0)|(-> & H & H0)].
  - replace (B2R v + PD + -1 * PD) with (B2R v) by ring. apply rnd64_fix.
  - destruct (multiple_of v 1) as [a Ha]; [lia|change (bpow radix2 1) with 2; rewrite Rabs_left by lra; lra|].
    change (1 - 52)%Z with (-51)%Z in Ha.
    apply (small_multiple_exact _ (a + 2 * 7074237752028440) (-51) 2); try lia; [|lra].
    rewrite plus_IZR, Rmult_plus_distr_r, <- Ha, <- pi51. ring.
Qed.

Lemma Rfmod_bounds x y : 0 < y -> (0 <= x -> 0 <= Rfmod x y < y) /\ (x < 0 -> - y < Rfmod x y <= 0) /\ (Rabs x < y -> Ztrunc (x / y) = 0%Z).
Proof.
  intros Hy. assert (E : x = x / y * y) by (field; lra). unfold Rfmod. set (q := x / y) in *.
  assert (F : x - IZR (Ztrunc q) * y = (q - IZR (Ztrunc q)) * y) by (rewrite E at 1; ring). rewrite F. clear F.
  repeat split.
  - assert (Hq : 0 <= q) by (apply Rmult_le_reg_r with y; lra). rewrite (Ztrunc_floor q Hq). pose proof (Zfloor_lb q). apply Rmult_le_pos; lra.
  - assert (Hq : 0 <= q) by (apply Rmult_le_reg_r with y; lra). rewrite (Ztrunc_floor q Hq). pose proof (Zfloor_ub q). rewrite <- (Rmult_1_l y) at 2. apply Rmult_lt_compat_r; lra.
  - assert (Hq : q <= 0) by (apply Rmult_le_reg_r with y; lra). rewrite (Ztrunc_ceil q Hq). pose proof (Zceil_lb q). replace (- y) with (-1 * y) by ring. apply Rmult_lt_compat_r; lra.
  - assert (Hq : q <= 0) by (apply Rmult_le_reg_r with y; lra). rewrite (Ztrunc_ceil q Hq). pose proof (Zceil_ub q). rewrite <- (Rmult_0_l y). apply Rmult_le_compat_r; lra.
  - intros Hx. apply Rabs_def2 in Hx. destruct (Rle_or_lt 0 q) as [Hq|Hq].
    + rewrite (Ztrunc_floor q Hq). apply Zfloor_imp. cbn. split; [lra|]. apply Rmult_lt_reg_r with y; lra.
    + rewrite (Ztrunc_ceil q) by lra. apply Zceil_imp. cbn. split; [|lra]. apply Rmult_lt_reg_r with y; lra.
Qed.

(** The double nearest to [v] plus one half turn, folded into one turn exactly. *)
Lemma wrapD_spec v : is_finite v = true ->
  is_finite (wrapD v) = true /\ - PD <= B2R (wrapD v) < PD /\
  exists k, B2R (wrapD v) = rnd64 (B2R v + PD) - PD - IZR k * (2 * PD).
Proof.
  intros Fv. pose proof dpi_bounds as B. destruct dpi_val as [_ Fp]. destruct (dadd_pi_val v Fv) as [E F]. destruct two_pi_val as [E2 F2].
  unfold EnforceContinuousRevoluteBounds. cbn [a_pi aopp asub afmod aleb aadd double_arith a_of].
  destruct (fmod_val (dsub v (Bopp dpi)) (dsub dpi (Bopp dpi)) F F2) as [EM FM]; [rewrite E2; lra|].
  set (rem := dfmod _ _) in *. rewrite E, E2 in EM. set (x := rnd64 (B2R v + PD)) in *.
  destruct (Rfmod_bounds x (2 * PD)) as (R1 & R2 & R3); [lra|]. rewrite <- EM in R1, R2.
  assert (EV : B2R rem = x - IZR (Ztrunc (x / (2 * PD))) * (2 * PD)) by exact EM. set (n := Ztrunc (x / (2 * PD))) in *.
  assert (Z0 : B2R (d_of_Z 0) = 0 /\ is_finite (d_of_Z 0) = true) by (apply (d_of_Z_exact 0); lia). destruct Z0 as [Z0 FZ].
  assert (S4 : 4 <= bpow radix2 1023) by (change 4 with (bpow radix2 2); apply bpow_le; lia).
  destruct (dle (d_of_Z 0) rem) eqn:D.
  - assert (P0 : 0 <= B2R rem) by (rewrite <- Z0; apply dle_R; assumption).
    assert (HR : 0 <= B2R rem < 2 * PD) by (split; [lra|]; destruct (Rle_or_lt 0 x) as [Hx|Hx]; [apply R1|pose proof (R2 Hx)]; lra).
    assert (Fo : is_finite (Bopp dpi) = true) by (rewrite is_finite_Bopp; exact Fp).
    destruct (dadd_val rem (Bopp dpi) FM Fo) as [EA FA].
    { rewrite B2R_Bopp. apply Rabs_le. lra. }
    rewrite B2R_Bopp in EA. assert (EX : B2R (dadd rem (Bopp dpi)) = B2R rem - PD).
    { rewrite EA. replace (B2R rem + - PD) with (B2R rem + IZR (-1) * PD) by ring. rewrite EV.
      pose proof (shift_exact v n (-1) Fv) as SE. cbv zeta in SE. fold x in SE. rewrite SE.
      - ring.
      - exact R3.
      - left. rewrite <- EV. split; [reflexivity|]. split; [exact HR|]. intros N0. rewrite N0 in EV. lra. }
    rewrite EX. split; [exact FA|]. split; [lra|]. exists n. rewrite EV. ring.
  - assert (P0 : B2R rem < 0).
    { rewrite <- Z0. apply Rnot_le_lt. intros C. apply (dle_R _ _ FZ FM) in C. congruence. }
    assert (HR : - (2 * PD) < B2R rem < 0) by (split; [|lra]; destruct (Rle_or_lt 0 x) as [Hx|Hx]; [pose proof (R1 Hx); lra|apply R2; exact Hx]).
    destruct (dadd_val rem dpi FM Fp) as [EA FA].
    { apply Rabs_le. lra. }
    assert (EX : B2R (dadd rem dpi) = B2R rem + PD).
    { rewrite EA. replace (B2R rem + PD) with (B2R rem + IZR 1 * PD) by ring. rewrite EV.
      pose proof (shift_exact v n 1 Fv) as SE. cbv zeta in SE. fold x in SE. rewrite SE.
      - ring.
      - exact R3.
      - right. rewrite <- EV. split; [reflexivity|]. split; [exact HR|]. intros N0. rewrite N0 in EV. lra. }
    rewrite EX. split; [exact FA|]. split; [lra|]. exists (n - 1)%Z. rewrite EV, minus_IZR. ring.
Qed.
Lemma half_ulp x : Rabs (rnd64 x - x) <= bpow radix2 (-53) * Rabs x + bpow radix2 (-1075).
Proof.
  destruct (Rle_or_lt (bpow radix2 (-1022)) (Rabs x)) as [H|H].
  - destruct (rnd64_rel x H) as (eps & B & ->). replace (x * (1 + eps) - x) with (eps * x) by ring. rewrite Rabs_mult.
    pose proof (Rmult_le_compat_r (Rabs x) _ _ (Rabs_pos x) B). pose proof (bpow_ge_0 radix2 (-1075)). lra.
  - pose proof (bpow_ge_0 radix2 (-53)) as P1. pose proof (Rabs_pos x) as P2.
    apply Rle_trans with (bpow radix2 (-1075)); [|pose proof (Rmult_le_pos _ _ P1 P2); lra].
    pose proof (error_le_half_ulp radix2 fexp64 (fun x => negb (Z.even x)) x) as U. fold (rnd64 x) in U || change (Znearest (fun x => negb (Z.even x))) with ZnearestE in U.
    eapply Rle_trans; [exact U|]. 
    assert (UL : ulp radix2 fexp64 x <= bpow radix2 (-1074)).
    { destruct (Req_dec x 0) as [->|Hx].
      - rewrite fexp64_FLT, ulp_FLT_0 by reflexivity. lra.
      - rewrite ulp_neq_0 by exact Hx. apply bpow_le. unfold cexp. rewrite fexp64_FLT. unfold FLT_exp.
        assert (mag radix2 x <= -1022)%Z by (apply mag_le_bpow; assumption). lia. }
    replace (bpow radix2 (-1075)) with (/2 * bpow radix2 (-1074)); [lra|].
    change (-1075)%Z with (-1 + -1074)%Z. rewrite bpow_plus. reflexivity.
Qed.
