(** Facts about binary64 operations used by several proofs. *)
From Coq Require Import ZArith Reals Lra Lia Bool.
From Flocq Require Import Core BinarySingleNaN Relative.
From Verif Require Import Base Double.
Local Open Scope R_scope.

Lemma fexp64_FLT : fexp64 = FLT_exp (-1074) 53.
Proof. reflexivity. Qed.

Lemma rnd64_lt x y : Rabs x <= bpow radix2 1023 -> y = rnd64 x -> Rabs y < bpow radix2 1024.
Proof.
  intros H ->. apply Rle_lt_trans with (bpow radix2 1023); [|apply bpow_lt; lia].
  apply abs_round_le_generic; try typeclasses eauto; [|exact H].
  apply generic_format_bpow. unfold fexp64, SpecFloat.fexp, SpecFloat.emin. simpl. lia.
Qed.

Lemma dmul_val x y : is_finite x = true -> is_finite y = true ->
  Rabs (B2R x * B2R y) <= bpow radix2 1023 ->
  B2R (dmul x y) = rnd64 (B2R x * B2R y) /\ is_finite (dmul x y) = true.
Proof.
  intros Fx Fy H. pose proof (Bmult_correct 53 1024 eq_refl eq_refl mode_NE x y) as C.
  change (round_mode mode_NE) with ZnearestE in C. fold fexp64 in C. fold (rnd64 (B2R x * B2R y)) in C.
  rewrite Rlt_bool_true in C by (apply (rnd64_lt _ _ H eq_refl)).
  destruct C as (C1 & C2 & _). rewrite Fx, Fy in C2. auto.
Qed.

Lemma dadd_val x y : is_finite x = true -> is_finite y = true ->
  Rabs (B2R x + B2R y) <= bpow radix2 1023 ->
  B2R (dadd x y) = rnd64 (B2R x + B2R y) /\ is_finite (dadd x y) = true.
Proof.
  intros Fx Fy H. pose proof (Bplus_correct 53 1024 eq_refl eq_refl mode_NE x y Fx Fy) as C.
  change (round_mode mode_NE) with ZnearestE in C. fold fexp64 in C. fold (rnd64 (B2R x + B2R y)) in C.
  rewrite Rlt_bool_true in C by (apply (rnd64_lt _ _ H eq_refl)).
  destruct C as (C1 & C2 & _). auto.
Qed.

Lemma dsub_val x y : is_finite x = true -> is_finite y = true ->
  Rabs (B2R x - B2R y) <= bpow radix2 1023 ->
  B2R (dsub x y) = rnd64 (B2R x - B2R y) /\ is_finite (dsub x y) = true.
Proof.
  intros Fx Fy H. pose proof (Bminus_correct 53 1024 eq_refl eq_refl mode_NE x y Fx Fy) as C.
  change (round_mode mode_NE) with ZnearestE in C. fold fexp64 in C. fold (rnd64 (B2R x - B2R y)) in C.
  rewrite Rlt_bool_true in C by (apply (rnd64_lt _ _ H eq_refl)).
  destruct C as (C1 & C2 & _). auto.
Qed.

Lemma ddiv_val x y : is_finite x = true -> B2R y <> 0 ->
  Rabs (B2R x / B2R y) <= bpow radix2 1023 ->
  B2R (ddiv x y) = rnd64 (B2R x / B2R y) /\ is_finite (ddiv x y) = true.
Proof.
  intros Fx Fy H. pose proof (Bdiv_correct 53 1024 eq_refl eq_refl mode_NE x y Fy) as C.
  change (round_mode mode_NE) with ZnearestE in C. fold fexp64 in C. fold (rnd64 (B2R x / B2R y)) in C.
  rewrite Rlt_bool_true in C by (apply (rnd64_lt _ _ H eq_refl)).
  destruct C as (C1 & C2 & _). rewrite Fx in C2. auto.
Qed.

(** Numbers with a short mantissa are not rounded. *)
Lemma rnd64_exact m e : (Z.abs m <= 2 ^ 53)%Z -> (-1074 <= e)%Z ->
  rnd64 (IZR m * bpow radix2 e) = IZR m * bpow radix2 e.
Proof.
  intros Hm He. apply round_generic; [typeclasses eauto|].
  destruct (Z.eq_dec (Z.abs m) (2 ^ 53)) as [E|E].
  - assert (generic_format radix2 fexp64 (bpow radix2 (53 + e))) as G.
    { apply generic_format_bpow. unfold fexp64, SpecFloat.fexp, SpecFloat.emin. lia. }
    assert (IZR m = bpow radix2 53 \/ IZR m = - bpow radix2 53) as [-> | ->].
    { assert (m = 2 ^ 53 \/ m = - (2 ^ 53))%Z as [-> | ->] by lia; [left|right; rewrite opp_IZR; f_equal];
        (change (2 ^ 53)%Z with (radix2 ^ 53)%Z; rewrite IZR_Zpower by lia; reflexivity). }
    + rewrite <- bpow_plus. exact G.
    + rewrite <- Ropp_mult_distr_l, <- bpow_plus. apply generic_format_opp. exact G.
  - rewrite fexp64_FLT. apply generic_format_FLT. exists (Float radix2 m e); [reflexivity| |exact He].
    simpl. change (Z.pow_pos 2 53) with (2 ^ 53)%Z. lia.
Qed.

Lemma rnd64_IZR m : (Z.abs m <= 2 ^ 53)%Z -> rnd64 (IZR m) = IZR m.
Proof. intros H. rewrite <- (Rmult_1_r (IZR m)). apply (rnd64_exact m 0); lia. Qed.

Lemma IZR_pow2 n : (0 <= n)%Z -> IZR (2 ^ n) = bpow radix2 n.
Proof. intros H. change 2%Z with (radix_val radix2). apply IZR_Zpower. exact H. Qed.

Lemma d_of_Z_round z : (Z.abs z <= 2 ^ 1023)%Z -> B2R (d_of_Z z) = rnd64 (IZR z) /\ is_finite (d_of_Z z) = true.
Proof.
  intros H. pose proof (binary_normalize_correct 53 1024 eq_refl eq_refl mode_NE z 0 false) as C.
  cbv zeta in C. unfold F2R in C. cbn [Fnum Fexp] in C. simpl bpow in C. rewrite Rmult_1_r in C.
  change (round_mode mode_NE) with ZnearestE in C. fold fexp64 in C. fold (rnd64 (IZR z)) in C.
  rewrite Rlt_bool_true in C.
  - destruct C as (C1 & C2 & _). auto.
  - apply (rnd64_lt (IZR z)); [|reflexivity]. rewrite <- abs_IZR, <- IZR_pow2 by lia. apply IZR_le. exact H.
Qed.

Lemma d_of_Z_exact z : (Z.abs z <= 2 ^ 53)%Z -> B2R (d_of_Z z) = IZR z /\ is_finite (d_of_Z z) = true.
Proof.
  intros H. destruct (d_of_Z_round z) as [E F].
  - apply Z.le_trans with (1 := H). apply Z.pow_le_mono_r; lia.
  - rewrite rnd64_IZR in E by exact H. auto.
Qed.

(** Relative error of rounding a number that is not tiny. *)
Lemma rnd64_rel x : bpow radix2 (-1022) <= Rabs x ->
  exists eps, Rabs eps <= bpow radix2 (-53) /\ rnd64 x = x * (1 + eps).
Proof.
  intros H. destruct (relative_error_N_FLT_ex radix2 (-1074) 53 eq_refl (fun x => negb (Z.even x)) x) as (eps & B & E).
  - exact H.
  - exists eps. split; [|exact E]. eapply Rle_trans; [exact B|].
    change (/ 2) with (bpow radix2 (-1)). rewrite <- bpow_plus. apply Rle_refl.
Qed.

Lemma rnd64_ge_bpow x e : (-1074 <= e <= 1023)%Z -> bpow radix2 e <= x -> bpow radix2 e <= rnd64 x.
Proof.
  intros He H. apply round_ge_generic; try typeclasses eauto; [|exact H].
  apply generic_format_bpow. unfold fexp64, SpecFloat.fexp, SpecFloat.emin. lia.
Qed.
Lemma rnd64_le_bpow x e : (-1074 <= e <= 1023)%Z -> x <= bpow radix2 e -> rnd64 x <= bpow radix2 e.
Proof.
  intros He H. apply round_le_generic; try typeclasses eauto; [|exact H].
  apply generic_format_bpow. unfold fexp64, SpecFloat.fexp, SpecFloat.emin. lia.
Qed.

(** Comparisons of finite doubles. *)
Lemma dlt_R x y : is_finite x = true -> is_finite y = true -> dlt x y = true <-> B2R x < B2R y.
Proof.
  intros Fx Fy. unfold dlt. rewrite Bltb_correct by assumption. case Rlt_bool_spec; intros; split; auto; try discriminate; lra.
Qed.
Lemma dle_R x y : is_finite x = true -> is_finite y = true -> dle x y = true <-> B2R x <= B2R y.
Proof.
  intros Fx Fy. unfold dle. rewrite Bleb_correct by assumption. case Rle_bool_spec; intros; split; auto; try discriminate; lra.
Qed.
