(** The distance of quaternions in double arithmetic. *)
From Coq Require Import Reals Lra Psatz.
From Flocq Require Import Core BinarySingleNaN.
From Verif Require Import Base UtilityModel Double DoubleFacts MathModel MathReal MathDouble MathDouble2 PathProof2 RotationModel.
Local Open Scope R_scope.

Lemma r0 : rnd64 0 = 0. Proof. apply rnd64_0. Qed.
Lemma r1 : rnd64 1 = 1. Proof. apply (rnd64_IZR 1). lia. Qed.
Lemma r2 : rnd64 2 = 2. Proof. apply (rnd64_IZR 2). lia. Qed.
Lemma rm1 : rnd64 (-1) = -1. Proof. apply (rnd64_IZR (-1)). lia. Qed.
Lemma small_abs x : -2 <= x <= 2 -> Rabs x <= bpow radix2 1023. Proof. intros H. pose proof big10. apply Rabs_le. lra. Qed.
Lemma near_one : B2R (dsub (d_of_Z 1) (eps double_arith)) <= 1 /\ is_finite (dsub (d_of_Z 1) (eps double_arith)) = true.
Proof.
  unfold eps. cbn [adiv a_of double_arith]. destruct d1_val as [Z1 F1].
  destruct (d_of_Z_exact (2 ^ 52) ltac:(lia)) as [E F].
  assert (B : 0 <= 1 / IZR (2 ^ 52) <= 1) by (replace (IZR (2 ^ 52)) with 4503599627370496 by reflexivity; lra).
  destruct (ddiv_val (d_of_Z 1) (d_of_Z (2 ^ 52)) F1) as [ED FD]; [rewrite E; apply not_0_IZR; lia|rewrite Z1, E; apply small_abs; lra|].
  rewrite Z1, E in ED. pose proof (rnd64_between _ _ _ r0 r1 B) as BD. rewrite <- ED in BD.
  destruct (dsub_val _ _ F1 FD) as [ES FS]; [rewrite Z1; apply small_abs; lra|]. split; [|exact FS].
  rewrite ES, Z1. rewrite <- r1 at 2. apply rnd64_mono. lra.
Qed.
Lemma abs_below (x y : double) : is_finite y = true -> dlt (Babs x) y = true -> is_finite (Babs x) = true /\ 0 <= B2R (Babs x) < B2R y.
Proof.
  intros Fy L. assert (F : is_finite (Babs x) = true).
  { destruct x as [s|s| |s m e B]; try reflexivity; destruct y as [sy|sy| |sy my ey By]; try discriminate; cbn in L; try discriminate; destruct sy; discriminate. }
  split; [exact F|]. split; [rewrite B2R_Babs; apply Rabs_pos|]. apply dlt_R; assumption.
Qed.
Lemma distance_double (acos : double -> double) (q1 q2 : quat double) :
  (forall x, is_finite x = true -> -1 <= B2R x <= 1 -> is_finite (acos x) = true /\ 0 <= B2R (acos x) <= B2R dpi) ->
  is_finite (DistanceQuaternion double_arith acos q1 q2) = true /\ 0 <= B2R (DistanceQuaternion double_arith acos q1 q2) <= B2R dpi.
Proof.
  intros HA. unfold DistanceQuaternion. set (dq := aabs double_arith _). destruct (altb double_arith dq _) eqn:L.
  - cbn [altb asub a_of aabs double_arith] in L, dq. destruct near_one as [N1 N2]. destruct (abs_below _ _ N2 L) as [F B]. fold dq in F, B.
    apply HA; cbn [asub amul a_of double_arith].
    + destruct (dmul_val dq dq F F) as [EM FM]; [apply small_abs; nra|].
      assert (BM : 0 <= B2R (dmul dq dq) <= 1) by (rewrite EM; apply (rnd64_between _ _ _ r0 r1); nra).
      destruct d2_val as [Z2 F2]. destruct (dmul_val _ _ F2 FM) as [E2 FF2]; [rewrite Z2; apply small_abs; lra|]. rewrite Z2 in E2.
      assert (B2 : 0 <= B2R (dmul (d_of_Z 2) (dmul dq dq)) <= 2) by (rewrite E2; apply (rnd64_between _ _ _ r0 r2); lra).
      destruct d1_val as [Z1 F1]. destruct (dsub_val _ _ FF2 F1) as [ES FS]; [rewrite Z1; apply small_abs; lra|]. exact FS.
    + destruct (dmul_val dq dq F F) as [EM FM]; [apply small_abs; nra|].
      assert (BM : 0 <= B2R (dmul dq dq) <= 1) by (rewrite EM; apply (rnd64_between _ _ _ r0 r1); nra).
      destruct d2_val as [Z2 F2]. destruct (dmul_val _ _ F2 FM) as [E2 FF2]; [rewrite Z2; apply small_abs; lra|]. rewrite Z2 in E2.
      assert (B2 : 0 <= B2R (dmul (d_of_Z 2) (dmul dq dq)) <= 2) by (rewrite E2; apply (rnd64_between _ _ _ r0 r2); lra).
      destruct d1_val as [Z1 F1]. destruct (dsub_val _ _ FF2 F1) as [ES FS]; [rewrite Z1; apply small_abs; lra|]. rewrite ES, Z1.
      apply (rnd64_between _ _ _ rm1 r1). lra.
  - cbn [a_of double_arith]. destruct d0_val as [Z F]. split; [exact F|]. rewrite Z. pose proof dpi_bounds. fold PD. lra.
Qed.
