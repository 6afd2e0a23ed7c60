(** Proofs about ColorModel.v. *)
From Coq Require Import Reals Lra Psatz.
From Flocq Require Import Core BinarySingleNaN.
From Verif Require Import Base UtilityModel Double DoubleFacts MathModel MathReal ColorModel ColorSpec.
Local Open Scope R_scope.

Definition fexp32 : Z -> Z := SpecFloat.fexp 24 128.
Definition rnd32 (x : R) : R := round radix2 fexp32 ZnearestE x.
Lemma fexp32_valid : Valid_exp fexp32. Proof. apply (fexp_correct 24 128 eq_refl). Qed.
#[global] Existing Instance fexp32_valid.
Lemma rnd32_mono x y : x <= y -> rnd32 x <= rnd32 y.
Proof. apply round_le; typeclasses eauto. Qed.
Lemma rnd32_0 : rnd32 0 = 0. Proof. apply round_0. typeclasses eauto. Qed.
Lemma rnd32_fix (x : single) : rnd32 (B2R x) = B2R x.
Proof. apply round_generic; [typeclasses eauto|]. apply (generic_format_B2R 24 128 x). Qed.

Lemma s0_val : B2R (s_of_Z 0) = 0 /\ is_finite (s_of_Z 0) = true. Proof. split; reflexivity. Qed.
Lemma s1_val : B2R (s_of_Z 1) = 1 /\ is_finite (s_of_Z 1) = true.
Proof. split; [|reflexivity]. replace (s_of_Z 1) with (s_of_Z 1) by reflexivity. vm_compute. lra. Qed.
Lemma s255_val : B2R (s_of_Z 255) = 255 /\ is_finite (s_of_Z 255) = true.
Proof. split; [|reflexivity]. vm_compute. lra. Qed.

Lemma slt_R (x y : single) : is_finite x = true -> is_finite y = true -> slt x y = true <-> B2R x < B2R y.
Proof. intros Fx Fy. unfold slt. rewrite Bltb_correct by assumption. case Rlt_bool_spec; intros; split; auto; try discriminate; lra. Qed.
Lemma sle_R (x y : single) : is_finite x = true -> is_finite y = true -> sle x y = true <-> B2R x <= B2R y.
Proof. intros Fx Fy. unfold sle. rewrite Bleb_correct by assumption. case Rle_bool_spec; intros; split; auto; try discriminate; lra. Qed.

Lemma trim_spec x : is_nan x = false -> exists y, TrimColorValue x = Ok y /\ in_unit y /\ B2R y = limited x.
Proof.
  intros N. destruct s0_val as [Z0 FZ], s1_val as [Z1 FO]. unfold TrimColorValue, ClampValue.
  replace (sle (s_of_Z 0) (s_of_Z 1)) with true by reflexivity.
  destruct x as [s|[]| |s m e B]; try discriminate N.
  - cbn [limited]. exists (B754_zero s). split; [destruct s; reflexivity|]. cbn. rewrite Rmin_right, Rmax_left by lra. unfold in_unit. cbn. repeat split; lra.
  - exists (s_of_Z 0). split; [reflexivity|]. unfold in_unit. rewrite Z0. cbn [limited]. repeat split; auto; lra.
  - exists (s_of_Z 1). split; [reflexivity|]. unfold in_unit. rewrite Z1. cbn [limited]. repeat split; auto; lra.
  - set (x := B754_finite s m e B : single). assert (Fx : is_finite x = true) by reflexivity. change (limited x) with (Rmax 0 (Rmin 1 (B2R x))). clearbody x.
    destruct (slt x (s_of_Z 0)) eqn:D1.
    + apply (slt_R _ _ Fx FZ) in D1. exists (s_of_Z 0). split; [reflexivity|]. unfold in_unit. rewrite Z0 in *. rewrite Rmin_right, Rmax_left by lra. repeat split; auto; lra.
    + assert (N1 : 0 <= B2R x) by (rewrite <- Z0; apply Rnot_lt_le; intros C; apply (slt_R _ _ Fx FZ) in C; congruence).
      destruct (slt (s_of_Z 1) x) eqn:D2.
      * apply (slt_R _ _ FO Fx) in D2. exists (s_of_Z 1). split; [reflexivity|]. unfold in_unit. rewrite Z1 in *. rewrite Rmin_left, Rmax_right by lra. repeat split; auto; lra.
      * assert (N2 : B2R x <= 1) by (rewrite <- Z1; apply Rnot_lt_le; intros C; apply (slt_R _ _ FO Fx) in C; congruence).
        exists x. split; [reflexivity|]. unfold in_unit. rewrite Rmin_right, Rmax_right by lra. repeat split; auto.
Qed.
Lemma limited_range x : 0 <= limited x <= 1.
Proof.
  assert (G : forall r, 0 <= Rmax 0 (Rmin 1 r) <= 1) by (intros r; split; [apply Rmax_l|apply Rmax_lub; [lra|apply Rmin_l]]).
  destruct x as [s|[]| |s m e B]; cbn [limited]; try lra; apply G.
Qed.
Lemma unit_not_nan x : in_unit x -> is_nan x = false. Proof. intros [F _]. destruct x; try discriminate; reflexivity. Qed.
Lemma trim_unit x : in_unit x -> exists y, TrimColorValue x = Ok y /\ in_unit y /\ B2R y = B2R x.
Proof.
  intros U. destruct (trim_spec x (unit_not_nan x U)) as (y & E & Uy & V). exists y. split; [exact E|]. split; [exact Uy|]. rewrite V.
  destruct U as [F [U1 U2]]. destruct x as [s|s| |s m e B]; try discriminate F; cbn [limited]; rewrite Rmin_right, Rmax_right by lra; reflexivity.
Qed.
Lemma trim_same x : in_unit x -> TrimColorValue x = Ok x.
Proof.
  intros [F [U1 U2]]. destruct s0_val as [Z0 FZ], s1_val as [Z1 FO]. unfold TrimColorValue, ClampValue.
  replace (sle (s_of_Z 0) (s_of_Z 1)) with true by reflexivity.
  destruct (slt x (s_of_Z 0)) eqn:D; [apply (slt_R _ _ F FZ) in D; lra|].
  destruct (slt (s_of_Z 1) x) eqn:D2; [apply (slt_R _ _ FO F) in D2; lra|]. reflexivity.
Qed.
Lemma trim_nan x : is_nan x = true -> TrimColorValue x = Ok x.
Proof. destruct x; try discriminate. reflexivity. Qed.

(** Hex channels: all 256 values computed. *)
Definition hex_ok (h : Z) : bool :=
  let c := ColorChannelFromHex h in
  match ColorChannelToHex c with Ok k => (k =? h)%Z | _ => false end && is_finite c && sle (s_of_Z 0) c && sle c (s_of_Z 1).
Lemma all_hex_ok : forallb hex_ok (map Z.of_nat (seq 0 256)) = true.
Proof. vm_compute. reflexivity. Qed.
Lemma hex_round_trip h : (0 <= h <= 255)%Z -> ColorChannelToHex (ColorChannelFromHex h) = Ok h /\ in_unit (ColorChannelFromHex h).
Proof.
  intros H. pose proof all_hex_ok as A. rewrite forallb_forall in A. specialize (A h). unfold hex_ok in A.
  assert (I : In h (map Z.of_nat (seq 0 256))).
  { apply in_map_iff. exists (Z.to_nat h). split; [lia|]. apply in_seq. lia. }
  specialize (A I). repeat rewrite andb_true_iff in A. destruct A as (((A1 & A2) & A3) & A4).
  destruct (ColorChannelToHex (ColorChannelFromHex h)) as [k| | |]; try discriminate. apply Z.eqb_eq in A1. subst k. split; [reflexivity|].
  destruct s0_val as [Z0 FZ], s1_val as [Z1 FO]. apply (sle_R _ _ FZ A2) in A3. apply (sle_R _ _ A2 FO) in A4. unfold in_unit. repeat split; auto; lra.
Qed.

(** Rounding to the nearest integer. *)
Lemma sround_floor (x : single) : is_finite x = true -> 0 <= B2R x -> sround x = Zfloor (B2R x + / 2).
Proof.
  intros F P. destruct x as [s|s| |s m e B]; try discriminate F.
  - cbn. symmetry. apply Zfloor_imp. cbn. lra.
  - assert (s = false).
    { destruct s; [|reflexivity]. exfalso. cbn in P. unfold F2R in P. cbn in P. pose proof (bpow_gt_0 radix2 e). assert (IZR (Z.neg m) < 0) by (apply IZR_lt; lia). nra. }
    subst s. cbn [sround cond_Zopp]. change (B2R (B754_finite false m e B : single)) with (IZR (Zpos m) * bpow radix2 e).
    destruct (Z.leb_spec 0 e) as [He|He].
    + rewrite <- IZR_pow2, <- mult_IZR by exact He. symmetry. apply Zfloor_imp. rewrite plus_IZR. lra.
    + rewrite <- Zfloor_div by (apply Z.pow_nonzero; lia). f_equal. rewrite plus_IZR, !IZR_pow2 by lia.
      replace (bpow radix2 (- e - 1)) with (/ 2 * bpow radix2 (- e)) by (replace (- e - 1)%Z with (-1 + - e)%Z by lia; rewrite bpow_plus; reflexivity).
      replace (bpow radix2 e) with (/ bpow radix2 (- e)) by (rewrite <- bpow_opp; f_equal; lia).
      pose proof (bpow_gt_0 radix2 (- e)). field. lra.
Qed.
Lemma smul255 c : in_unit c -> is_finite (smul c (s_of_Z 255)) = true /\ B2R (smul c (s_of_Z 255)) = rnd32 (255 * B2R c) /\ 0 <= B2R (smul c (s_of_Z 255)) <= 255.
Proof.
  intros [F [U1 U2]]. destruct s255_val as [V FV]. pose proof (Bmult_correct 24 128 eq_refl eq_refl mode_NE c (s_of_Z 255)) as C.
  rewrite V in C. change (round_mode mode_NE) with ZnearestE in C. fold fexp32 in C. rewrite (Rmult_comm (B2R c) 255) in C.
  change (round radix2 fexp32 ZnearestE (255 * B2R c)) with (rnd32 (255 * B2R c)) in C.
  assert (B : 0 <= rnd32 (255 * B2R c) <= 255).
  { split; [apply Rle_trans with (rnd32 0); [rewrite rnd32_0; lra|apply rnd32_mono; lra]|]. assert (R255 : rnd32 255 = 255) by (rewrite <- V; apply rnd32_fix). rewrite <- R255 at 2. apply rnd32_mono. lra. }
  rewrite Rlt_bool_true in C.
  2:{ rewrite Rabs_pos_eq by lra. apply Rle_lt_trans with (1 := proj2 B). apply Rlt_trans with (bpow radix2 10); [change (bpow radix2 10) with 1024; lra|apply bpow_lt; lia]. }
  destruct C as (E & G & _). rewrite F, FV in G. assert (E' : B2R (smul c (s_of_Z 255)) = rnd32 (255 * B2R c)) by exact E. rewrite E'. split; [exact G|]. auto.
Qed.
Lemma to_hex_spec x : is_nan x = false -> exists h, ColorChannelToHex x = Ok h /\ (0 <= h <= 255)%Z /\ h = Zfloor (rnd32 (255 * limited x) + / 2).
Proof.
  intros N. destruct (trim_spec x N) as (y & E & U & V). unfold ColorChannelToHex. rewrite E. cbn [bind].
  destruct (smul255 y U) as (F & W & B). exists (sround (smul y (s_of_Z 255))).
  pose proof (sround_floor _ F (proj1 B)) as S. rewrite W, V in S.
  assert (R : (0 <= sround (smul y (s_of_Z 255)) <= 255)%Z).
  { rewrite S, <- V, <- W. split; [apply Zfloor_lub; lra|]. apply Z.lt_succ_r. apply lt_IZR. apply Rle_lt_trans with (B2R (smul y (s_of_Z 255)) + / 2); [apply Zfloor_lb|]. rewrite succ_IZR. lra. }
  split; [|split; [exact R|exact S]]. unfold round_to_uint8. rewrite F.
  destruct (Z.leb_spec 0 (sround (smul y (s_of_Z 255)))), (Z.leb_spec (sround (smul y (s_of_Z 255))) 255); try lia. reflexivity.
Qed.
Lemma to_hex_nan x : is_nan x = true -> ColorChannelToHex x = UB.
Proof. destruct x; try discriminate. reflexivity. Qed.

(** Order of float values with infinities. *)
Lemma limited_mono x y : sle x y = true -> limited x <= limited y.
Proof.
  intros H. destruct (is_finite x) eqn:Fx, (is_finite y) eqn:Fy.
  - apply (sle_R _ _ Fx Fy) in H. assert (G : forall z : single, is_finite z = true -> limited z = Rmax 0 (Rmin 1 (B2R z))) by (intros [ | | | ]; try discriminate; reflexivity).
    rewrite !G by assumption. apply Rle_max_compat_l, Rle_min_compat_l, H.
  - destruct y as [s|[]| |s m e B]; try discriminate Fy; [destruct x; discriminate|apply (limited_range x)|destruct x as [ | | | ]; discriminate].
  - destruct x as [s|[]| |s m e B]; try discriminate Fx; [apply (limited_range y)| |discriminate]. destruct y as [ |[]| | ]; discriminate.
  - destruct x as [s|[]| |s m e B], y as [s'|[]| |s' m' e' B']; try discriminate; cbn [limited]; lra.
Qed.
Lemma rnd32_err z : 0 <= z <= 255 -> Rabs (rnd32 z - z) <= bpow radix2 (-17).
Proof.
  intros H. pose proof (error_le_half_ulp radix2 fexp32 (fun x => negb (Z.even x)) z) as U.
  eapply Rle_trans; [exact U|]. assert (UL : ulp radix2 fexp32 z <= bpow radix2 (-16)).
  { destruct (Req_dec z 0) as [->|Hz].
    - change fexp32 with (FLT_exp (-149) 24). rewrite ulp_FLT_0 by reflexivity. apply bpow_le. lia.
    - rewrite ulp_neq_0 by exact Hz. apply bpow_le. unfold cexp. change fexp32 with (FLT_exp (-149) 24). unfold FLT_exp.
      assert (mag radix2 z <= 8)%Z; [|lia]. apply mag_le_bpow; [exact Hz|]. change (bpow radix2 8) with 256. rewrite Rabs_pos_eq by lra. lra. }
  replace (bpow radix2 (-17)) with (/ 2 * bpow radix2 (-16)); [lra|]. change (-17)%Z with (-1 + -16)%Z. rewrite bpow_plus. reflexivity.
Qed.
