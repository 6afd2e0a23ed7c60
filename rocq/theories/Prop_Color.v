(** C70, C96-C98: colours (color_builder.hpp). *)
From Coq Require Import Reals Lra.
From Flocq Require Import Core BinarySingleNaN.
From Verif Require Import Base UtilityModel Double DoubleFacts MathModel MathReal ColorModel ColorSpec ColorProof ColorProof2.
Local Open Scope R_scope.

(** * C70: channel round trip and valid colours *)
(** Every 8-bit channel survives the trip through float. *)
Theorem C70_hex_round_trip : forall h, (0 <= h <= 255)%Z -> ColorChannelToHex (ColorChannelFromHex h) = Ok h.
Proof. intros h H. exact (proj1 (hex_round_trip h H)). Qed.
(** Every program whose arguments are numbers succeeds, leaves all channels in [0, 1] and every hex channel can be read. *)
Theorem C70_programs_partial : forall (k : construction) (ops : list color_op),
  numeric_construction k -> Forall numeric_op ops ->
  exists c, run_program k ops = Ok c /\ valid_color c /\ forall ch, exists h, GetChannelHex c ch = Ok h /\ (0 <= h <= 255)%Z.
Proof. intros k ops K O. destruct (program_valid k ops K O) as (c & E & V). exists c. split; [exact E|]. split; [exact V|]. intros ch. exact (valid_hex c ch V). Qed.
(** Missing: a NaN argument is not limited. It is stored as it is, and reading the channel as hex is undefined behaviour. *)
Theorem C70_nan_refuted : forall g b a : single, number g -> number b -> number a ->
  exists c, MakeFromFloatColors B754_nan g b a = Ok c /\ ~ valid_color c /\ GetChannelHex c 0 = UB.
Proof.
  intros g b a Ng Nb Na. unfold MakeFromFloatColors. rewrite trim_nan by reflexivity.
  destruct (trim_spec g Ng) as (g' & -> & _), (trim_spec b Nb) as (b' & -> & _), (trim_spec a Na) as (a' & -> & _). cbn [bind].
  eexists. split; [reflexivity|]. split; [intros ((F & _) & _); discriminate F|]. apply to_hex_nan. reflexivity.
Qed.
Print Assumptions C70_hex_round_trip. Print Assumptions C70_programs_partial. Print Assumptions C70_nan_refuted.
Example C70_case : numeric_construction (CFloat4 (s_of_Z 7) (s_of_Z (-3)) (ColorChannelFromHex 128) (B754_infinity false)) /\
  Forall numeric_op [OpSetHex 2 17; OpConvert; OpSet 3 (s_of_Z 2)] /\
  (do c <- run_program (CFloat4 (s_of_Z 7) (s_of_Z (-3)) (ColorChannelFromHex 128) (B754_infinity false)) [OpSetHex 2 17; OpConvert; OpSet 3 (s_of_Z 2)];
   do r <- GetChannelHex c 0; do g <- GetChannelHex c 1; do b <- GetChannelHex c 2; do a <- GetChannelHex c 3; Ok [r; g; b; a]) = Ok [255; 0; 17; 255]%Z.
Proof. split; [cbn; repeat split|]. split; [repeat constructor; cbn; lia|]. vm_compute. reflexivity. Qed.

(** * C96: conversion to 8 bits is accurate and monotone *)
Theorem C96_accuracy : forall x : single, number x ->
  exists h, ColorChannelToHex x = Ok h /\ (0 <= h <= 255)%Z /\ Rabs (IZR h - 255 * limited x) <= / 2 + bpow radix2 (-17).
Proof.
  intros x N. destruct (to_hex_near x N) as (h & E & B). destruct (to_hex_spec x N) as (h' & E' & R & _).
  rewrite E in E'. injection E' as <-. exists h. auto.
Qed.
Theorem C96_monotone : forall (x y : single) hx hy, sle x y = true -> ColorChannelToHex x = Ok hx -> ColorChannelToHex y = Ok hy -> (hx <= hy)%Z.
Proof. exact to_hex_mono. Qed.
(** A stored channel in [0, 1] is not altered by limiting it again. *)
Theorem C96_in_range_unchanged : forall x : single, in_unit x -> TrimColorValue x = Ok x.
Proof. exact trim_same. Qed.
Theorem C96_limits : forall x : single, number x -> exists y, TrimColorValue x = Ok y /\ in_unit y /\ B2R y = limited x.
Proof. exact trim_spec. Qed.
Print Assumptions C96_accuracy. Print Assumptions C96_monotone.
Print Assumptions C96_in_range_unchanged. Print Assumptions C96_limits.
Example C96_case : ColorChannelToHex (sdiv (s_of_Z 1) (s_of_Z 2)) = Ok 128%Z /\ ColorChannelToHex (B754_infinity true) = Ok 0%Z.
Proof. split; vm_compute; reflexivity. Qed.

(** * C97: the heat scale *)
(** In exact arithmetic the channels are those of the scale blue - cyan - green - yellow - red at the position of the value between the limits. *)
Theorem C97_exact_scale : forall value lo hi : R, lo < hi ->
  hot_to_cold real_arith value lo hi = Ok (heat_color (heat value lo hi)) /\ 0 <= heat value lo hi <= 1.
Proof. intros v lo hi H. split; [exact (hot_exact v lo hi H)|exact (heat_range v lo hi H)]. Qed.
(** In IEEE arithmetic the colour is opaque and valid for every value that is a number and
    all limits whose difference does not overflow. *)
Theorem C97_valid_partial : forall v lo hi : double, is_nan v = false -> is_finite lo = true -> is_finite hi = true ->
  is_finite (dsub hi lo) = true -> B2R lo < B2R hi ->
  exists c, InterpolateHotToCold v lo hi = Ok c /\ valid_color c /\ B2R (ca c) = 1.
Proof. exact interpolate_valid. Qed.
(** Missing: equal limits are accepted and give a NaN channel. *)
Theorem C97_equal_limits_refuted : exists c, InterpolateHotToCold (d_of_Z 3) (d_of_Z 3) (d_of_Z 3) = Ok c /\ ~ valid_color c /\ GetChannelHex c 1 = UB.
Proof.
  exists (match InterpolateHotToCold (d_of_Z 3) (d_of_Z 3) (d_of_Z 3) with Ok c => c | _ => RGBAColorDefault end).
  assert (N : is_nan (cg (match InterpolateHotToCold (d_of_Z 3) (d_of_Z 3) (d_of_Z 3) with Ok c => c | _ => RGBAColorDefault end)) = true) by (vm_compute; reflexivity).
  assert (E : is_ok (InterpolateHotToCold (d_of_Z 3) (d_of_Z 3) (d_of_Z 3)) = true) by (vm_compute; reflexivity).
  destruct (InterpolateHotToCold (d_of_Z 3) (d_of_Z 3) (d_of_Z 3)) as [c| | |]; try discriminate E.
  split; [reflexivity|]. split.
  - intros (_ & (F & _) & _). destruct (cg c); try discriminate F; discriminate N.
  - apply to_hex_nan. exact N.
Qed.
(** Missing: limits whose difference overflows are accepted and give a NaN channel. *)
Theorem C97_wide_limits_refuted : let hi := d_of_Z (2 ^ 1023) in let lo := d_of_Z (- 2 ^ 1023) in
  is_finite lo = true /\ is_finite hi = true /\ dlt lo hi = true /\
  exists c, InterpolateHotToCold hi lo hi = Ok c /\ ~ valid_color c /\ GetChannelHex c 1 = UB.
Proof.
  cbv zeta. split; [vm_compute; reflexivity|]. split; [vm_compute; reflexivity|]. split; [vm_compute; reflexivity|].
  set (x := InterpolateHotToCold _ _ _). exists (match x with Ok c => c | _ => RGBAColorDefault end).
  assert (N : is_nan (cg (match x with Ok c => c | _ => RGBAColorDefault end)) = true) by (vm_compute; reflexivity).
  assert (E : is_ok x = true) by (vm_compute; reflexivity).
  destruct x as [c| | |]; try discriminate E.
  split; [reflexivity|]. split.
  - intros (_ & (F & _) & _). destruct (cg c); try discriminate F; discriminate N.
  - apply to_hex_nan. exact N.
Qed.
Print Assumptions C97_wide_limits_refuted.
Print Assumptions C97_exact_scale. Print Assumptions C97_valid_partial. Print Assumptions C97_equal_limits_refuted.
Example C97_case : hot_to_cold real_arith 5 0 8 = Ok (1 / 2, 1, 0) /\
  (do c <- InterpolateHotToCold (d_of_Z 5) (d_of_Z 0) (d_of_Z 8); do r <- GetChannelHex c 0; do g <- GetChannelHex c 1; do b <- GetChannelHex c 2; Ok [r; g; b]) = Ok [128; 255; 0]%Z.
Proof.
  split; [|vm_compute; reflexivity]. rewrite hot_exact by lra. unfold heat, heat_color. rewrite (Rmin_right 8 5), (Rmax_right 0 5) by lra.
  rewrite (limit01_mid (4 * _ - 2)), (limit01_high (Rmin _ _)), (limit01_low (2 - _)) by (try apply Rmin_glb; lra).
  assert (F : forall x y : R, x = y -> Ok (x, 1, 0) = Ok (y, 1, 0)) by (intros; subst; reflexivity). apply F. field.
Qed.

(** * C98: unique colours *)
(** Every code with a numeric alpha gives a valid colour; 0 is transparent, every other code has the alpha asked for. *)
Theorem C98_every_code : forall (code : nat) (alpha : single), number alpha ->
  exists c, LookupUniqueColor code alpha = Ok c /\ valid_color c /\ B2R (ca c) = match code with O => 0 | _ => limited alpha end.
Proof. intros code alpha N. destruct (lookup_entry code alpha N) as (c & E & V & _ & A). eauto. Qed.
(** Two different codes up to 20, or one of them and one beyond 20, never have the same red, green and blue. *)
Theorem C98_different : forall (i j : nat) (a b : single) ci cj, (i < j)%nat -> (i <= 20)%nat -> number a -> number b ->
  LookupUniqueColor i a = Ok ci -> LookupUniqueColor j b = Ok cj -> rgb_of ci <> rgb_of cj.
Proof. exact lookup_differ_all. Qed.
(** Beyond 20 the colour is black. *)
Theorem C98_black : forall (code : nat) (alpha : single) c, (20 < code)%nat -> number alpha -> LookupUniqueColor code alpha = Ok c ->
  rgb_of c = (s_of_Z 0, s_of_Z 0, s_of_Z 0).
Proof. exact lookup_black. Qed.
Print Assumptions C98_every_code. Print Assumptions C98_different. Print Assumptions C98_black.
Example C98_case : (do c <- LookupUniqueColor 5 (s_of_Z 1); do r <- GetChannelHex c 0; do g <- GetChannelHex c 1; Ok [r; g]) = Ok [0xc1; 0x20]%Z.
Proof. vm_compute. reflexivity. Qed.
