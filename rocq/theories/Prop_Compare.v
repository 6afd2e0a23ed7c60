(** C148-C150: comparisons with a tolerance, and arithmetic on vectors of doubles. *)
From Coq Require Import Reals Lra Psatz.
From Flocq Require Import Core BinarySingleNaN.
From Verif Require Import Base UtilityModel Double DoubleFacts MathModel MathReal MathDouble MathDouble2 MathVec CompareModel CompareProof ColorModel ColorSpec ColorProof.
Local Open Scope R_scope.

Notation finite x := (is_finite x = true).
Notation close := (CloseEnough double_arith).
Notation close3 := (CloseEnough3d double_arith).

Lemma close_near p1 p2 t : close p1 p2 t = near 53 1024 p2 p1 (Babs t). Proof. reflexivity. Qed.
Lemma tiny53 : 0 < bpow radix2 (-53). Proof. apply bpow_gt_0. Qed.

(** C148: numbers whose distance is at most the threshold are close enough. *)
Theorem C148_accepts : forall p1 p2 t : double, finite p1 -> finite p2 -> finite t ->
  Rabs (B2R p2 - B2R p1) <= Rabs (B2R t) -> close p1 p2 t = true.
Proof. intros p1 p2 t F1 F2 Ft H. rewrite close_near. apply near_exact; rewrite ?is_finite_Babs; auto. rewrite B2R_Babs. exact H. Qed.
(** Of the others only those are taken for close whose distance exceeds the threshold by
    rounding. *)
Theorem C148_rejects_partial : forall p1 p2 t : double, finite p1 -> finite p2 -> finite t ->
  close p1 p2 t = true -> Rabs (B2R p2 - B2R p1) * (1 - bpow radix2 (-53)) <= Rabs (B2R t).
Proof. intros p1 p2 t F1 F2 Ft H. rewrite close_near in H. apply near_bound in H; rewrite ?is_finite_Babs; auto. rewrite B2R_Babs in H. exact H. Qed.
Definition just_below_zero : double := d_of_me (-1) (-60).
Lemma jbz_val : B2R just_below_zero = - bpow radix2 (-60) /\ finite just_below_zero.
Proof.
  unfold just_below_zero, d_of_me. destruct (normalize_exact (-1) (-60) false) as [V F]; [lia|lia| |].
  - change (IZR (Z.abs (-1))) with 1. rewrite Rmult_1_l. apply bpow_lt. lia.
  - split; [|exact F]. etransitivity; [exact V|]. ring.
Qed.
Theorem C148_exact_refuted : exists p1 p2 t : double, finite p1 /\ finite p2 /\ finite t /\ Rabs (B2R t) < Rabs (B2R p2 - B2R p1) /\ close p1 p2 t = true.
Proof.
  exists just_below_zero, (d_of_Z 1), (d_of_Z 1). destruct jbz_val as [V F], d1_val as [V1 F1]. split; [exact F|]. split; [exact F1|]. split; [exact F1|]. split; [|vm_compute; reflexivity].
  rewrite V, V1, Rabs_R1. pose proof (bpow_gt_0 radix2 (-60)). rewrite Rabs_right; lra.
Qed.
(** The order of the arguments and the sign of the threshold do not matter, whatever the
    numbers are. *)
Theorem C148_symmetric : forall p1 p2 t : double, close p1 p2 t = close p2 p1 t /\ close p1 p2 (Bopp t) = close p1 p2 t.
Proof.
  intros p1 p2 t. split; [rewrite !close_near; apply near_sym|]. unfold CloseEnough. cbn [aabs double_arith aleb]. f_equal. destruct t; reflexivity.
Qed.
Theorem C148_symmetric_vectors : forall v1 v2 (t : double), close3 v1 v2 t = close3 v2 v1 t.
Proof.
  intros [[x1 y1] z1] [[x2 y2] z2] t. cbn [CloseEnough3d CloseEnoughVector]. cbn [altb aabs asub double_arith].
  change (dlt (Babs t) (Babs (dsub x1 x2))) with (far 53 1024 x1 x2 (Babs t)). change (dlt (Babs t) (Babs (dsub y1 y2))) with (far 53 1024 y1 y2 (Babs t)).
  change (dlt (Babs t) (Babs (dsub z1 z2))) with (far 53 1024 z1 z2 (Babs t)). rewrite (far_sym _ _ x1), (far_sym _ _ y1), (far_sym _ _ z1). reflexivity.
Qed.
(** A larger threshold accepts more, and a number is close to itself. *)
Theorem C148_threshold : forall p1 p2 t t' : double, finite p1 -> finite p2 -> finite t -> finite t' ->
  Rabs (B2R t) <= Rabs (B2R t') -> close p1 p2 t = true -> close p1 p2 t' = true.
Proof.
  intros p1 p2 t t' F1 F2 Ft Ft' L H. rewrite close_near in *. apply near_finite in H; rewrite ?is_finite_Babs; auto. apply near_finite; rewrite ?is_finite_Babs; auto. rewrite B2R_Babs in *. lra.
Qed.
Theorem C148_reflexive_partial : forall p t : double, finite p -> is_nan t = false -> close p p t = true.
Proof.
  intros p t F N. destruct t as [s|s| |s m e B]; try discriminate.
  - apply C148_accepts; auto. rewrite Rminus_diag_eq, !Rabs_R0 by reflexivity. cbn. rewrite ?Rabs_R0. lra.
  - rewrite close_near, near_far by auto. unfold far. destruct (bsub_spec 53 1024 p p F F) as [[V FS]|[L _]].
    + destruct (Bminus mode_NE p p); try discriminate FS; reflexivity.
    + exfalso. rewrite Rminus_diag_eq, Rabs_R0 in L by reflexivity. unfold rnd in L. rewrite round_0 in L by typeclasses eauto. pose proof (bpow_gt_0 radix2 1024). lra.
  - apply C148_accepts; auto. rewrite Rminus_diag_eq, Rabs_R0 by reflexivity. apply Rabs_pos.
Qed.
(** Missing: infinities are not close to themselves. *)
Theorem C148_infinite_refuted : forall s (t : double), close (B754_infinity s) (B754_infinity s) t = false.
Proof. intros s t. destruct s, t; reflexivity. Qed.
(** Vectors are close when all their components are. *)
Theorem C148_vectors_partial : forall (x1 y1 z1 x2 y2 z2 t : double), finite x1 -> finite y1 -> finite z1 -> finite x2 -> finite y2 -> finite z2 -> is_nan t = false ->
  close3 (x1, y1, z1) (x2, y2, z2) t = close x1 x2 t && close y1 y2 t && close z1 z2 t.
Proof.
  intros x1 y1 z1 x2 y2 z2 t Fx1 Fy1 Fz1 Fx2 Fy2 Fz2 N. rewrite !close_near, (near_sym _ _ x2), (near_sym _ _ y2), (near_sym _ _ z2).
  assert (NA : is_nan (Babs t) = false) by (destruct t; try discriminate; reflexivity).
  rewrite !near_far by assumption. cbn [CloseEnough3d CloseEnoughVector]. cbn [altb aabs asub double_arith].
  change (dlt (Babs t) (Babs (dsub x1 x2))) with (far 53 1024 x1 x2 (Babs t)). change (dlt (Babs t) (Babs (dsub y1 y2))) with (far 53 1024 y1 y2 (Babs t)).
  change (dlt (Babs t) (Babs (dsub z1 z2))) with (far 53 1024 z1 z2 (Babs t)).
  destruct (far 53 1024 x1 x2 (Babs t)), (far 53 1024 y1 y2 (Babs t)), (far 53 1024 z1 z2 (Babs t)); reflexivity.
Qed.
(** Missing: a vector with a NaN component is close to every vector that agrees with it in
    the others, and with three NaN to every vector, though a NaN is close to no number. *)
Theorem C148_nan_refuted : forall v (t x : double), close3 (B754_nan, B754_nan, B754_nan) v t = true /\ close B754_nan x t = false.
Proof. intros [[x y] z] t p. split; [destruct t; reflexivity|]. destruct p; destruct t; reflexivity. Qed.
(** The exact comparisons are equality of the components. *)
Theorem C148_equal : forall (x1 y1 z1 w1 x2 y2 z2 w2 : double), finite x1 -> finite y1 -> finite z1 -> finite w1 -> finite x2 -> finite y2 -> finite z2 -> finite w2 ->
  (Equal3d double_arith (x1, y1, z1) (x2, y2, z2) = true <-> B2R x1 = B2R x2 /\ B2R y1 = B2R y2 /\ B2R z1 = B2R z2) /\
  (Equal4d double_arith (x1, y1, z1, w1) (x2, y2, z2, w2) = true <-> B2R x1 = B2R x2 /\ B2R y1 = B2R y2 /\ B2R z1 = B2R z2 /\ B2R w1 = B2R w2).
Proof.
  intros x1 y1 z1 w1 x2 y2 z2 w2 Fx1 Fy1 Fz1 Fw1 Fx2 Fy2 Fz2 Fw2.
  assert (E : forall a b : double, finite a -> finite b -> aeqb double_arith a b = true <-> B2R a = B2R b).
  { intros a b Fa Fb. cbn [aeqb double_arith]. rewrite Beqb_correct by assumption. destruct (Req_bool_spec (B2R a) (B2R b)); split; intros; congruence || discriminate. }
  cbn [Equal3d Equal4d]. rewrite !andb_true_iff, !E by assumption. tauto.
Qed.
Print Assumptions C148_accepts. Print Assumptions C148_rejects_partial. Print Assumptions C148_exact_refuted.
Print Assumptions C148_symmetric. Print Assumptions C148_symmetric_vectors. Print Assumptions C148_threshold.
Print Assumptions C148_reflexive_partial. Print Assumptions C148_infinite_refuted. Print Assumptions C148_vectors_partial.
Print Assumptions C148_nan_refuted. Print Assumptions C148_equal.
Example C148_case : close (d_of_Z 5) (d_of_Z 7) (d_of_Z (-2)) = true /\ close (d_of_Z 5) (d_of_Z 8) (d_of_Z (-2)) = false /\
  close3 (d_of_Z 1, d_of_Z 2, d_of_Z 3) (d_of_Z 2, d_of_Z 2, d_of_Z 5) (d_of_Z 1) = false /\
  Equal3d double_arith (d0, Bopp d0, d_of_Z 1) (Bopp d0, d0, d_of_Z 1) = true.
Proof. repeat split; vm_compute; reflexivity. Qed.

(** C149: colours compare equal when every channel is within the tolerance, up to rounding
    of the difference. *)
Lemma colors_far c1 c2 t : ColorsEqual c1 c2 t = negb (far 24 128 (cr c1) (cr c2) t) && negb (far 24 128 (cg c1) (cg c2) t) && negb (far 24 128 (cb c1) (cb c2) t) && negb (far 24 128 (ca c1) (ca c2) t).
Proof.
  unfold ColorsEqual. cbv zeta.
  change (slt t (Babs (ssub (cr c1) (cr c2)))) with (far 24 128 (cr c1) (cr c2) t). change (slt t (Babs (ssub (cg c1) (cg c2)))) with (far 24 128 (cg c1) (cg c2) t).
  change (slt t (Babs (ssub (cb c1) (cb c2)))) with (far 24 128 (cb c1) (cb c2) t). change (slt t (Babs (ssub (ca c1) (ca c2)))) with (far 24 128 (ca c1) (ca c2) t).
  destruct (far 24 128 (cr c1) (cr c2) t), (far 24 128 (cg c1) (cg c2) t), (far 24 128 (cb c1) (cb c2) t), (far 24 128 (ca c1) (ca c2) t); reflexivity.
Qed.
Definition each_channel (P : single -> single -> Prop) (c1 c2 : color) : Prop := P (cr c1) (cr c2) /\ P (cg c1) (cg c2) /\ P (cb c1) (cb c2) /\ P (ca c1) (ca c2).
Definition finite_color (c : color) : Prop := finite (cr c) /\ finite (cg c) /\ finite (cb c) /\ finite (ca c).
Lemma colors_near c1 c2 t : finite_color c1 -> finite_color c2 -> is_nan t = false -> ColorsEqual c1 c2 t = true <-> each_channel (fun x y => near 24 128 x y t = true) c1 c2.
Proof. intros (A & B & C & D) (A' & B' & C' & D') N. unfold each_channel. rewrite colors_far, <- !near_far, !andb_true_iff by assumption. tauto. Qed.
Lemma valid_finite c : valid_color c -> finite_color c.
Proof. unfold valid_color, finite_color, in_unit. tauto. Qed.
Theorem C149_accepts : forall c1 c2 t, valid_color c1 -> valid_color c2 -> finite t ->
  each_channel (fun x y => Rabs (B2R x - B2R y) <= B2R t) c1 c2 -> ColorsEqual c1 c2 t = true.
Proof.
  intros c1 c2 t V1 V2 Ft H. apply valid_finite in V1, V2. apply colors_near; [exact V1|exact V2|destruct t; try discriminate; reflexivity|].
  destruct H as (H1 & H2 & H3 & H4), V1 as (A & B & C & D), V2 as (A' & B' & C' & D'). repeat split; apply near_exact; assumption.
Qed.
Theorem C149_rejects : forall c1 c2 t, valid_color c1 -> valid_color c2 -> finite t -> ColorsEqual c1 c2 t = true ->
  each_channel (fun x y => Rabs (B2R x - B2R y) * (1 - bpow radix2 (-24)) <= B2R t) c1 c2.
Proof.
  intros c1 c2 t V1 V2 Ft H. apply valid_finite in V1, V2. apply colors_near in H; [|exact V1|exact V2|destruct t; try discriminate; reflexivity].
  destruct H as (H1 & H2 & H3 & H4), V1 as (A & B & C & D), V2 as (A' & B' & C' & D'). repeat split; apply (near_bound 24 128); assumption.
Qed.
(** With tolerance 0 it is equality of the channels, and the comparison is symmetric. *)
Theorem C149_exact : forall c1 c2, valid_color c1 -> valid_color c2 -> ColorsEqual c1 c2 (s_of_Z 0) = true <-> each_channel (fun x y => B2R x = B2R y) c1 c2.
Proof.
  intros c1 c2 V1 V2. split.
  - intros H. apply C149_rejects in H; try assumption; [|reflexivity]. destruct s0_val as [Z _]. rewrite Z in H.
    assert (X : forall a b : R, Rabs (a - b) * (1 - bpow radix2 (-24)) <= 0 -> a = b).
    { intros a b Y. assert (bpow radix2 (-24) < 1) by (apply (bpow_lt radix2 (-24) 0); lia). pose proof (Rabs_pos (a - b)). assert (Rabs (a - b) = 0) by nra.
      destruct (Req_dec (a - b) 0) as [E|E]; [lra|]. apply Rabs_pos_lt in E. lra. }
    destruct H as (H1 & H2 & H3 & H4). repeat split; apply X; assumption.
  - intros (H1 & H2 & H3 & H4). apply C149_accepts; auto. destruct s0_val as [Z _]. rewrite Z. repeat split; [rewrite H1|rewrite H2|rewrite H3|rewrite H4]; rewrite Rminus_diag_eq, Rabs_R0 by reflexivity; lra.
Qed.
Theorem C149_symmetric : forall c1 c2 t, ColorsEqual c1 c2 t = ColorsEqual c2 c1 t.
Proof. intros c1 c2 t. rewrite !colors_far, (far_sym _ _ (cr c1)), (far_sym _ _ (cg c1)), (far_sym _ _ (cb c1)), (far_sym _ _ (ca c1)). reflexivity. Qed.
Print Assumptions C149_accepts. Print Assumptions C149_rejects. Print Assumptions C149_exact. Print Assumptions C149_symmetric.
Example C149_case : (do c1 <- MakeFromHexColors 10 20 30 255; do c2 <- MakeFromHexColors 10 21 30 255;
  Ok (ColorsEqual c1 c2 (ColorChannelFromHex 2), ColorsEqual c1 c2 (s_of_Z 0))) = Ok (true, false).
Proof. vm_compute. reflexivity. Qed.
(** Outside valid colours (C70: only a NaN argument gives one) a NaN channel equals every channel. *)
Example C149_nan : forall x t, far 24 128 B754_nan x t = false. Proof. intros x t. destruct x, t; reflexivity. Qed.
