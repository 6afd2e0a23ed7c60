(** C68, C69, C88-C95: joint angles, averages, interpolation and distances of math.hpp.
    [real_arith] is exact arithmetic, [double_arith] IEEE binary64; [B2R] is the real
    value of a double, [B2R dpi] the value of M_PI. *)
From Coq Require Import Reals Lra.
From Flocq Require Import Core BinarySingleNaN.
From Verif Require Import Base UtilityModel Double DoubleFacts MathModel MathReal MathSpec MathProof MathVec MathProof2 MathDouble MathDouble2 MathDouble3.
Local Open Scope R_scope.

(** C68: the wrapped angle is the only angle of [-pi, pi) that is a whole number of
    turns away. *)
Theorem C68_wrap : forall v,
  in_turn (EnforceContinuousRevoluteBounds real_arith v) /\
  same_angle (EnforceContinuousRevoluteBounds real_arith v) v /\
  (forall r, in_turn r -> same_angle r v -> r = EnforceContinuousRevoluteBounds real_arith v).
Proof. intros v. split; [apply wrap_range|]. split; [apply wrap_same|]. intros r H1 H2. symmetry. apply wrap_char; assumption. Qed.
(** C68: the signed distance moves p1 to p2 and is at most half a turn; no other
    displacement that moves p1 to p2 is shorter. *)
Theorem C68_signed_distance : forall p1 p2, let d := ContinuousRevoluteSignedDistance real_arith p1 p2 in
  same_angle (p1 + d) p2 /\ Rabs d <= PI /\ (forall e, same_angle (p1 + e) p2 -> Rabs d <= Rabs e) /\
  ContinuousRevoluteDistance real_arith p1 p2 = Rabs d /\
  AddContinuousRevoluteValues real_arith p1 d = EnforceContinuousRevoluteBounds real_arith p2.
Proof.
  intros p1 p2 d. split; [apply sdist_arrives|]. split; [apply dist_le_pi|]. split; [apply sdist_minimal|]. split; [reflexivity|].
  apply wrap_compat, sdist_arrives.
Qed.
(** C68 in double arithmetic: the result is in [-M_PI, M_PI) and the signed distance
    is, too. *)
Theorem C68_rounded_range : forall v p1 p2 : double, is_finite v = true -> is_finite p1 = true -> is_finite p2 = true ->
  let r := EnforceContinuousRevoluteBounds double_arith v in
  let d := ContinuousRevoluteSignedDistance double_arith p1 p2 in
  (is_finite r = true /\ - B2R dpi <= B2R r < B2R dpi) /\ (is_finite d = true /\ - B2R dpi <= B2R d < B2R dpi).
Proof.
  intros v p1 p2 F F1 F2. cbv zeta. destruct (wrapD_spec v F) as (A & B & _). destruct (sdistD_spec p1 p2 F1 F2) as [C D]. auto.
Qed.
Print Assumptions C68_wrap.
Print Assumptions C68_signed_distance.
Print Assumptions C68_rounded_range.
Example C68_nonvacuous : EnforceContinuousRevoluteBounds real_arith (7 * PI) = - PI /\ ContinuousRevoluteSignedDistance real_arith (3 * PI / 4) (- (3 * PI / 4)) = PI / 2.
Proof.
  pose proof pi_pos. split.
  - apply wrap_char; [unfold in_turn; lra|]. exists (-4)%Z. lra.
  - apply sdist_unique; [unfold in_turn; lra|]. exists 1%Z. lra.
Qed.

(** C69: the average is the weighted mean with the absolute weights. *)
Theorem C69_weighted_mean : forall values weights, values <> [] -> (weights = [] \/ length weights = length values) ->
  Exists (fun w => w <> 0) (weights_or_ones values weights) ->
  AverageStdVectorDouble real_arith values weights =
    Ok (weighted_sum values (weights_or_ones values weights) / total_weight (weights_or_ones values weights)).
Proof.
  intros values weights H1 H2 H3. apply average_real; auto. intros Z. apply total_zero in Z.
  apply Exists_exists in H3 as (w & Hw & N). rewrite Forall_forall in Z. auto.
Qed.
Theorem C69_within : forall values weights a lo hi, AverageStdVectorDouble real_arith values weights = Ok a ->
  (forall i v w, nth_error values i = Some v -> nth_error (weights_or_ones values weights) i = Some w -> w <> 0 -> lo <= v <= hi) ->
  lo <= a <= hi.
Proof.
  intros values weights a lo hi H B.
  assert (C : values = [] \/ (weights <> [] /\ length weights <> length values) \/ (weights <> [] /\ length weights = length values /\ Forall (fun w => w = 0) weights)
    \/ (values <> [] /\ (weights = [] \/ length weights = length values) /\ total_weight (weights_or_ones values weights) <> 0)).
  { destruct values as [|v vs]; [auto|]. right. destruct weights as [|w ws].
    - right; right. split; [discriminate|]. split; [auto|]. apply ones_total. discriminate.
    - destruct (Nat.eq_dec (length (w :: ws)) (length (v :: vs))) as [E|E]; [|left; split; [discriminate|exact E]].
      destruct (Req_dec (total_weight (w :: ws)) 0) as [Z|Z].
      + right; left. split; [discriminate|]. split; [exact E|]. apply total_zero, Z.
      + right; right. split; [discriminate|]. split; [auto|exact Z]. }
  destruct C as [C|[C|[C|(C1 & C2 & C3)]]]; [rewrite average_throws in H by auto; discriminate ..|].
  rewrite average_real in H by assumption. injection H as <-.
  assert (P : 0 < total_weight (weights_or_ones values weights)) by (pose proof (total_nonneg (weights_or_ones values weights)); lra).
  destruct (weighted_hull lo hi values (weights_or_ones values weights)) as [W1 W2].
  { destruct C2 as [-> | C2]; [symmetry; apply ones_length|]. unfold weights_or_ones. destruct weights; [symmetry; apply repeat_length|auto]. }
  { exact B. }
  split; apply Rmult_le_reg_r with (total_weight (weights_or_ones values weights)); try exact P; unfold Rdiv; rewrite Rmult_assoc, Rinv_l by lra; lra.
Qed.
Theorem C69_rejects : forall values weights,
  values = [] \/ (weights <> [] /\ length weights <> length values) \/ (weights <> [] /\ length weights = length values /\ Forall (fun w => w = 0) weights) ->
  AverageStdVectorDouble real_arith values weights = Throw InvalidArgument.
Proof. exact average_throws. Qed.
(** In double arithmetic the average of equal values is that value. *)
Theorem C69_rounded_equal_values : forall c (values weights : list double), values <> [] ->
  Forall (fun v => is_finite v = true /\ B2R v = c) values ->
  weights = [] \/ length weights = length values /\ Forall (fun w => is_finite w = true) weights /\ Exists (fun w => B2R w <> 0) weights ->
  exists a, AverageStdVectorDouble double_arith values weights = Ok a /\ is_finite a = true /\ B2R a = c.
Proof. exact average_equal. Qed.
Print Assumptions C69_weighted_mean.
Print Assumptions C69_within.
Print Assumptions C69_rejects.
Print Assumptions C69_rounded_equal_values.
Example C69_nonvacuous : AverageStdVectorDouble real_arith [1; 5; 100] [-1; 3; 0] = Ok 4 /\ AverageStdVectorDouble real_arith [1; 5] [0; 0] = Throw InvalidArgument.
Proof.
  split.
  - rewrite C69_weighted_mean; [|discriminate|right; reflexivity|constructor; cbn; lra]. cbn. f_equal.
    rewrite (Rabs_left (-1)), (Rabs_pos_eq 3), (Rabs_pos_eq 0) by lra. field.
  - apply C69_rejects. right; right. repeat split; [discriminate|repeat constructor].
Qed.
(** ... but rounding can take the average out of the range of the values:
    values 1e17 and 1 with weights 1e-300 and 1 average to 0. *)
Example C69_rounding_can_leave_the_range :
  AverageStdVectorDouble double_arith [d_of_me 762939453125 17; d_of_Z 1] [d_of_me 6032057205060441 (-1049); d_of_Z 1] = Ok d0.
Proof. vm_compute. reflexivity. Qed.

(** C88: the bounds check accepts exactly the positions met when turning from start to
    end in positive direction; both ends are accepted. *)
Theorem C88_arc_partial : forall start stop val, CheckInContinuousRevoluteBounds real_arith start stop val = true <-> on_arc start stop val.
Proof. exact check_bounds_spec. Qed.
Theorem C88_ends_partial : forall start stop, CheckInContinuousRevoluteBounds real_arith start stop start = true /\ CheckInContinuousRevoluteBounds real_arith start stop stop = true.
Proof.
  intros start stop. destruct (range_spec start stop) as [B A]. split; apply check_bounds_spec; exists (GetContinuousRevoluteRange real_arith start stop).
  - exists 0. split; [split; [exact B|exact A]|]. split; [lra|]. exists 0%Z. lra.
  - exists (GetContinuousRevoluteRange real_arith start stop). split; [split; [exact B|exact A]|]. split; [lra|exact A].
Qed.
(** In double arithmetic the start is always accepted ... *)
Theorem C88_rounded_start_partial : forall start stop : double, is_finite start = true -> is_finite stop = true ->
  CheckInContinuousRevoluteBounds double_arith start stop start = true.
Proof. exact start_in_bounds. Qed.
(** ... but the end is not: start = -3.4548675255478964, end = 6.330359871576228. *)
Theorem C88_rounded_end_refuted : ~ (forall start stop : double, is_finite start = true -> is_finite stop = true ->
  CheckInContinuousRevoluteBounds double_arith start stop stop = true).
Proof.
  intros H. specialize (H (d_of_me (-7779670050335967) (-51)) (d_of_me 890918948710995 (-47)) eq_refl eq_refl). vm_compute in H. discriminate.
Qed.
Print Assumptions C88_arc_partial.
Print Assumptions C88_ends_partial.
Print Assumptions C88_rounded_start_partial.
Print Assumptions C88_rounded_end_refuted.
Example C88_nonvacuous : CheckInContinuousRevoluteBounds real_arith (3 * PI / 4) (- (3 * PI / 4)) PI = true /\ CheckInContinuousRevoluteBounds real_arith (3 * PI / 4) (- (3 * PI / 4)) 0 = false.
Proof.
  pose proof pi_pos. assert (S : sweep_to (3 * PI / 4) (- (3 * PI / 4)) (PI / 2)) by (split; [lra|]; exists 1%Z; lra). split.
  - apply C88_arc_partial. exists (PI / 2), (PI / 4). split; [exact S|]. split; [lra|]. exists 0%Z. lra.
  - destruct (CheckInContinuousRevoluteBounds _ _ _ _) eqn:E; [|reflexivity]. exfalso. apply C88_arc_partial in E as (s & t & S' & T & k & A).
    rewrite (sweep_unique _ _ _ _ S' S) in T. assert (3 / 8 <= IZR k <= 5 / 8) as [K1 K2].
    { split; apply Rmult_le_reg_r with (2 * PI); lra. }
    assert (0 < k)%Z by (apply lt_IZR; lra). assert (k < 1)%Z by (apply lt_IZR; lra). lia.
Qed.

(** C89: wrapping in double arithmetic. The result is, without further error, the
    rounded sum v + M_PI shifted by an odd number of M_PI: the only error is the
    rounding of that one sum. *)
Theorem C89_single_rounding_partial : forall v : double, is_finite v = true ->
  exists k : Z, Rabs (B2R (EnforceContinuousRevoluteBounds double_arith v) + IZR k * (2 * B2R dpi) - B2R v)
    <= bpow radix2 (-53) * Rabs (B2R v + B2R dpi) + bpow radix2 (-1075).
Proof.
  intros v F. destruct (wrapD_spec v F) as (_ & _ & k & E). exists k. rewrite E. eapply Rle_trans; [|apply half_ulp].
  right. f_equal. ring.
Qed.
(** Wrapping again changes nothing for values that were not below -M_PI ... *)
Theorem C89_idempotent_partial : forall v : double, is_finite v = true -> - B2R dpi <= B2R v ->
  B2R (EnforceContinuousRevoluteBounds double_arith (EnforceContinuousRevoluteBounds double_arith v)) = B2R (EnforceContinuousRevoluteBounds double_arith v).
Proof. exact wrapD_idem. Qed.
(** ... but it does for the largest double below -M_PI: first to M_PI - 2^-51, then to -M_PI. *)
Theorem C89_idempotent_refuted : ~ (forall v : double, is_finite v = true ->
  B2R (EnforceContinuousRevoluteBounds double_arith (EnforceContinuousRevoluteBounds double_arith v)) = B2R (EnforceContinuousRevoluteBounds double_arith v)).
Proof.
  intros H. specialize (H (d_of_me (-7074237752028441) (-51)) eq_refl).
  assert (E1 : EnforceContinuousRevoluteBounds double_arith (d_of_me (-7074237752028441) (-51)) = d_of_me 7074237752028439 (-51)) by (apply B2SF_inj; vm_compute; reflexivity).
  assert (E2 : EnforceContinuousRevoluteBounds double_arith (d_of_me 7074237752028439 (-51)) = d_of_me (-7074237752028440) (-51)) by (apply B2SF_inj; vm_compute; reflexivity).
  rewrite E1, E2 in H.
  destruct (normalize_exact 7074237752028439 (-51) false) as [V1 _]; [lia|lia| |].
  { apply Rmult_lt_reg_r with (bpow radix2 51); [apply bpow_gt_0|]. rewrite Rmult_assoc, <- !bpow_plus. change (-51 + 51)%Z with 0%Z. change (bpow radix2 0) with 1. rewrite Rmult_1_r.
    apply Rlt_trans with (bpow radix2 54); [|apply bpow_lt; lia]. change (bpow radix2 54) with (IZR (2 ^ 54)). apply IZR_lt. lia. }
  destruct (normalize_exact (-7074237752028440) (-51) false) as [V2 _]; [lia|lia| |].
  { apply Rmult_lt_reg_r with (bpow radix2 51); [apply bpow_gt_0|]. rewrite Rmult_assoc, <- !bpow_plus. change (-51 + 51)%Z with 0%Z. change (bpow radix2 0) with 1. rewrite Rmult_1_r.
    apply Rlt_trans with (bpow radix2 54); [|apply bpow_lt; lia]. change (bpow radix2 54) with (IZR (2 ^ 54)). apply IZR_lt. lia. }
  unfold d_of_me in H. rewrite V1, V2 in H. apply Rmult_eq_reg_r in H; [|apply Rgt_not_eq, bpow_gt_0]. apply eq_IZR in H. lia.
Qed.
(** An angle that already is in the range can change: 1e-20 becomes 0. *)
Theorem C89_in_range_unchanged_refuted : ~ (forall v : double, is_finite v = true -> - B2R dpi <= B2R v < B2R dpi ->
  EnforceContinuousRevoluteBounds double_arith v = v).
Proof.
  intros H. assert (E : EnforceContinuousRevoluteBounds double_arith (d_of_me 6646139978924579 (-119)) = d0) by (apply B2SF_inj; vm_compute; reflexivity).
  rewrite H in E; [apply (f_equal B2SF) in E; vm_compute in E; discriminate|reflexivity|]. pose proof dpi_bounds.
  destruct (normalize_exact 6646139978924579 (-119) false) as [V1 _]; [lia|lia| |].
  { apply Rlt_trans with (bpow radix2 53 * bpow radix2 (-119)); [apply Rmult_lt_compat_r; [apply bpow_gt_0|]; change (bpow radix2 53) with (IZR (2 ^ 53)); apply IZR_lt; lia|].
    rewrite <- bpow_plus. apply bpow_lt. lia. }
  unfold d_of_me. rewrite V1. assert (0 <= IZR 6646139978924579 * bpow radix2 (-119) <= 1); [|lra]. split; [apply Rmult_le_pos; [apply IZR_le; lia|apply bpow_ge_0]|].
  apply Rle_trans with (bpow radix2 53 * bpow radix2 (-119)); [apply Rmult_le_compat_r; [apply bpow_ge_0|]; change (bpow radix2 53) with (IZR (2 ^ 53)); apply IZR_le; lia|].
  rewrite <- bpow_plus. change 1 with (bpow radix2 0). apply bpow_le. lia.
Qed.
Print Assumptions C89_single_rounding_partial.
Print Assumptions C89_idempotent_partial.
Print Assumptions C89_idempotent_refuted.
Print Assumptions C89_in_range_unchanged_refuted.

(** C90: the distance between joint positions is a metric on the circle, at most half a turn. *)
Theorem C90_metric : forall p1 p2 p3,
  0 <= ContinuousRevoluteDistance real_arith p1 p2 <= PI /\
  (ContinuousRevoluteDistance real_arith p1 p2 = 0 <-> same_angle p1 p2) /\
  ContinuousRevoluteDistance real_arith p1 p2 = ContinuousRevoluteDistance real_arith p2 p1 /\
  ContinuousRevoluteDistance real_arith p1 p3 <= ContinuousRevoluteDistance real_arith p1 p2 + ContinuousRevoluteDistance real_arith p2 p3.
Proof.
  intros p1 p2 p3. split; [split; [apply Rabs_pos|apply dist_le_pi]|]. split; [apply dist_zero|]. split; [apply dist_sym|apply dist_triangle].
Qed.
Print Assumptions C90_metric.
(** In double arithmetic it is not exactly symmetric. *)
Example C90_rounded_asymmetric : ContinuousRevoluteDistance double_arith (d_of_me 0x142d8dcad2ea22 (-51)) (d_of_me (-0x179859d91ceff4) (-51))
  <> ContinuousRevoluteDistance double_arith (d_of_me (-0x179859d91ceff4) (-51)) (d_of_me 0x142d8dcad2ea22 (-51)).
Proof. intros E. apply (f_equal B2SF) in E. vm_compute in E. discriminate. Qed.
Example C90_nonvacuous : ContinuousRevoluteDistance real_arith (3 * PI / 4) (- (3 * PI / 4)) = PI / 2.
Proof. destruct C68_nonvacuous as [_ E]. unfold ContinuousRevoluteDistance. rewrite E. cbn [aabs real_arith]. apply Rabs_pos_eq. pose proof pi_pos. lra. Qed.

(** C91: interpolating joint angles moves along the shorter arc in proportion to the
    clamped ratio. *)
Theorem C91_shortest_arc : forall p1 p2 ratio, exists q,
  InterpolateContinuousRevolute real_arith p1 p2 ratio = Ok q /\ in_turn q /\
  (ratio <= 0 -> same_angle q p1) /\ (1 <= ratio -> same_angle q p2) /\
  ContinuousRevoluteDistance real_arith p1 q = Rmax 0 (Rmin 1 ratio) * ContinuousRevoluteDistance real_arith p1 p2 /\
  ContinuousRevoluteDistance real_arith q p2 = (1 - Rmax 0 (Rmin 1 ratio)) * ContinuousRevoluteDistance real_arith p1 p2.
Proof.
  intros p1 p2 ratio. eexists. split; [apply interp_revolute_real|]. pose proof (clamp01_bounds ratio) as B.
  split; [apply wrap_range|]. split; [|split; [|split]].
  - intros H. rewrite (Rmin_right 1 ratio), Rmax_left, Rmult_0_r, Rplus_0_r by lra. apply wrap_same.
  - intros H. rewrite (Rmin_left 1 ratio), Rmax_right, Rmult_1_r by lra. eapply same_angle_trans; [apply wrap_same|apply sdist_arrives].
  - apply sdist_scaled, B.
  - set (t := Rmax 0 (Rmin 1 ratio)) in *. unfold ContinuousRevoluteDistance. cbn [aabs real_arith].
    destruct (sdist_range p1 p2) as [L U]. pose proof pi_pos.
    rewrite (sdist_unique _ _ (ContinuousRevoluteSignedDistance real_arith p1 p2 * (1 - t))).
    + rewrite Rabs_mult, (Rabs_pos_eq (1 - t)) by lra. ring.
    + unfold in_turn. set (s := ContinuousRevoluteSignedDistance real_arith p1 p2) in *. destruct (Rle_or_lt 0 s); split; nra.
    + eapply same_angle_trans; [|apply (sdist_arrives p1)]. set (s := ContinuousRevoluteSignedDistance real_arith p1 p2) in *.
      destruct (wrap_same (p1 + s * t)) as [k E]. exists k. rewrite E. ring.
Qed.
Theorem C91_rounded_range : forall p1 p2 ratio : double, is_finite p1 = true -> is_finite p2 = true -> is_finite ratio = true ->
  Rabs (B2R p1) <= bpow radix2 1022 ->
  exists q, InterpolateContinuousRevolute double_arith p1 p2 ratio = Ok q /\ is_finite q = true /\ - B2R dpi <= B2R q < B2R dpi.
Proof. exact interp_revoluteD. Qed.
Print Assumptions C91_shortest_arc.
Print Assumptions C91_rounded_range.
Example C91_nonvacuous : InterpolateContinuousRevolute real_arith (3 * PI / 4) (- (3 * PI / 4)) (1 / 2) = Ok (- PI).
Proof.
  destruct C68_nonvacuous as [_ E]. rewrite interp_revolute_real, E. rewrite Rmin_right, Rmax_right by lra. f_equal. pose proof pi_pos.
  apply wrap_char; [unfold in_turn; lra|]. exists (-1)%Z. lra.
Qed.

(** C92: interpolation of numbers and vectors. *)
Theorem C92_between_partial : forall p1 p2 ratio, exists q, Interpolate real_arith p1 p2 ratio = Ok q /\
  q = p1 + Rmax 0 (Rmin 1 ratio) * (p2 - p1) /\ Rmin p1 p2 <= q <= Rmax p1 p2 /\ (ratio <= 0 -> q = p1) /\ (1 <= ratio -> q = p2).
Proof.
  intros p1 p2 ratio. eexists. split; [apply interp_real|]. split; [reflexivity|]. split; [apply convex_between, clamp01_bounds|]. split; intros H.
  - rewrite (Rmin_right 1 ratio), Rmax_left by lra. ring.
  - rewrite (Rmin_left 1 ratio), Rmax_right by lra. ring.
Qed.
Theorem C92_vectors_partial : forall v1 v2 ratio,
  (length v1 <> length v2 -> InterpolateVector real_arith v1 v2 ratio = Throw InvalidArgument) /\
  (length v1 = length v2 -> exists res, InterpolateVector real_arith v1 v2 ratio = Ok res /\ length res = length v1 /\
    forall i x y, nth_error v1 i = Some x -> nth_error v2 i = Some y ->
      exists q, nth_error res i = Some q /\ Interpolate real_arith x y ratio = Ok q).
Proof.
  intros v1 v2 ratio. destruct (interp_vector_real v1 v2 ratio) as [H1 H2]. split; [exact H1|]. intros E. destruct (H2 E) as (res & R & L & N).
  exists res. split; [exact R|]. split; [exact L|]. intros i x y Hx Hy. eexists. split; [eapply N; eassumption|apply interp_real].
Qed.
(** In double arithmetic the ends are exact and the error is a few units in the last place ... *)
Theorem C92_rounded_partial : forall p1 p2 ratio : double, is_finite p1 = true -> is_finite p2 = true -> is_finite ratio = true ->
  Rabs (B2R p1) <= bpow radix2 1022 -> Rabs (B2R p2) <= bpow radix2 1022 ->
  exists q, Interpolate double_arith p1 p2 ratio = Ok q /\ is_finite q = true /\
    (B2R ratio <= 0 -> B2R q = B2R p1) /\ (1 <= B2R ratio -> B2R q = B2R p2) /\
    Rabs (B2R q - (B2R p1 + Rmax 0 (Rmin 1 (B2R ratio)) * (B2R p2 - B2R p1))) <= bpow radix2 (-51) * (Rabs (B2R p1) + Rabs (B2R p2)) + bpow radix2 (-1073).
Proof. exact interpD. Qed.
(** ... but the value can lie outside the interval: interpolating between two equal
    numbers 0.4189966076586993 with ratio 0.013545302495986343 gives a larger number. *)
Theorem C92_rounded_between_refuted : ~ (forall p1 p2 ratio q : double, is_finite p1 = true -> is_finite p2 = true -> is_finite ratio = true ->
  Interpolate double_arith p1 p2 ratio = Ok q -> dle p1 p2 = true -> dle p1 q = true /\ dle q p2 = true).
Proof.
  intros H. specialize (H (d_of_me 471748241530305 (-50)) (d_of_me 471748241530305 (-50)) (d_of_me 7808335267013727 (-59))).
  set (o := Interpolate double_arith (d_of_me 471748241530305 (-50)) (d_of_me 471748241530305 (-50)) (d_of_me 7808335267013727 (-59))) in H.
  assert (E : match o with Ok q => dle q (d_of_me 471748241530305 (-50)) | _ => true end = false) by (unfold o; vm_compute; reflexivity).
  destruct o as [q| | |]; try discriminate E. destruct (H q eq_refl eq_refl eq_refl eq_refl) as [_ C]; [vm_compute; reflexivity|]. congruence.
Qed.
Print Assumptions C92_between_partial.
Print Assumptions C92_vectors_partial.
Print Assumptions C92_rounded_partial.
Print Assumptions C92_rounded_between_refuted.
Example C92_nonvacuous : Interpolate real_arith 2 6 (1 / 4) = Ok 3 /\ Interpolate real_arith 2 6 9 = Ok 6.
Proof. rewrite !interp_real. rewrite (Rmin_right 1 (1/4)), (Rmin_left 1 9), !Rmax_right by lra. split; f_equal; lra. Qed.

(** C93: the standard deviation is the root of the mean squared deviation (with n - 1),
    never negative, and zero exactly for equal values. *)
Theorem C93_std_dev : forall values, (2 <= length values)%nat -> exists mean sd,
  AverageStdVectorDouble real_arith values [] = Ok mean /\ ComputeStdDev real_arith values = Ok sd /\
  mean = fold_right Rplus 0 values / INR (length values) /\
  0 <= sd /\ sd * sd * INR (length values - 1) = fold_right Rplus 0 (map (fun v => (v - mean) ^ 2) values) /\
  (sd = 0 <-> forall v, In v values -> v = mean).
Proof.
  intros values H. assert (NE : values <> []) by (destruct values; [cbn in H; lia|discriminate]).
  exists (weighted_sum values (weights_or_ones values []) / total_weight (weights_or_ones values [])).
  set (mean := weighted_sum _ _ / _). exists (sqrt (sq_dev mean values / INR (length values - 1))).
  assert (A : AverageStdVectorDouble real_arith values [] = Ok mean) by (apply average_real; [exact NE|auto|apply ones_total, NE]).
  split; [exact A|]. split; [unfold ComputeStdDev; rewrite A; cbn [bind]; apply stddev_around; exact H|].
  assert (P : 0 < INR (length values - 1)) by (apply lt_0_INR; lia). pose proof (sq_dev_nonneg mean values) as Q.
  assert (D : 0 <= sq_dev mean values / INR (length values - 1)) by (apply Rmult_le_pos; [exact Q|left; apply Rinv_0_lt_compat, P]).
  split; [|split; [apply sqrt_pos|split]].
  - unfold mean. assert (W : weighted_sum values (weights_or_ones values []) = fold_right Rplus 0 values /\ total_weight (weights_or_ones values []) = INR (length values)).
    { unfold weights_or_ones. clear. induction values as [|v vs [I1 I2]]; cbn [length repeat weighted_sum total_weight fold_right]; [cbn; auto|].
      rewrite I1, I2, Rabs_R1, S_INR. split; ring. }
    destruct W as [-> ->]. reflexivity.
  - rewrite sqrt_sqrt by exact D. unfold sq_dev at 1. unfold Rdiv. rewrite Rmult_assoc, Rinv_l by lra. ring.
  - split; intros Z.
    + apply sqrt_eq_0 in Z; [|exact D]. assert (S0 : sq_dev mean values = 0).
      { apply Rmult_eq_reg_r with (/ INR (length values - 1)); [unfold Rdiv in Z; lra|]. apply Rinv_neq_0_compat. lra. }
      apply sq_dev_zero in S0. rewrite Forall_forall in S0. exact S0.
    + replace (sq_dev mean values) with 0; [unfold Rdiv; rewrite Rmult_0_l; apply sqrt_0|]. symmetry. apply sq_dev_zero, Forall_forall, Z.
Qed.
Theorem C93_few_values : forall v mean, ComputeStdDev real_arith [v] = Ok 0 /\ ComputeStdDev real_arith [] = Throw InvalidArgument /\
  ComputeStdDevAround real_arith [v] mean = Ok 0 /\ ComputeStdDevAround real_arith [] mean = Throw InvalidArgument.
Proof.
  intros v mean. split; [|auto]. unfold ComputeStdDev. rewrite average_real; [reflexivity|discriminate|auto|apply ones_total; discriminate].
Qed.
Print Assumptions C93_std_dev.
Print Assumptions C93_few_values.
Example C93_nonvacuous : ComputeStdDev real_arith [1; 3] = Ok (sqrt 2).
Proof.
  unfold ComputeStdDev. rewrite average_real; [|discriminate|auto|apply ones_total; discriminate]. cbn [bind].
  rewrite stddev_around by (cbn; lia). f_equal. f_equal. unfold sq_dev. cbn. rewrite Rabs_R1. field.
Qed.

(** C94: linear, bilinear and trilinear interpolation in a cell. *)
Theorem C94_corners : forall lx ly lz hx hy hz (v : bool -> bool -> bool -> R) (cx cy cz : bool), lx <> hx -> ly <> hy -> lz <> hz ->
  TrilinearInterpolate real_arith (lx, ly, lz) (hx, hy, hz) (v false false false) (v false false true) (v false true false) (v false true true)
    (v true false false) (v true false true) (v true true false) (v true true true)
    (if cx then hx else lx, if cy then hy else ly, if cz then hz else lz) = v cx cy cz.
Proof. exact trilinear_corners. Qed.
Theorem C94_hull : forall lx ly lz hx hy hz v1 v2 v3 v4 v5 v6 v7 v8 qx qy qz a b, lx < hx -> ly < hy -> lz < hz ->
  lx <= qx <= hx -> ly <= qy <= hy -> lz <= qz <= hz -> Forall (fun v => a <= v <= b) [v1; v2; v3; v4; v5; v6; v7; v8] ->
  a <= LinearInterpolate real_arith lx hx v1 v2 qx <= b /\
  a <= BilinearInterpolate real_arith (lx, ly) (hx, hy) v1 v2 v3 v4 (qx, qy) <= b /\
  a <= TrilinearInterpolate real_arith (lx, ly, lz) (hx, hy, hz) v1 v2 v3 v4 v5 v6 v7 v8 (qx, qy, qz) <= b.
Proof.
  intros lx ly lz hx hy hz v1 v2 v3 v4 v5 v6 v7 v8 qx qy qz a b X Y Z QX QY QZ F. rewrite Forall_forall in F.
  split; [apply linear_hull|split; [apply bilinear_hull|apply trilinear_hull]]; try assumption; apply F; cbn; tauto.
Qed.
(** Every function that is affine in each coordinate is reproduced, also outside the cell. *)
Theorem C94_reproduces : forall lx ly lz hx hy hz a b c d e g h i qx qy qz, lx <> hx -> ly <> hy -> lz <> hz ->
  let f x y z := a + b * x + c * y + d * z + e * x * y + g * x * z + h * y * z + i * x * y * z in
  TrilinearInterpolate real_arith (lx, ly, lz) (hx, hy, hz) (f lx ly lz) (f lx ly hz) (f lx hy lz) (f lx hy hz) (f hx ly lz) (f hx ly hz) (f hx hy lz) (f hx hy hz) (qx, qy, qz) = f qx qy qz.
Proof.
  intros lx ly lz hx hy hz a b c d e g h i qx qy qz X Y Z f. apply (trilinear_affine lx ly lz hx hy hz f a b c d e g h i); try assumption. reflexivity.
Qed.
Print Assumptions C94_corners.
Print Assumptions C94_hull.
Print Assumptions C94_reproduces.
Example C94_nonvacuous : TrilinearInterpolate real_arith (0, 0, 0) (1, 1, 1) 0 1 2 3 4 5 6 7 (1 / 2, 1 / 2, 1 / 2) = 7 / 2.
Proof. pose proof (C94_reproduces 0 0 0 1 1 1 0 4 2 1 0 0 0 0 (1/2) (1/2) (1/2) ltac:(lra) ltac:(lra) ltac:(lra)) as E. cbv beta zeta in E.
  replace (7 / 2) with (0 + 4 * (1 / 2) + 2 * (1 / 2) + 1 * (1 / 2) + 0 * (1 / 2) * (1 / 2) + 0 * (1 / 2) * (1 / 2) + 0 * (1 / 2) * (1 / 2) + 0 * (1 / 2) * (1 / 2) * (1 / 2)) by lra.
  rewrite <- E. f_equal; ring.
Qed.

(** C95: Distance on vectors is the Euclidean metric; different sizes are rejected. *)
Theorem C95_metric : forall p q r, length p = length q -> length q = length r -> exists dpq dqr dpr dqp,
  Distance real_arith p q = Ok dpq /\ Distance real_arith q r = Ok dqr /\ Distance real_arith p r = Ok dpr /\ Distance real_arith q p = Ok dqp /\
  0 <= dpq /\ (dpq = 0 <-> p = q) /\ dpq = dqp /\ dpr <= dpq + dqr.
Proof.
  intros p q r E1 E2. exists (norm (vsub q p)), (norm (vsub r q)), (norm (vsub r p)), (norm (vsub p q)).
  rewrite !distance_real by congruence. repeat (split; [reflexivity|]). split; [apply norm_nonneg|]. split; [apply norm_sub_zero, E1|].
  split; [apply norm_sym, E1|apply norm_sub_triangle; assumption].
Qed.
Theorem C95_euclidean : forall p q, length p = length q -> exists d, Distance real_arith p q = Ok d /\ 0 <= d /\
  d * d = fold_right Rplus 0 (map (fun xy => (snd xy - fst xy) ^ 2) (combine p q)).
Proof.
  intros p q E. exists (norm (vsub q p)). split; [apply distance_real, E|]. split; [apply norm_nonneg|]. rewrite norm_sq. revert q E.
  induction p as [|x p IH]; intros [|y q] E; try discriminate; unfold vsub in *; cbn [zip_with dot combine map fold_right fst snd]; [reflexivity|].
  cbn in E. rewrite IH by lia. ring.
Qed.
Theorem C95_sizes : forall p q, length p <> length q -> Distance real_arith p q = Throw InvalidArgument /\ SquaredDistance real_arith p q = Throw InvalidArgument.
Proof. intros p q H. apply Nat.eqb_neq in H. unfold Distance, SquaredDistance. rewrite H. auto. Qed.
(** In double arithmetic it is symmetric for all inputs, including infinities and NaN, and
    zero from a finite vector to itself. *)
Theorem C95_rounded_symmetric : forall p q : list double, Distance double_arith p q = Distance double_arith q p /\ SquaredDistance double_arith p q = SquaredDistance double_arith q p.
Proof. intros p q. split; [apply distance_sym|apply sqd_sym]. Qed.
Theorem C95_rounded_self : forall p : list double, Forall (fun x => is_finite x = true) p -> Distance double_arith p p = Ok d0.
Proof. exact distance_self. Qed.
Print Assumptions C95_metric.
Print Assumptions C95_euclidean.
Print Assumptions C95_sizes.
Print Assumptions C95_rounded_symmetric.
Print Assumptions C95_rounded_self.
Example C95_nonvacuous : Distance real_arith [1; 2] [4; 6] = Ok 5 /\ match Distance double_arith [d_of_Z 1; d_of_Z 2] [d_of_Z 4; d_of_Z 6] with Ok d => B2SF d = B2SF (d_of_Z 5) | _ => False end.
Proof.
  split; [|vm_compute; reflexivity]. rewrite distance_real by reflexivity. unfold norm, vsub. cbn. f_equal.
  replace ((4 - 1) * (4 - 1) + ((6 - 2) * (6 - 2) + 0)) with (5 * 5) by ring. apply sqrt_square. lra.
Qed.
