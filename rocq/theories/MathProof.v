(** Proofs about MathModel.v in exact arithmetic (C68, C69, C88-C91). *)
From Coq Require Import Reals Lra Psatz.
From Flocq Require Import Core.
From Verif Require Import Base UtilityModel MathModel MathReal MathSpec.
Local Open Scope R_scope.

Notation wrapR := (EnforceContinuousRevoluteBounds real_arith).
Notation sdistR := (ContinuousRevoluteSignedDistance real_arith).

Lemma pi_pos : 0 < PI. Proof. exact PI_RGT_0. Qed.
Lemma same_angle_refl a : same_angle a a.
Proof. exists 0%Z. lra. Qed.
Lemma same_angle_sym a b : same_angle a b -> same_angle b a.
Proof. intros [k ->]. exists (-k)%Z. rewrite opp_IZR. lra. Qed.
Lemma same_angle_trans a b c : same_angle a b -> same_angle b c -> same_angle a c.
Proof. intros [k ->] [j ->]. exists (k + j)%Z. rewrite plus_IZR. lra. Qed.
Lemma same_angle_add a b c d : same_angle a b -> same_angle c d -> same_angle (a + c) (b + d).
Proof. intros [k ->] [j ->]. exists (k + j)%Z. rewrite plus_IZR. lra. Qed.
Lemma same_angle_sub a b c d : same_angle a b -> same_angle c d -> same_angle (a - c) (b - d).
Proof. intros [k ->] [j ->]. exists (k - j)%Z. rewrite minus_IZR. lra. Qed.

Lemma small_turns k : -1 < IZR k < 1 -> k = 0%Z.
Proof. intros [H1 H2]. apply lt_IZR in H1. apply lt_IZR in H2. lia. Qed.
Lemma same_angle_close a b : same_angle a b -> -(2*PI) < a - b < 2*PI -> a = b.
Proof.
  intros [k E] B. pose proof pi_pos as P. assert (k = 0%Z).
  { apply small_turns. split; apply Rmult_lt_reg_r with (2*PI); lra. }
  subst k. lra.
Qed.
Lemma in_turn_unique a b : in_turn a -> in_turn b -> same_angle a b -> a = b.
Proof. intros [A1 A2] [B1 B2] H. apply same_angle_close; [exact H|lra]. Qed.

Lemma Rfmod_spec x y : 0 < y -> exists k, x = Rfmod x y + IZR k * y /\ Rabs (Rfmod x y) < y /\ 0 <= x * Rfmod x y.
Proof.
  intros Hy. exists (Ztrunc (x / y)). unfold Rfmod.
  assert (E : x = x / y * y) by (field; lra).
  set (q := x / y) in *.
  assert (B : (0 <= q -> 0 <= q - IZR (Ztrunc q) < 1) /\ (q <= 0 -> -1 < q - IZR (Ztrunc q) <= 0)).
  { split; intros Hq.
    - rewrite (Ztrunc_floor q Hq). pose proof (Zfloor_lb q). pose proof (Zfloor_ub q). lra.
    - rewrite (Ztrunc_ceil q Hq). pose proof (Zceil_ub q). pose proof (Zceil_lb q). lra. }
  assert (F : x - IZR (Ztrunc q) * y = (q - IZR (Ztrunc q)) * y) by (rewrite E at 1; ring).
  rewrite F. split; [rewrite E at 1; ring|].
  set (f := q - IZR (Ztrunc q)) in *. clearbody f. clear F.
  destruct (Rle_or_lt 0 q) as [Hq|Hq].
  - destruct B as [B _]. specialize (B Hq). assert (0 <= x) by (rewrite E; apply Rmult_le_pos; lra).
    assert (0 <= f * y) by (apply Rmult_le_pos; lra). assert (f * y < 1 * y) by (apply Rmult_lt_compat_r; lra).
    split; [rewrite Rabs_pos_eq; lra|]. apply Rmult_le_pos; lra.
  - destruct B as [_ B]. specialize (B (Rlt_le _ _ Hq)). assert (x < 0) by (rewrite E; nra).
    assert (f * y <= 0) by nra. assert (-1 * y < f * y) by (apply Rmult_lt_compat_r; lra).
    split; [rewrite Rabs_left1; lra|]. nra.
Qed.

Lemma wrap_spec v : in_turn (wrapR v) /\ same_angle (wrapR v) v.
Proof.
  pose proof pi_pos as P. unfold EnforceContinuousRevoluteBounds, in_turn. cbn [a_pi aopp asub afmod aleb aadd real_arith a_of].
  replace (v - - PI) with (v + PI) by ring. replace (PI - - PI) with (2 * PI) by ring.
  destruct (Rfmod_spec (v + PI) (2 * PI)) as (k & E & B & _); [lra|].
  apply Rabs_def2 in B. destruct (Rle_bool_spec 0 (Rfmod (v + PI) (2 * PI))) as [H|H].
  - split; [lra|]. exists (-k)%Z. rewrite opp_IZR. lra.
  - split; [lra|]. exists (1 - k)%Z. rewrite minus_IZR. lra.
Qed.
Lemma wrap_range v : in_turn (wrapR v). Proof. apply wrap_spec. Qed.
Lemma wrap_same v : same_angle (wrapR v) v. Proof. apply wrap_spec. Qed.
Lemma wrap_fixed v : in_turn v -> wrapR v = v.
Proof. intros H. apply in_turn_unique; [apply wrap_range|exact H|apply wrap_same]. Qed.
Lemma wrap_idem v : wrapR (wrapR v) = wrapR v.
Proof. apply wrap_fixed, wrap_range. Qed.
Lemma wrap_char v r : in_turn r -> same_angle r v -> wrapR v = r.
Proof. intros H1 H2. apply in_turn_unique; [apply wrap_range|exact H1|]. eapply same_angle_trans; [apply wrap_same|]. apply same_angle_sym, H2. Qed.
Lemma wrap_compat a b : same_angle a b -> wrapR a = wrapR b.
Proof. intros H. apply wrap_char; [apply wrap_range|]. eapply same_angle_trans; [apply wrap_same|]. apply same_angle_sym, H. Qed.

Lemma sdist_range p1 p2 : in_turn (sdistR p1 p2). Proof. apply wrap_range. Qed.
Lemma sdist_same p1 p2 : same_angle (sdistR p1 p2) (p2 - p1).
Proof. unfold ContinuousRevoluteSignedDistance. eapply same_angle_trans; [apply wrap_same|]. cbn [asub real_arith]. apply same_angle_sub; apply wrap_same. Qed.
Lemma sdist_arrives p1 p2 : same_angle (p1 + sdistR p1 p2) p2.
Proof.
  replace p2 with (p1 + (p2 - p1)) at 2 by ring. apply same_angle_add; [apply same_angle_refl|apply sdist_same].
Qed.
Lemma sdist_minimal p1 p2 d : same_angle (p1 + d) p2 -> Rabs (sdistR p1 p2) <= Rabs d.
Proof.
  intros [k E]. destruct (sdist_same p1 p2) as [j F]. destruct (sdist_range p1 p2) as [L U]. pose proof pi_pos as P.
  set (s := sdistR p1 p2) in *.
  assert (G : d = s + IZR (k - j) * (2 * PI)) by (rewrite minus_IZR; lra).
  set (n := (k - j)%Z) in *. clearbody n. subst d.
  destruct (Z.lt_trichotomy n 0) as [H|[H|H]].
  - assert (IZR n <= -1) by (apply (IZR_le n (-1)); lia). assert (IZR n * (2*PI) <= -(2*PI)) by nra.
    unfold Rabs; destruct (Rcase_abs s), (Rcase_abs (s + IZR n * (2*PI))); lra.
  - subst n. rewrite Rmult_0_l, Rplus_0_r. lra.
  - assert (1 <= IZR n) by (apply (IZR_le 1 n); lia). assert (2*PI <= IZR n * (2*PI)) by nra.
    unfold Rabs; destruct (Rcase_abs s), (Rcase_abs (s + IZR n * (2*PI))); lra.
Qed.
Lemma sdist_unique p1 p2 d : in_turn d -> same_angle (p1 + d) p2 -> sdistR p1 p2 = d.
Proof.
  intros H1 H2. apply in_turn_unique; [apply sdist_range|exact H1|]. eapply same_angle_trans; [apply sdist_same|].
  apply same_angle_sym. replace d with ((p1 + d) - p1) by ring. apply same_angle_sub; [exact H2|apply same_angle_refl].
Qed.
Lemma dist_sym_le p1 p2 : Rabs (sdistR p1 p2) <= Rabs (sdistR p2 p1).
Proof.
  rewrite <- (Rabs_Ropp (sdistR p2 p1)). apply sdist_minimal. destruct (sdist_same p2 p1) as [k E]. exists (-k)%Z. rewrite opp_IZR. lra.
Qed.
Lemma dist_sym p1 p2 : ContinuousRevoluteDistance real_arith p1 p2 = ContinuousRevoluteDistance real_arith p2 p1.
Proof. unfold ContinuousRevoluteDistance. cbn [aabs real_arith]. apply Rle_antisym; apply dist_sym_le. Qed.
Lemma dist_triangle p1 p2 p3 : ContinuousRevoluteDistance real_arith p1 p3 <= ContinuousRevoluteDistance real_arith p1 p2 + ContinuousRevoluteDistance real_arith p2 p3.
Proof.
  unfold ContinuousRevoluteDistance. cbn [aabs real_arith].
  eapply Rle_trans; [|apply Rabs_triang]. apply sdist_minimal.
  destruct (sdist_same p1 p2) as [k E], (sdist_same p2 p3) as [j F]. exists (k + j)%Z. rewrite plus_IZR. lra.
Qed.
Lemma dist_zero p1 p2 : ContinuousRevoluteDistance real_arith p1 p2 = 0 <-> same_angle p1 p2.
Proof.
  unfold ContinuousRevoluteDistance. cbn [aabs real_arith]. split; intros H.
  - destruct (Req_dec (sdistR p1 p2) 0) as [Z|Z]; [|apply Rabs_no_R0 in Z; contradiction].
    pose proof (sdist_arrives p1 p2) as A. rewrite Z, Rplus_0_r in A. exact A.
  - apply Rle_antisym; [|apply Rabs_pos]. rewrite <- Rabs_R0. apply sdist_minimal. rewrite Rplus_0_r. exact H.
Qed.
Lemma dist_le_pi p1 p2 : ContinuousRevoluteDistance real_arith p1 p2 <= PI.
Proof. unfold ContinuousRevoluteDistance. cbn [aabs real_arith]. destruct (sdist_range p1 p2). apply Rabs_le. lra. Qed.

(** The range between two joint positions. *)
Lemma range_spec start end_ : sweep_to start end_ (GetContinuousRevoluteRange real_arith start end_).
Proof.
  unfold GetContinuousRevoluteRange, sweep_to. cbn [aleb a_of aadd amul a_pi real_arith].
  destruct (sdist_range start end_) as [L U]. pose proof (sdist_arrives start end_) as A. pose proof pi_pos.
  destruct (Rle_bool_spec 0 (sdistR start end_)); (split; [lra|]); [exact A|].
  eapply same_angle_trans; [|exact A]. exists 1%Z. lra.
Qed.
Lemma sweep_unique start stop s t : sweep_to start stop s -> sweep_to start stop t -> s = t.
Proof.
  intros [H1 H2] [H3 H4]. apply same_angle_close; [|lra].
  replace s with (start + s - start) by ring. replace t with (start + t - start) by ring.
  apply same_angle_sub; [|apply same_angle_refl]. eapply same_angle_trans; [exact H2|apply same_angle_sym, H4].
Qed.
Lemma sweep_compat a b c d s : same_angle a b -> same_angle c d -> sweep_to a c s -> sweep_to b d s.
Proof.
  intros H1 H2 [H3 H4]. split; [exact H3|]. eapply same_angle_trans; [|eapply same_angle_trans; [exact H4|exact H2]].
  apply same_angle_add; [apply same_angle_sym, H1|apply same_angle_refl].
Qed.
Lemma check_range_spec start range val : CheckInContinuousRevoluteRange real_arith start range val = true <-> exists t, sweep_to start val t /\ t <= range.
Proof.
  assert (E : CheckInContinuousRevoluteRange real_arith start range val = Rle_bool (GetContinuousRevoluteRange real_arith (wrapR start) (wrapR val)) range).
  { unfold CheckInContinuousRevoluteRange, GetContinuousRevoluteRange. cbn [aleb a_of aadd amul a_pi real_arith].
    destruct (Rle_bool 0 _); reflexivity. }
  rewrite E. pose proof (range_spec (wrapR start) (wrapR val)) as S.
  eapply sweep_compat in S; [|apply wrap_same|apply wrap_same].
  destruct (Rle_bool_spec (GetContinuousRevoluteRange real_arith (wrapR start) (wrapR val)) range) as [H|H]; split; intros G; try discriminate; try reflexivity.
  - eauto.
  - destruct G as (t & G1 & G2). rewrite (sweep_unique _ _ _ _ G1 S) in G2. lra.
Qed.
Lemma check_bounds_spec start end_ val : CheckInContinuousRevoluteBounds real_arith start end_ val = true <-> on_arc start end_ val.
Proof.
  unfold CheckInContinuousRevoluteBounds. rewrite check_range_spec. pose proof (range_spec start end_) as S. unfold on_arc. split.
  - intros (t & [T1 T2] & Ht). exists (GetContinuousRevoluteRange real_arith start end_), t. repeat split; try apply S; try apply T1; auto.
  - intros (s & t & S' & T & A). exists t. rewrite (sweep_unique _ _ _ _ S S'). destruct S' as [S1 _]. split; [split; [lra|exact A]|lra].
Qed.

(** Clamping the ratio. *)
Lemma clamp01_real r : clamp01 real_arith r = Ok (Rmax 0 (Rmin 1 r)).
Proof.
  unfold clamp01, ClampValue. cbn [altb aleb a_of real_arith].
  destruct (Rle_bool_spec 0 1) as [_|H]; [|lra].
  destruct (Rlt_bool_spec r 0).
  - rewrite Rmin_right by lra. rewrite Rmax_left by lra. reflexivity.
  - destruct (Rlt_bool_spec 1 r).
    + rewrite Rmin_left by lra. rewrite Rmax_right by lra. reflexivity.
    + rewrite Rmin_right by lra. rewrite Rmax_right by lra. reflexivity.
Qed.
Lemma clamp01_bounds r : 0 <= Rmax 0 (Rmin 1 r) <= 1.
Proof. split; [apply Rmax_l|]. apply Rmax_lub; [lra|apply Rmin_l]. Qed.

(** Interpolation. *)
Lemma interp_real p1 p2 r : Interpolate real_arith p1 p2 r = Ok (p1 + Rmax 0 (Rmin 1 r) * (p2 - p1)).
Proof.
  unfold Interpolate. rewrite clamp01_real. cbn [bind aadd amul asub a_of real_arith]. f_equal. ring.
Qed.
Lemma convex_between a b t : 0 <= t <= 1 -> Rmin a b <= a + t * (b - a) <= Rmax a b.
Proof.
  intros H. destruct (Rle_or_lt a b).
  - rewrite Rmin_left, Rmax_right by lra. nra.
  - rewrite Rmin_right, Rmax_left by lra. nra.
Qed.
Lemma zip_checked_real (f : R -> R -> R) v1 v2 res : zip_checked f v1 v2 = Ok res ->
  length v1 = length v2 /\ length res = length v1 /\
  (forall i x y, nth_error v1 i = Some x -> nth_error v2 i = Some y -> nth_error res i = Some (f x y)).
Proof.
  unfold zip_checked. destruct (Nat.eqb_spec (length v1) (length v2)) as [E|E]; [|discriminate].
  intros [= <-]. split; [exact E|]. revert v2 E. induction v1 as [|x v1 IH]; intros [|y v2] E; try discriminate; cbn [zip_with length].
  - split; [reflexivity|]. intros [|i] ? ? H; discriminate.
  - injection E as E. destruct (IH _ E) as [L N]. split; [cbn; lia|]. intros [|i] a b Ha Hb; cbn in *; [congruence|eauto].
Qed.
Lemma interp_vector_real v1 v2 r :
  (length v1 <> length v2 -> InterpolateVector real_arith v1 v2 r = Throw InvalidArgument) /\
  (length v1 = length v2 -> exists res, InterpolateVector real_arith v1 v2 r = Ok res /\ length res = length v1 /\
    forall i x y, nth_error v1 i = Some x -> nth_error v2 i = Some y -> nth_error res i = Some (x + Rmax 0 (Rmin 1 r) * (y - x))).
Proof.
  unfold InterpolateVector. rewrite clamp01_real. cbn [bind]. split; intros E.
  - unfold zip_checked. apply Nat.eqb_neq in E. rewrite E. reflexivity.
  - assert (Z : exists res, zip_checked (fun x y => aadd real_arith (amul real_arith x (asub real_arith (a_of real_arith 1) (Rmax 0 (Rmin 1 r)))) (amul real_arith y (Rmax 0 (Rmin 1 r)))) v1 v2 = Ok res).
    { unfold zip_checked. apply Nat.eqb_eq in E. rewrite E. eauto. }
    destruct Z as [res Z]. exists res. split; [exact Z|]. apply zip_checked_real in Z as (_ & L & N). split; [exact L|].
    intros i x y Hx Hy. rewrite (N _ _ _ Hx Hy). cbn [aadd amul asub a_of real_arith]. f_equal. ring.
Qed.
Lemma interp_revolute_real p1 p2 r : InterpolateContinuousRevolute real_arith p1 p2 r = Ok (wrapR (p1 + sdistR p1 p2 * Rmax 0 (Rmin 1 r))).
Proof. unfold InterpolateContinuousRevolute. rewrite clamp01_real. reflexivity. Qed.
Lemma sdist_scaled p1 p2 t : 0 <= t <= 1 ->
  ContinuousRevoluteDistance real_arith p1 (wrapR (p1 + sdistR p1 p2 * t)) = t * ContinuousRevoluteDistance real_arith p1 p2.
Proof.
  intros Ht. unfold ContinuousRevoluteDistance. cbn [aabs real_arith]. destruct (sdist_range p1 p2) as [L U]. pose proof pi_pos.
  rewrite (sdist_unique p1 (wrapR (p1 + sdistR p1 p2 * t)) (sdistR p1 p2 * t)).
  - rewrite Rabs_mult, (Rabs_pos_eq t) by lra. ring.
  - unfold in_turn. set (s := sdistR p1 p2) in *. destruct (Rle_or_lt 0 s); nra.
  - apply same_angle_sym, wrap_same.
Qed.

(** Averages. *)
Lemma average_fold l a W : 0 < W -> (forall p, In p l -> 0 <= snd p) ->
  let s := fold_left (average_step real_arith) l (a, W) in
  0 < snd s /\ snd s = W + fold_right Rplus 0 (map snd l) /\
  fst s * snd s = a * W + fold_right Rplus 0 (map (fun p => snd p * fst p) l).
Proof.
  revert a W. induction l as [|[v w] l IH]; intros a W HW HP; cbn [fold_left map fold_right].
  - cbn. lra.
  - assert (Hw : 0 <= w) by (apply (HP (v, w)); left; reflexivity).
    change (average_step real_arith (a, W) (v, w)) with (a + w / (W + w) * (v - a), W + w).
    specialize (IH (a + w / (W + w) * (v - a)) (W + w)). destruct IH as (H1 & H2 & H3); [lra|intros p Hp; apply HP; right; exact Hp|].
    cbv zeta. cbn [fst snd]. split; [exact H1|]. split; [lra|]. rewrite H3. field. lra.
Qed.

Lemma starting_spec ws : (starting_index real_arith ws <= length ws)%nat /\
  (forall j w, (j < starting_index real_arith ws)%nat -> nth_error ws j = Some w -> w = 0) /\
  (forall w, nth_error ws (starting_index real_arith ws) = Some w -> w <> 0).
Proof.
  induction ws as [|w ws (IH1 & IH2 & IH3)]; cbn [starting_index].
  - split; [cbn; lia|]. split; [intros; lia|]. cbn. discriminate.
  - cbn [aeqb aabs a_of real_arith]. destruct (Req_bool_spec (Rabs w) 0) as [E|E].
    + split; [cbn; lia|]. split.
      * intros [|j] x Hj Hx; cbn in Hx; [|eapply IH2; [|exact Hx]; lia].
        injection Hx as <-. destruct (Req_dec w 0); [auto|]. apply Rabs_no_R0 in H. contradiction.
      * cbn. exact IH3.
    + split; [cbn; lia|]. split; [intros; lia|]. cbn. intros x [= <-]. intros ->. apply E, Rabs_R0.
Qed.

Lemma wsum_combine vs ws : length vs = length ws ->
  fold_right Rplus 0 (map (fun p => snd p * fst p) (combine vs (map Rabs ws))) = weighted_sum vs ws /\
  fold_right Rplus 0 (map snd (combine vs (map Rabs ws))) = total_weight ws.
Proof.
  revert ws. induction vs as [|v vs IH]; intros [|w ws] E; try discriminate; cbn; [lra|].
  injection E as E. destruct (IH _ E) as [-> ->]. lra.
Qed.
Lemma wsum_zero_prefix n vs ws : length vs = length ws -> (forall j w, (j < n)%nat -> nth_error ws j = Some w -> w = 0) ->
  weighted_sum vs ws = weighted_sum (skipn n vs) (skipn n ws) /\ total_weight ws = total_weight (skipn n ws).
Proof.
  revert vs ws. induction n as [|n IH]; intros vs ws E Z; [auto|].
  destruct vs as [|v vs], ws as [|w ws]; try discriminate; cbn [skipn weighted_sum total_weight]; [auto|].
  assert (w = 0) by (apply (Z 0%nat); [lia|reflexivity]). subst w. rewrite Rabs_R0. injection E as E.
  destruct (IH vs ws E) as [H1 H2]; [intros j x Hj Hx; apply (Z (S j)); [lia|exact Hx]|]. lra.
Qed.
Lemma combine_skipn {A B} n (l : list A) (m : list B) : skipn n (combine l m) = combine (skipn n l) (skipn n m).
Proof.
  revert l m. induction n as [|n IH]; intros [|x l] [|y m]; cbn; auto. now rewrite combine_nil || destruct (skipn n l).
Qed.
Lemma skipn_nth {A} n (l : list A) x : nth_error l n = Some x -> skipn n l = x :: skipn (S n) l.
Proof. revert l. induction n as [|n IH]; intros [|y l] H; try discriminate; cbn in *; [congruence|]. rewrite (IH _ H). reflexivity. Qed.

Lemma map_repeat_R n : map Rabs (repeat 1 n) = repeat 1 n.
Proof. induction n; cbn; [reflexivity|]. rewrite IHn, Rabs_R1. reflexivity. Qed.
Lemma average_real values weights : values <> [] -> (weights = [] \/ length weights = length values) ->
  total_weight (weights_or_ones values weights) <> 0 ->
  AverageStdVectorDouble real_arith values weights
    = Ok (weighted_sum values (weights_or_ones values weights) / total_weight (weights_or_ones values weights)).
Proof.
  intros HV HL HT. unfold AverageStdVectorDouble. destruct values as [|v0 vs]; [contradiction|]. set (values := v0 :: vs) in *.
  set (ws := weights_or_ones values weights) in *.
  assert (EU : (if (length weights =? 0)%nat then repeat (a_of real_arith 1) (length values) else map (aabs real_arith) weights) = map Rabs ws).
  { unfold ws, weights_or_ones. destruct weights; [|reflexivity]. cbn [length Nat.eqb a_of real_arith].
    rewrite map_repeat_R. reflexivity. }
  assert (ES : starting_index real_arith weights = starting_index real_arith ws).
  { unfold ws, weights_or_ones. destruct weights; [|reflexivity]. unfold values. cbn [length repeat starting_index aeqb aabs a_of real_arith].
    destruct (Req_bool_spec (Rabs 1) 0) as [E|E]; [|reflexivity]. rewrite Rabs_R1 in E. lra. }
  assert (EL : length ws = length values).
  { unfold ws, weights_or_ones. destruct weights; [apply repeat_length|]. destruct HL as [HL|HL]; [discriminate|exact HL]. }
  assert (G : negb (length weights =? length values)%nat && negb (length weights =? 0)%nat = false).
  { destruct HL as [-> | HL]; [reflexivity|]. rewrite HL, Nat.eqb_refl. reflexivity. }
  rewrite G, EU, ES. clear EU ES G. clearbody ws. clear HL weights.
  destruct (starting_spec ws) as (S1 & S2 & S3). set (n := starting_index real_arith ws) in *. clearbody n.
  destruct (wsum_zero_prefix n values ws) as [W1 W2]; [auto|exact S2|].
  destruct (nth_error ws n) as [w|] eqn:Ew.
  2:{ apply nth_error_None in Ew. rewrite skipn_all2 in W2 by exact Ew. cbn in W2. contradiction. }
  specialize (S3 w eq_refl).
  assert (Hn : (n < length values)%nat) by (rewrite <- EL; apply nth_error_Some; rewrite Ew; discriminate).
  destruct (nth_error values n) as [v|] eqn:Ev; [|apply nth_error_None in Ev; lia].
  rewrite (nth_error_map Rabs n ws), Ew. cbn [option_map]. f_equal.
  rewrite combine_skipn. rewrite skipn_map.
  rewrite W1, W2, (skipn_nth _ _ _ Ev), (skipn_nth _ _ _ Ew). cbn [weighted_sum total_weight].
  set (vs' := skipn (S n) values). set (ws' := skipn (S n) ws).
  assert (EL' : length vs' = length ws') by (unfold vs', ws'; rewrite !skipn_length; lia).
  destruct (wsum_combine vs' ws' EL') as [C1 C2].
  destruct (average_fold (combine vs' (map Rabs ws')) v (Rabs w)) as (A1 & A2 & A3).
  { apply Rabs_pos_lt, S3. }
  { intros [a b] Hp. apply in_combine_r in Hp. apply in_map_iff in Hp as (c & <- & _). apply Rabs_pos. }
  rewrite C1 in A3. rewrite C2 in A2.
  set (s := fold_left _ _ _) in *. rewrite <- A2. apply Rmult_eq_reg_r with (snd s); [|lra].
  rewrite A3. field. lra.
Qed.
Lemma total_nonneg ws : 0 <= total_weight ws.
Proof. induction ws as [|w ws IH]; cbn; [lra|]. pose proof (Rabs_pos w). lra. Qed.
Lemma total_zero ws : total_weight ws = 0 <-> Forall (fun w => w = 0) ws.
Proof.
  induction ws as [|w ws IH]; cbn; [split; auto|]. pose proof (Rabs_pos w). pose proof (total_nonneg ws). split; intros H1.
  - constructor; [|apply IH; lra]. destruct (Req_dec w 0) as [E|E]; [exact E|]. apply Rabs_pos_lt in E. lra.
  - inversion H1; subst. rewrite Rabs_R0. apply IH in H5. lra.
Qed.
Lemma weighted_hull lo hi vs ws : length vs = length ws ->
  (forall i v w, nth_error vs i = Some v -> nth_error ws i = Some w -> w <> 0 -> lo <= v <= hi) ->
  lo * total_weight ws <= weighted_sum vs ws <= hi * total_weight ws.
Proof.
  revert ws. induction vs as [|v vs IH]; intros [|w ws] E H; try discriminate; cbn; [lra|]. injection E as E.
  destruct (IH ws E) as [I1 I2]; [intros i; apply (H (S i))|].
  pose proof (Rabs_pos w) as P. destruct (Req_dec w 0) as [Z|Z].
  - subst w. rewrite Rabs_R0. lra.
  - destruct (H 0%nat v w eq_refl eq_refl Z). nra.
Qed.
Lemma ones_length (vs : list R) : length (weights_or_ones vs []) = length vs. Proof. apply repeat_length. Qed.
Lemma ones_total vs : vs <> [] -> total_weight (weights_or_ones vs []) <> 0.
Proof.
  intros H E. apply total_zero in E. unfold weights_or_ones in E. destruct vs; [contradiction|]. cbn in E. inversion E. lra.
Qed.
Lemma average_throws values weights :
  values = [] \/ (weights <> [] /\ length weights <> length values) \/ (weights <> [] /\ length weights = length values /\ Forall (fun w => w = 0) weights) ->
  AverageStdVectorDouble real_arith values weights = Throw InvalidArgument.
Proof.
  unfold AverageStdVectorDouble. destruct values as [|v0 vs]; [reflexivity|]. set (values := v0 :: vs).
  intros [H|[[H1 H2]|(H1 & H2 & H3)]]; [discriminate| |].
  - destruct weights as [|w ws]; [contradiction|]. apply Nat.eqb_neq in H2. rewrite H2. reflexivity.
  - rewrite H2. destruct (length values =? length values)%nat eqn:E; [|rewrite Nat.eqb_refl in E; discriminate]. cbn [negb andb].
    assert (S : starting_index real_arith weights = length weights).
    { clear -H3. induction H3 as [|w ws Hw _ IH]; [reflexivity|]. cbn. subst w. rewrite Rabs_R0. destruct (Req_bool_spec 0 0); [|lra]. rewrite IH. reflexivity. }
    rewrite S, H2. replace (nth_error values (length values)) with (@None R) by (symmetry; apply nth_error_None; lia). reflexivity.
Qed.

(** Standard deviation. *)
Definition sq_dev (mean : R) (values : list R) : R := fold_right Rplus 0 (map (fun v => (v - mean) ^ 2) values).
Lemma fold_left_plus {X} (f : X -> R) l a : fold_left (fun s x => s + f x) l a = a + fold_right Rplus 0 (map f l).
Proof. revert a. induction l as [|x l IH]; intros a; cbn; [lra|]. rewrite IH. lra. Qed.
Lemma stddev_around values mean : (2 <= length values)%nat ->
  ComputeStdDevAround real_arith values mean = Ok (sqrt (sq_dev mean values / INR (length values - 1))).
Proof.
  intros H. unfold ComputeStdDevAround. destruct values as [|a [|b vs]]; [cbn in H; lia|cbn in H; lia|].
  cbn [amul adiv a_of asub aadd asqrt real_arith]. rewrite (fold_left_plus (fun v => (v - mean) * (v - mean))).
  assert (E : map (fun v => (v - mean) * (v - mean)) (a :: b :: vs) = map (fun v => (v - mean) ^ 2) (a :: b :: vs)).
  { apply map_ext. intros v. ring. }
  rewrite E. rewrite <- INR_IZR_INZ. unfold sq_dev, Rdiv. rewrite Rplus_0_l, Rmult_1_l. reflexivity.
Qed.
Lemma sq_dev_nonneg m vs : 0 <= sq_dev m vs.
Proof. induction vs as [|v vs IH]; unfold sq_dev in *; cbn [map fold_right]; [lra|]. pose proof (pow2_ge_0 (v - m)). lra. Qed.
Lemma sq_dev_zero m vs : sq_dev m vs = 0 <-> Forall (fun v => v = m) vs.
Proof.
  induction vs as [|v vs IH]; unfold sq_dev in *; cbn [map fold_right]; [split; auto|].
  pose proof (pow2_ge_0 (v - m)). pose proof (sq_dev_nonneg m vs) as P. unfold sq_dev in P. split; intros H1.
  - constructor; [|apply IH; lra]. assert (E : (v - m) ^ 2 = 0) by lra. cbn in E. nra.
  - inversion H1; subst. apply IH in H4. rewrite H4. ring.
Qed.

(** Linear, bilinear, trilinear interpolation. *)
Lemma linear_real lo hi lv hv q : lo <> hi ->
  LinearInterpolate real_arith lo hi lv hv q = lv + (q - lo) / (hi - lo) * (hv - lv).
Proof. intros H. unfold LinearInterpolate. cbn [aadd amul asub adiv real_arith]. field. lra. Qed.
Lemma linear_hull lo hi lv hv q a b : lo < hi -> lo <= q <= hi -> a <= lv <= b -> a <= hv <= b ->
  a <= LinearInterpolate real_arith lo hi lv hv q <= b.
Proof.
  intros H1 H2 H3 H4. rewrite linear_real by lra. set (t := (q - lo) / (hi - lo)).
  assert (T : 0 <= t <= 1).
  { unfold t. split; [apply Rmult_le_pos; [lra|]; left; apply Rinv_0_lt_compat; lra|].
    apply Rmult_le_reg_r with (hi - lo); [lra|]. unfold Rdiv. rewrite Rmult_assoc, Rinv_l by lra. lra. }
  pose proof (convex_between lv hv t T) as C. split; [eapply Rle_trans; [|apply C]|eapply Rle_trans; [apply C|]].
  - apply Rmin_glb; lra. - apply Rmax_lub; lra.
Qed.
