(** Paths: without blending; beyond their ends; what GetConfig can return. *)
From Coq Require Import Reals Lra Psatz List Bool Lia.
From Flocq Require Import Core.
From Verif Require Import Base MathModel MathReal MathLinModel MathVec MathLinProof TotpModel TotpProof TotpScalar TotpRealSpec TotpReal TotpLimits TotpArc TotpPathSpec TotpPath TotpBlend TotpChain.
Local Open Scope R_scope.

Lemma dist_0_eq n a b : length a = n -> length b = n -> dist a b = 0 -> a = b.
Proof.
  intros Ha Hb H. assert (Z : dot (vsub a b) (vsub a b) = 0) by (rewrite <- norm_sq; unfold dist in H; rewrite H; ring).
  apply dot_zero in Z. apply (vext n); auto. intros i.
  assert (E : nth i (vsub a b) 0 = 0).
  { destruct (Nat.lt_ge_cases i (length (vsub a b))) as [K|K]; [|now apply nth_overflow]. rewrite Forall_forall in Z. apply Z. now apply nth_In. }
  rewrite (nth_sub n) in E by assumption. lra.
Qed.
Lemma dist_nonneg a b : 0 <= dist a b. Proof. apply norm_nonneg. Qed.
Lemma norm_dist n a b : length a = n -> length b = n -> norm (vsub b a) = dist a b.
Proof. intros. now apply (dist_sym n). Qed.
Lemma linear_total a b : length a = length b -> exists g, MakeLinear xa (fin a) (fin b) = Ok g /\ seg_length g = XFin (norm (vsub b a)).
Proof. intros H. unfold MakeLinear. rewrite fin_sub by congruence. cbn [bind]. rewrite fin_norm. eexists. split; reflexivity. Qed.

Section Plain.
Variables (n : nat) (dev : R).
Hypothesis Hdev : dev <= 0.
Lemma loop_plain : forall rest c1 c2, Forall (fun w => length w = n) (c1 :: c2 :: rest) -> 0 < last_leg (c1 :: c2 :: rest) ->
  exists gs cs, path_loop xa xextras (XFin dev) (fin c1) (fin c1) (map fin (c2 :: rest)) = Ok gs /\ tracks gs cs /\
    Forall (good n) cs /\ chain 0 c1 cs (last (c2 :: rest) []) /\
    (exists c r, cs = c :: r /\ cu_q c 0 = c1) /\
    (exists g r, gs = g :: r /\ MakeLinear xa (fin c1) (fin c2) = Ok g) /\
    (exists r g a, gs = r ++ [g] /\ MakeLinear xa (fin a) (fin (last (c2 :: rest) [])) = Ok g /\ length a = n) /\
    total cs = polyline_length (c1 :: c2 :: rest) /\
    forall s, 0 <= s <= total cs -> eval cu_q cs s = polyline_at (c1 :: c2 :: rest) s.
Proof.
  induction rest as [|c3 rest IH]; intros c1 c2 D LL; inversion_clear D as [|? ? L1 D']; assert (L2 : length c2 = n) by (inversion D'; assumption).
  all: destruct (linear_total c1 c2 ltac:(congruence)) as (g & ML & SL); rewrite (norm_dist n) in SL by assumption.
  - cbn [last_leg] in LL. cbn [map path_loop]. rewrite ML. cbn [bind].
    assert (NP : 0 < norm (vsub c2 c1)) by (rewrite (norm_dist n); assumption).
    destruct (line_ends n c1 c2 L1 L2 NP) as (E0 & E1).
    exists [g], [line c1 c2]. split; [reflexivity|]. split; [apply tracks_last; now apply (line_follows n)|].
    split; [constructor; [now apply line_good|constructor]|].
    split; [cbn [chain]; rewrite E0, (dist_refl n) by exact L1; split; [lra|exact E1]|].
    split; [eauto|]. split; [eauto|]. split; [exists [], g, c1; auto|].
    cbn [total polyline_length line cu_len]. rewrite (norm_dist n) by assumption. split; [reflexivity|].
    intros s S. cbn [eval line cu_q polyline_at]. rewrite (norm_dist n) by assumption. destruct (Rlt_dec s (dist c1 c2)) as [L|L]; [reflexivity|].
    replace (s / dist c1 c2) with 1 by (replace s with (dist c1 c2) by lra; field; lra). unfold between. veq n. ring.
  - change (last_leg (c1 :: c2 :: c3 :: rest)) with (last_leg (c2 :: c3 :: rest)) in LL.
    destruct (IH c2 c3 D' LL) as (gs & cs & EP & TR & GD & CH & (c & r & EC & Q0) & _ & (lr & lg & la & EL & LL0) & TT & EV).
    change (map fin (c2 :: c3 :: rest)) with (fin c2 :: fin c3 :: map fin rest). rewrite loop_step.
    change (altb xa (a_of xa 0) (XFin dev)) with (xltb (XFin 0) (XFin dev)). rewrite (proj2 (xltb_ge 0 dev) Hdev). rewrite ML. cbn [bind].
    cbn [map] in EP. rewrite EP. cbn [bind]. change (last (c2 :: c3 :: rest) []) with (last (c3 :: rest) ([] : list R)).
    change (polyline_length (c1 :: c2 :: c3 :: rest)) with (dist c1 c2 + polyline_length (c2 :: c3 :: rest)).
    destruct (Rle_lt_or_eq_dec 0 (dist c1 c2) (dist_nonneg c1 c2)) as [P|Z].
    + assert (NP : 0 < norm (vsub c2 c1)) by (rewrite (norm_dist n); assumption).
      destruct (line_ends n c1 c2 L1 L2 NP) as (E0 & E1).
      exists (g :: gs), (line c1 c2 :: cs). split; [reflexivity|]. split; [apply tracks_cons; [now apply (line_follows n)|exact TR]|].
      split; [constructor; [now apply line_good|exact GD]|].
      split; [cbn [chain]; rewrite E0, E1, (dist_refl n) by exact L1; split; [lra|exact CH]|].
      split; [eauto|]. split; [eauto|]. split; [exists (g :: lr), lg, la; split; [rewrite EL; reflexivity|exact LL0]|].
      cbn [total line cu_len]. rewrite (norm_dist n), TT by assumption. split; [reflexivity|].
      intros s S. rewrite EC. rewrite eval_cons2. cbn [line cu_len cu_q]. rewrite (norm_dist n) by assumption.
      change (polyline_at (c1 :: c2 :: c3 :: rest) s) with
        (if Rlt_dec s (dist c1 c2) then between c1 c2 (s / dist c1 c2) else polyline_at (c2 :: c3 :: rest) (s - dist c1 c2)).
      destruct (Rlt_dec s (dist c1 c2)) as [L|L]; [reflexivity|]. rewrite <- EC. apply EV. rewrite TT. lra.
    + symmetry in Z. pose proof (dist_0_eq n c1 c2 L1 L2 Z) as EQ. rewrite Z in SL.
      exists (g :: gs), cs. split; [reflexivity|]. split; [now apply tracks_skip|]. split; [exact GD|]. split; [now rewrite EQ|].
      split; [exists c, r; split; [exact EC|congruence]|]. split; [eauto|]. split; [exists (g :: lr), lg, la; split; [rewrite EL; reflexivity|exact LL0]|].
      rewrite Z, TT. split; [ring|]. intros s S. rewrite EV by (rewrite TT in *; lra).
      change (polyline_at (c1 :: c2 :: c3 :: rest) s) with
        (if Rlt_dec s (dist c1 c2) then between c1 c2 (s / dist c1 c2) else polyline_at (c2 :: c3 :: rest) (s - dist c1 c2)).
      rewrite Z. destruct (Rlt_dec s 0); [rewrite TT in *; lra|]. now rewrite Rminus_0_r.
Qed.
End Plain.
Lemma polyline_near n : forall ws s, Forall (fun w => length w = n) ws -> (2 <= length ws)%nat -> 0 <= s <= polyline_length ws ->
  near_polyline 0 ws (polyline_at ws s).
Proof.
  induction ws as [|p [|q r] IH]; intros s D L S; [cbn in L; lia..|]. inversion_clear D as [|? ? Lp D']. assert (Lq : length q = n) by (inversion D'; assumption).
  cbn [polyline_at near_polyline]. destruct (Rlt_dec s (dist p q)) as [H|H].
  - left. exists (s / dist p q). assert (0 < dist p q) by lra. split.
    + split; [apply Rmult_le_pos; [lra|left; now apply Rinv_0_lt_compat]|]. apply (Rmult_le_reg_r (dist p q)); [lra|].
      unfold Rdiv. rewrite Rmult_assoc, Rinv_l by lra. lra.
    + rewrite (dist_refl n) by vdim. lra.
  - destruct r as [|q' r].
    + left. exists 1. split; [lra|]. replace (between p q 1) with q by (unfold between; veq n; ring). rewrite (dist_refl n) by exact Lq. lra.
    + right. apply IH; [exact D'|cbn; lia|]. change (polyline_length (p :: q :: q' :: r)) with (dist p q + polyline_length (q :: q' :: r)) in S. lra.
Qed.

(** Beyond the ends. *)
Lemma walk_first (s : xr) gs g r : gs = g :: r -> placed 0 gs -> (forall x, 0 <= x -> xleb (XFin x) s = false) ->
  segment_walk xa g r s = (g, xsub s (XFin 0)).
Proof.
  intros -> P H. inversion_clear P as [|? L ? ? EL NN EP P']. destruct r as [|g1 r]; cbn [segment_walk].
  - rewrite EP. reflexivity.
  - inversion_clear P' as [|? L1 ? ? EL1 NN1 EP1 _]. rewrite EP1. change (aleb xa) with xleb. rewrite H by lra. rewrite EP. reflexivity.
Qed.
Lemma walk_last (s : xr) gs cs : tracks gs cs -> forall pos g r, gs = g :: r -> placed pos gs ->
  (forall x, x <= pos + total cs -> xleb (XFin x) s = true) ->
  exists r' g' pl L, gs = r' ++ [g'] /\ segment_walk xa g r s = (g', xsub s (XFin pl)) /\ seg_length g' = XFin L /\ 0 < L /\ pl + L = pos + total cs.
Proof.
  induction 1 as [g0 c F|g0 gs cs E T IH|g0 gs c cs F T IH]; intros pos g r EQ P S; injection EQ as <- <-.
  - inversion_clear P as [|? L ? ? EL NN EP _]. destruct F as (FL & FP & _). exists [], g0, pos, (cu_len c). cbn [segment_walk app total].
    rewrite EP. repeat split; auto. ring.
  - inversion_clear P as [|? L ? ? EL NN EP P']. rewrite E in EL. injection EL as <-. rewrite Rplus_0_r in P'.
    pose proof (total_pos _ _ T). destruct gs as [|g1 r1]; [now apply tracks_nonempty in T|]. cbn [segment_walk].
    inversion P' as [|? L1 ? ? EL1 NN1 EP1 P1]; subst. rewrite EP1. change (aleb xa) with xleb. rewrite S by lra.
    destruct (IH pos g1 r1 eq_refl P' S) as (r' & g' & pl & L & E1 & W & EL & PL & E2). exists (g0 :: r'), g', pl, L.
    rewrite E1. auto.
  - inversion_clear P as [|? L ? ? EL NN EP P']. destruct F as (FL & FP & _). rewrite FL in EL. injection EL as <-.
    pose proof (total_pos _ _ T). destruct gs as [|g1 r1]; [now apply tracks_nonempty in T|]. cbn [segment_walk].
    inversion P' as [|? L1 ? ? EL1 NN1 EP1 P1]; subst. rewrite EP1. change (aleb xa) with xleb. cbn [total] in *. rewrite S by lra.
    destruct (IH (pos + cu_len c) g1 r1 eq_refl P') as (r' & g' & pl & L & E1 & W & EL & PL & E2).
    { intros x Hx. apply S. lra. }
    exists (g0 :: r'), g', pl, L. rewrite E1. repeat split; auto. lra.
Qed.
Lemma interpolate_end n a b (ratio : xr) : length a = n -> length b = n ->
  (xltb ratio (XFin 0) = true -> InterpolateVector xa (fin a) (fin b) ratio = Ok (fin a)) /\
  (xltb ratio (XFin 0) = false -> xltb (XFin 1) ratio = true -> InterpolateVector xa (fin a) (fin b) ratio = Ok (fin b)).
Proof.
  intros Ha Hb. unfold InterpolateVector, clamp01, UtilityModel.ClampValue. cbn [aleb altb a_of xa]. rewrite (proj2 (xleb_le 0 1)) by lra.
  assert (Z : forall k (f : xr -> xr -> xr), (forall x y, f (XFin x) (XFin y) = XFin (x * (1 - k) + y * k)) ->
    zip_checked f (fin a) (fin b) = Ok (fin (between a b k))).
  { intros k f Hf. unfold zip_checked. rewrite !fin_length, Ha, Hb, Nat.eqb_refl. f_equal. rewrite (fin_zip _ _ _ _ Hf). f_equal.
    assert (LZ : forall f : R -> R -> R, length (zip_with f a b) = n) by (intros f'; rewrite zip_length; congruence).
    apply (vext n); [apply LZ|vdim|]. intros i. unfold between. nths n. assert (LL : length a = length b) by congruence.
    clear -LL. revert b i LL. induction a as [|x a IH]; intros [|y b] [|i] LL; cbn in *; try discriminate; try ring. apply IH. lia. }
  split.
  - intros ->. cbn [bind]. rewrite (Z 0) by reflexivity. do 2 f_equal. unfold between. veq n. ring.
  - intros -> ->. cbn [bind]. rewrite (Z 1) by reflexivity. do 2 f_equal. unfold between. veq n. ring.
Qed.
Lemma interpolate_nan n a b c q : length a = n -> length b = n -> n <> 0%nat -> InterpolateVector xa (fin a) (fin b) XNan = Ok c -> c = fin q -> False.
Proof.
  intros Ha Hb N. unfold InterpolateVector, clamp01, UtilityModel.ClampValue. cbn [aleb altb a_of xa]. rewrite (proj2 (xleb_le 0 1)) by lra.
  cbn [xltb bind]. unfold zip_checked. rewrite !fin_length, Ha, Hb, Nat.eqb_refl. intros E ->. injection E as E.
  destruct a as [|x a]; [cbn in Ha; congruence|]. destruct b as [|y b]; [cbn in Hb; congruence|]. destruct q as [|z q]; cbn in E; discriminate.
Qed.

Lemma config_any n p gs cs start b e a r g r' g' (s : xr) c q : n <> 0%nat ->
  traces p cs -> tracks gs cs -> Forall2 same gs (path_segments p) -> placed 0 (path_segments p) ->
  gs = g :: r -> MakeLinear xa (fin start) (fin b) = Ok g -> length start = n -> length b = n ->
  gs = r' ++ [g'] -> MakeLinear xa (fin a) (fin e) = Ok g' -> length a = n -> length e = n ->
  GetConfig xa xextras p s = Ok c -> c = fin q ->
  q = start \/ q = e \/ exists s', 0 <= s' <= total cs /\ q = eval cu_q cs s'.
Proof.
  intros NZ (TL & TC) T SM PL E1 M1 Ls Lb E2 M2 La Le GC ->.
  pose proof (tracks_same _ _ T _ SM) as T'. pose proof (total_pos _ _ T) as TP.
  destruct (path_segments p) as [|h hr] eqn:PS; [now apply tracks_nonempty in T'|].
  assert (FI : forall u v, fin u = fin v -> u = v).
  { clear. intros u. induction u as [|x u IH]; intros [|y v] E; cbn in E; try discriminate; [reflexivity|]. injection E as -> E. f_equal. now apply IH. }
  assert (FIRST : forall ratio, xltb ratio (XFin 0) = true -> InterpolateVector xa (fin start) (fin b) ratio = Ok (fin start)).
  { intros ratio. now apply (interpolate_end n). }
  assert (SH : same g h) by (rewrite E1 in SM; inversion SM; subst; assumption).
  assert (EH : exists L, 0 <= L /\ seg_length h = XFin L /\ seg_shape h = LinearShape (fin start) (fin b)).
  { destruct SH as (S1 & S2). unfold MakeLinear in M1. rewrite fin_sub in M1 by congruence. cbn [bind] in M1. rewrite fin_norm in M1. injection M1 as <-.
    cbn in S1, S2. exists (norm (vsub b start)). split; [apply norm_nonneg|]. auto. }
  destruct EH as (L & NL & HL & HS).
  assert (LOW : (forall x, 0 <= x -> xleb (XFin x) s = false) -> xltb (xdiv (xsub s (XFin 0)) (XFin L)) (XFin 0) = true -> q = start).
  { intros H R1. unfold GetConfig, GetPathSegment in GC. rewrite PS, (walk_first s _ _ _ eq_refl PL H) in GC. cbn [bind fst snd] in GC.
    unfold seg_config in GC. rewrite HS, HL in GC. change (adiv xa) with xdiv in GC. rewrite FIRST in GC by exact R1.
    injection GC as GC. symmetry. now apply FI. }
  assert (HIGH : (forall x, x <= 0 + total cs -> xleb (XFin x) s = true) -> (s = XInf false \/ exists x, s = XFin x /\ total cs < x) -> q = e).
  { intros H R1. unfold GetConfig, GetPathSegment in GC. rewrite PS in GC.
    destruct (walk_last s _ _ T' 0 h hr eq_refl PL H) as (r2 & g2 & pl & L2 & EQ & W & SL & LP & EL). rewrite W in GC. cbn [bind fst snd] in GC.
    assert (S2 : same g' g2).
    { clear -SM E2 EQ. rewrite E2, EQ in SM. apply Forall2_app_inv_l in SM as (l1 & l2 & _ & F2 & E). inversion F2 as [|? y ? ? S F3]; subst. inversion F3; subst. apply app_inj_tail in E as (_ & ->). exact S. }
    assert (SS : seg_shape g2 = LinearShape (fin a) (fin e)).
    { destruct S2 as (_ & S2). unfold MakeLinear in M2. rewrite fin_sub in M2 by congruence. cbn [bind] in M2. injection M2 as <-. now rewrite <- S2. }
    unfold seg_config in GC. rewrite SS, SL in GC. change (adiv xa) with xdiv in GC.
    assert (R2 : xltb (xdiv (xsub s (XFin pl)) (XFin L2)) (XFin 0) = false /\ xltb (XFin 1) (xdiv (xsub s (XFin pl)) (XFin L2)) = true).
    { destruct R1 as [->|(x & -> & Hx)].
      - cbn. unfold xsign. rewrite Rlt_bool_false by lra. auto.
      - rewrite xsub_fin, xdiv_fin by lra. split; [apply xltb_ge|apply xltb_lt].
        + apply Rmult_le_pos; [lra|left; now apply Rinv_0_lt_compat].
        + apply (Rmult_lt_reg_r L2); [lra|]. unfold Rdiv. rewrite Rmult_assoc, Rinv_l by lra. lra. }
    destruct R2 as (R2 & R3). rewrite (proj2 (interpolate_end n a e _ La Le) R2 R3) in GC. injection GC as GC. symmetry. now apply FI. }
  destruct s as [x|[]|].
  - destruct (Rlt_or_le x 0) as [N|N].
    + left. apply LOW.
      * intros y Hy. apply xleb_gt. lra.
      * rewrite xsub_fin, Rminus_0_r. destruct (Req_dec L 0) as [->|NL0].
        -- cbn. rewrite Req_bool_true by reflexivity. rewrite Req_bool_false by lra. unfold xsign. rewrite Rlt_bool_true by exact N. reflexivity.
        -- rewrite xdiv_fin by exact NL0. apply xltb_lt. unfold Rdiv. assert (0 < / L) by (apply Rinv_0_lt_compat; lra). nra.
    + destruct (Rle_or_lt x (total cs)) as [M|M].
      * right. right. exists x. split; [lra|]. destruct (TC x ltac:(lra)) as (TC1 & _). rewrite TC1 in GC. injection GC as GC. symmetry. now apply FI.
      * right. left. apply HIGH; [intros y Hy; apply xleb_le; lra|]. right. eauto.
  - left. apply LOW; [reflexivity|]. cbn. unfold xsign. rewrite Rlt_bool_false by exact NL. reflexivity.
  - right. left. apply HIGH; [reflexivity|]. now left.
  - exfalso. unfold GetConfig, GetPathSegment in GC. rewrite PS, (walk_first XNan _ _ _ eq_refl PL) in GC by reflexivity.
    cbn [bind fst snd xsub xadd xopp] in GC. unfold seg_config in GC. rewrite HS, HL in GC.
    change (adiv xa XNan (XFin L)) with XNan in GC. eapply (interpolate_nan n start b); eauto.
Qed.
