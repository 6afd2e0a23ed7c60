(** C189 *)
From Coq Require Import Reals Lra List Bool Lia.
From Flocq Require Import Core.
From Verif Require Import Base MathModel MathReal MathLinModel MathVec TotpModel TotpScalar TotpRealSpec TotpReal TotpPathSpec TotpBlend TotpSwitchSpec TotpExample TotpNextSpec TotpNext.
Import ListNotations.
Local Open Scope R_scope.

(** The acceleration switching point given for [s] is the first minimum of the acceleration limit
    curve among the switching points of the path beyond [s]; none is given only if there is none. *)
Theorem C189_acceleration : forall n dev ws p len pts su, well_posed n dev ws ->
  MakePath xarith xextras (map fin ws) (XFin dev) = Ok p -> path_length p = XFin len -> switches_at p pts -> su_path su = p ->
  forall fuel s r, GetNextAccelerationSwitchingPoint xarith xextras fuel su (XFin s) = Ok r ->
  match r with
  | Some q => exists y f, beyond pts len s y f /\ acceleration_minimum su y f q /\
                forall z g, beyond pts len s z g -> z < y -> forall q', ~ acceleration_minimum su z g q'
  | None => forall z g, beyond pts len s z g -> forall q', ~ acceleration_minimum su z g q'
  end.
Proof. exact next_acceleration. Qed.

(** The velocity switching point given for [s] is a point of the speed limit curve from which the
    curve can be followed, found to a millionth, and not more than two thousandths before [s]. *)
Theorem C189_velocity : forall len su, path_length (su_path su) = XFin len ->
  forall fuel s r, GetNextVelocitySwitchingPoint xarith xextras fuel su (XFin s) = Ok r ->
  match r with Some q => exists y, fst (fst (fst q)) = XFin y /\ s - 2 / 1000 <= y /\ speed_switch su len q | None => True end.
Proof. intros len su PL fuel s r E. exact (next_velocity (su_path su) len su PL eq_refl fuel s r E). Qed.

(** The switching point used: the first usable minimum, or a velocity switching point before every
    usable minimum beyond [s], and then, if there is such a minimum, within the acceleration limit. *)
Theorem C189_next : forall n dev ws p len pts su, well_posed n dev ws ->
  MakePath xarith xextras (map fin ws) (XFin dev) = Ok p -> path_length p = XFin len -> switches_at p pts -> su_path su = p ->
  forall fuel s r, GetNextSwitchingPoint xarith xextras fuel su (XFin s) = Ok r ->
  match r with
  | None => forall z g, beyond pts len s z g -> forall q, ~ usable_minimum su z g q
  | Some q =>
    (exists y f, beyond pts len s y f /\ usable_minimum su y f q /\
       forall z g, beyond pts len s z g -> z < y -> forall q', ~ usable_minimum su z g q') \/
    (speed_switch su len q /\ exists a, fst (fst (fst q)) = XFin a /\
       forall z g, beyond pts len s z g -> (exists q', usable_minimum su z g q') -> a < z /\ within_accel_limit su q)
  end.
Proof. exact next_point_spec. Qed.

(** Where integrating forward from [b] runs above a limit curve at [a], the last state kept is
    within the limits (or the state at [b]) and a state at most a millionth later is not. *)
Theorem C189_crossing : forall su fuel b bv a av r, b <= a -> above_limit su a av ->
  forward_bisect xarith xextras fuel su (XFin b) bv (XFin a) av = Ok r ->
  exists b' bv' a', r = (XFin b', bv', XFin a') /\ b <= b' /\ b' <= a' <= b' + tiny /\ a' <= a /\
    (exists av', above_limit su a' av') /\ (b' = b /\ bv' = bv \/ within_limits su b' bv').
Proof. exact crossing. Qed.
Print Assumptions C189_acceleration.
Print Assumptions C189_velocity.
Print Assumptions C189_next.
Print Assumptions C189_crossing.

(** A straight path with unit limits: the curves never come down, and the searches run from [0] to
    the end of the path and give no switching point; and a state above the speed limit of [1]. *)
Lemma straight_slopes s : limit_slopes xarith xextras ex_setup (XFin s) = Ok (XFin (-1), XFin 0).
Proof.
  unfold limit_slopes. rewrite ex_velocity. cbn [bind]. unfold GetMinMaxPhaseSlope. rewrite ex_acceleration. cbn [bind adiv xarith]. rewrite xdiv_fin by lra.
  unfold GetVelocityMaxPathVelocityDeriv. cbn [su_path ex_setup su_max_velocity]. rewrite ex_tangent, ex_curvature.
  cbn [bind length seq mfold raw_get nth_error]. cbn [xarith aabs xabs adiv xextras e_max altb]. rewrite Rabs_R1, xdiv_fin by lra. cbn [xltb]. xrs.
  cbn [fst snd bind raw_get nth_error]. cbn [xarith aopp amul adiv aabs xabs xopp xmul]. xrs. cbn [fst snd bind raw_get nth_error xabs xopp xmul]. rewrite ?Rabs_R1.
  repeat (rewrite xdiv_fin by lra; cbn [xmul bind]). do 2 f_equal; f_equal; lra.
Qed.
Lemma falling : aleb xarith (XFin 0) (XFin (-1)) = false.
Proof. cbn. unfold xleb. cbn [xltb xeqb]. xrs. reflexivity. Qed.
Lemma straight_scan : forall k s, 1 <= s + INR (S k) / 1000 -> exists y, velocity_scan xarith xextras (S k) ex_setup false (XFin s) = Ok (XFin y) /\ 1 <= y.
Proof.
  induction k as [|k IH]; intros s L.
  - cbn [velocity_scan]. rewrite lit_1e3_fin. cbn [aadd xarith xadd]. rewrite straight_slopes. cbn [bind fst snd].
    cbn [INR] in L. exists (s + / 1000). split; [|lra]. rewrite falling. cbn [orb negb bind altb xarith xltb ex_setup su_path ex_path path_length]. xrs. cbn [andb]. reflexivity.
  - rewrite S_INR in L. remember (S k) as k1. cbn [velocity_scan]. rewrite lit_1e3_fin. cbn [aadd xarith xadd]. rewrite straight_slopes. cbn [bind fst snd].
    destruct (Rlt_or_le (s + / 1000) 1) as [C|C].
    + destruct (IH (s + / 1000)) as (y & E & Y); [lra|]. exists y. split; [|exact Y]. rewrite <- E.
      rewrite falling. cbn [orb negb bind altb xarith xltb ex_setup su_path ex_path path_length]. xrs. cbn [andb]. reflexivity.
    + exists (s + / 1000). split; [|exact C]. rewrite falling. cbn [orb negb bind altb xarith xltb ex_setup su_path ex_path path_length]. xrs. cbn [andb]. reflexivity.
Qed.
Lemma straight_next k : 1 <= INR k / 1000 -> GetNextSwitchingPoint xarith xextras (S k) ex_setup (XFin 0) = Ok None.
Proof.
  intros K. destruct (straight_scan k (0 - / 1000)) as (y & E & Y). { rewrite S_INR. lra. }
  unfold GetNextSwitchingPoint. cbn [acceleration_candidates fst GetNextAccelerationSwitchingPoint]. unfold PathNextSwitchingPoint.
  change (path_switching_points (su_path ex_setup)) with (@nil (xr * bool)). change (path_length (su_path ex_setup)) with (XFin 1). cbn [next_point].
  rewrite tiny_lit. cbn [asub altb xarith xsub xadd xopp xltb].
  rewrite (Rlt_bool_true (1 + - tiny) 1) by (unfold tiny; lra). cbn [bind velocity_candidates fst].
  unfold GetNextVelocitySwitchingPoint. rewrite lit_1e3_fin. cbn [asub xarith xsub xopp xadd]. replace (0 + - / 1000) with (0 - / 1000) by lra. rewrite E. cbn [bind].
  change (path_length (su_path ex_setup)) with (XFin 1).
  assert (C : xleb (XFin 1) (XFin y) = true).
  { unfold xleb. cbn [xltb xeqb]. apply orb_true_iff. destruct (Rlt_bool_spec 1 y) as [C|C]; [now left|right]. apply Req_bool_true. lra. }
  cbn [aleb xarith]. rewrite C. reflexivity.
Qed.
Lemma straight_well_posed : well_posed 1 0 [[0]; [1]].
Proof.
  split; [exact (le_n 2)|]. split; [repeat constructor|]. split; [|intros; lra]. intros _. cbn [last_leg]. unfold dist, norm, vsub. cbn [zip_with dot]. apply sqrt_lt_R0. lra.
Qed.
Example C189_nonvacuous : well_posed 1 0 [[0]; [1]] /\ MakePath xarith xextras (map fin [[0]; [1]]) (XFin 0) = Ok ex_path /\ su_path ex_setup = ex_path /\
  (exists fuel, GetNextSwitchingPoint xarith xextras fuel ex_setup (XFin 0) = Ok None) /\ above_limit ex_setup (/ 2) (XFin 2).
Proof.
  split; [exact straight_well_posed|]. split; [exact ex_make|]. split; [reflexivity|]. split.
  - exists (S (Z.to_nat 1000)). apply straight_next. rewrite INR_IZR_INZ, Z2Nat.id by lia. lra.
  - right. exists (XFin 1). split; [apply ex_velocity|]. cbn [xltb]. apply Rlt_bool_true. lra.
Qed.
