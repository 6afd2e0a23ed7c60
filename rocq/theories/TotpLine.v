(** Trajectories between two waypoints. *)
From Coq Require Import ZArith Reals Lra Psatz List Bool Lia.
From Flocq Require Import Core.
From Verif Require Import Base MathModel MathReal MathLinModel MathVec MathLinProof TotpModel TotpSpec TotpProof TotpQuery TotpScalar TotpRealSpec TotpReal TotpLimits TotpArc TotpPathSpec TotpPath TotpBlend TotpChain TotpPoly TotpGeometry TotpMotionSpec TotpSample TotpStraight.
Local Open Scope R_scope.

Lemma nth_error_firstn_lt' {T} : forall (l : list T) k n, (k < n)%nat -> nth_error (firstn n l) k = nth_error l k.
Proof. induction l as [|x l IH]; intros [|k] [|m] H; try lia; try reflexivity; cbn. apply IH. lia. Qed.
Section Line.
Variables (n : nat) (a b vmax amax : list R) (dt : R).
Hypothesis La : length a = n. Hypothesis Lb : length b = n.
Hypothesis Lv : length vmax = n. Hypothesis Lam : length amax = n.
Hypothesis PV : Forall (fun x => 0 < x) vmax. Hypothesis PA : Forall (fun x => 0 < x) amax.
Hypothesis PD : 0 < dt.
Notation L := (norm (vsub b a)).
Hypothesis PL : 0 < L.
Definition dir : list R := vscale (/ L) (vsub b a).
Hypothesis LIM : exists i, (i < n)%nat /\ nth i vmax 0 < big * Rabs (nth i dir 0).

Lemma dir_dim : length dir = n. Proof. unfold dir. vdim. Qed.
Definition line_path : @path xr := mkPath (XFin L) [] [mkSegment (XFin L) (LinearShape (fin a) (fin b)) (XFin 0)].
Definition line_setup : @setup xr := mkSetup line_path (fin vmax) (fin amax) (XFin dt).

Lemma line_make dev : MakePath xa xextras [fin a; fin b] (XFin dev) = Ok line_path.
Proof.
  unfold MakePath. cbn [xextras e_finite path_loop]. unfold MakeLinear. rewrite fin_sub by congruence. cbn [bind]. rewrite fin_norm.
  cbn [bind mfold place_step seg_switching_points seg_shape seg_length fold_left pop_reached]. cbn [xa aadd a_of xadd tl rev app bind].
  unfold line_path. do 2 f_equal. f_equal. lra.
Qed.
Lemma line_tangent s : GetTangent xa xextras line_path s = Ok (fin dir).
Proof.
  unfold GetTangent, GetPathSegment, line_path. cbn [path_segments segment_walk bind fst snd seg_tangent seg_shape seg_length].
  unfold seg_tangent. cbn [seg_shape seg_length]. rewrite fin_sub by congruence. cbn [bind]. rewrite fin_over by lra. reflexivity.
Qed.
Lemma line_curvature s : GetCurvature xa xextras line_path s = Ok (fin (repeat 0 n)).
Proof.
  unfold GetCurvature, GetPathSegment, line_path. cbn [path_segments segment_walk bind fst snd]. unfold seg_curvature. cbn [seg_shape]. now rewrite fin_length, La, fin_zero.
Qed.
Lemma line_config s : exists t, 0 <= t <= 1 /\ GetConfig xa xextras line_path (XFin s) = Ok (fin (between a b t)).
Proof.
  unfold GetConfig, GetPathSegment, line_path. cbn [path_segments segment_walk bind fst snd seg_position xa asub]. rewrite xsub_fin.
  unfold seg_config. cbn [seg_shape seg_length xa adiv]. rewrite xdiv_fin by lra. set (r := (s - 0) / L).
  destruct (interpolate_end n a b (XFin r) La Lb) as (I0 & I1). destruct (Rlt_or_le r 0) as [C|C].
  - exists 0. split; [lra|]. rewrite I0 by now apply xltb_lt. do 2 f_equal. unfold between. veq n. ring.
  - destruct (Rlt_or_le 1 r) as [D|D].
    + exists 1. split; [lra|]. rewrite I1 by (try apply xltb_lt; try apply xltb_ge; lra). do 2 f_equal. unfold between. veq n. ring.
    + exists r. split; [lra|].
      destruct (linear_total a b ltac:(congruence)) as (g & EG & EL).
      destruct (line_follows n a b g La Lb PL EG) as (_ & _ & F). destruct (F (r * L)) as (Q & _).
      { cbn [line cu_len]. split; [apply Rmult_le_pos; lra|]. rewrite <- (Rmult_1_l L) at 2. apply Rmult_le_compat_r; lra. }
      unfold MakeLinear in EG. rewrite fin_sub in EG by congruence. cbn [bind] in EG. rewrite fin_norm in EG. injection EG as <-.
      unfold seg_config in Q. cbn [seg_shape seg_length line cu_q xa adiv] in Q. rewrite xdiv_fin in Q by lra.
      replace (r * L / L) with r in Q by (field; lra). exact Q.
Qed.

Lemma pos_bound : forall (l u : list R), Forall (fun x => 0 < x) l -> length u = length l ->
  exists x, 0 < x <= 1 /\ forall i, (i < length l)%nat -> x * Rabs (nth i u 0) <= nth i l 0.
Proof.
  induction l as [|y l IH]; intros [|z u] P E; try discriminate.
  - exists 1. split; [lra|]. cbn. intros; lia.
  - inversion_clear P as [|? ? Hy P']. destruct (IH u P' ltac:(cbn in E; lia)) as (x & X & H). pose proof (Rabs_pos z) as ZP.
    assert (Q : 0 < y / (Rabs z + 1)) by (apply Rdiv_lt_0_compat; lra).
    exists (Rmin x (y / (Rabs z + 1))). pose proof (Rmin_l x (y / (Rabs z + 1))). pose proof (Rmin_r x (y / (Rabs z + 1))).
    assert (M : 0 < Rmin x (y / (Rabs z + 1))) by (apply Rmin_glb_lt; lra). split; [lra|]. intros [|i] Hi; cbn [nth].
    + assert (Rmin x (y / (Rabs z + 1)) * (Rabs z + 1) <= y); [|nra].
      apply Rle_trans with (y / (Rabs z + 1) * (Rabs z + 1)); [apply Rmult_le_compat_r; lra|]. right. field. lra.
    + eapply Rle_trans; [|apply H; cbn in Hi; lia]. apply Rmult_le_compat_r; [apply Rabs_pos|lra].
Qed.
Lemma big_pos : 1 < big. Proof. unfold big. apply IZR_lt. reflexivity. Qed.

Lemma line_velocity : exists V, 0 < V < big /\ (forall s, GetVelocityMaxPathVelocity xa xextras line_setup (XFin s) = Ok (XFin V)) /\
  forall i, (i < n)%nat -> V * Rabs (nth i dir 0) <= nth i vmax 0.
Proof.
  assert (NN : Forall (fun v => 0 <= v) vmax) by (eapply Forall_impl; [|exact PV]; cbn; intros; lra).
  assert (DV : length dir = length vmax) by (rewrite dir_dim; congruence).
  destruct (velocity_limit line_path vmax (fin amax) (XFin dt) 0 dir (line_tangent _) DV NN) as (V & EV & HV).
  assert (W : forall x, 0 <= x -> (within vmax (joint_velocity dir x) <-> forall i, (i < n)%nat -> x * Rabs (nth i dir 0) <= nth i vmax 0)).
  { intros x Hx. unfold joint_velocity. rewrite within_nth by (unfold vscale; now rewrite map_length). rewrite Lv.
    split; intros H i Hi; specialize (H i Hi); rewrite nth_vscale, Rabs_mult, (Rabs_pos_eq x) in * by exact Hx; exact H. }
  pose proof big_pos as BP. destruct (pos_bound vmax dir PV DV) as (x & X & HX). rewrite Lv in HX.
  assert (VP : x <= V). { apply HV; [lra|]. split; [lra|]. apply W; [lra|]. exact HX. }
  assert (VW : forall i, (i < n)%nat -> V * Rabs (nth i dir 0) <= nth i vmax 0). { apply W; [lra|]. apply (HV V); lra. }
  exists V. split; [split; [lra|]|].
  { destruct LIM as (i & Hi & HL). specialize (VW i Hi). pose proof (Rabs_pos (nth i dir 0)). nra. }
  split; [|exact VW]. intros s.
  destruct (velocity_limit line_path vmax (fin amax) (XFin dt) s dir (line_tangent _) DV NN) as (V' & EV' & HV').
  unfold line_setup. rewrite EV'. do 2 f_equal. apply Rle_antisym.
  - assert (0 <= V'). { apply HV'; [lra|]. split; [lra|]. apply W; [lra|]. intros i Hi. rewrite Rmult_0_l. rewrite Forall_forall in NN. apply NN, nth_In. lia. }
    apply HV; [assumption|]. apply HV'; lra.
  - apply HV'; [lra|]. apply HV; lra.
Qed.
Lemma line_acceleration : exists A, 0 < A /\ (forall s v c, GetMinMaxPathAcceleration xa xextras line_setup (XFin s) (XFin v) c = Ok (XFin (if c then A else - A))) /\
  forall i, (i < n)%nat -> A * Rabs (nth i dir 0) <= nth i amax 0.
Proof.
  assert (DV : length dir = length vmax) by (rewrite dir_dim; congruence).
  assert (ZV : length (repeat 0 n) = length vmax) by (rewrite repeat_length; congruence).
  assert (AV : length amax = length vmax) by congruence.
  set (P := fun y => Rabs y <= big /\ forall i, (i < n)%nat -> Rabs y * Rabs (nth i dir 0) <= nth i amax 0).
  assert (NA : forall i, (i < n)%nat -> 0 <= nth i amax 0). { intros i Hi. rewrite Forall_forall in PA. apply Rlt_le, PA, nth_In. lia. }
  assert (H : forall s v, exists lo hi, GetMinMaxPathAcceleration xa xextras line_setup (XFin s) (XFin v) false = Ok (XFin lo) /\
    GetMinMaxPathAcceleration xa xextras line_setup (XFin s) (XFin v) true = Ok (XFin hi) /\ forall y, lo <= y <= hi <-> P y).
  { intros s v. destruct (acceleration_limits line_path vmax amax (XFin dt) s v dir (repeat 0 n) (line_tangent _) (line_curvature _) DV ZV AV) as (lo & hi & E1 & E2 & HY).
    exists lo, hi. split; [exact E1|]. split; [exact E2|]. intros y. rewrite HY, Lv. unfold P.
    assert (J : forall i, nth i (joint_acceleration dir (repeat 0 n) v y) 0 = y * nth i dir 0).
    { intros i. rewrite nth_joint_acceleration by congruence. rewrite nth_repeat. ring. }
    split; intros (B & C); (split; [exact B|]); intros i Hi.
    - destruct (Req_dec (nth i dir 0) 0) as [E|E]; [rewrite E, Rabs_R0, Rmult_0_r; now apply NA|].
      specialize (C i Hi E). rewrite J, Rabs_mult in C. exact C.
    - intros _. rewrite J, Rabs_mult. now apply C. }
  assert (PS : forall y, P y -> P (- y)) by (unfold P; intros y; now rewrite Rabs_Ropp).
  pose proof big_pos as BP.
  assert (P0 : P 0). { unfold P. rewrite Rabs_R0. split; [lra|]. intros i Hi. rewrite Rmult_0_l. now apply NA. }
  destruct (H 0 0) as (lo & hi & _ & _ & HH).
  assert (SYM : forall lo hi, (forall y, lo <= y <= hi <-> P y) -> lo = - hi /\ 0 <= hi /\ P hi).
  { intros l h K. assert (K0 : l <= 0 <= h) by now apply K. assert (K1 : P h) by (apply K; lra). assert (K2 : P l) by (apply K; lra).
    apply PS in K2. apply K in K2. pose proof (proj2 (K _) (PS _ K1)). repeat split; try lra. all: exact (proj1 K1) || exact (proj2 K1) || lra. }
  destruct (SYM lo hi HH) as (EL & H0 & PH).
  destruct (pos_bound amax dir PA ltac:(congruence)) as (x & X & HX). rewrite Lam in HX.
  assert (XP : P x). { unfold P. rewrite Rabs_pos_eq by lra. split; [lra|exact HX]. }
  apply HH in XP. exists hi. split; [lra|]. split.
  - intros s v c. destruct (H s v) as (lo' & hi' & E1 & E2 & HH'). destruct (SYM _ _ HH') as (EL' & H0' & PH').
    assert (hi' = hi). { apply Rle_antisym; [apply HH, PH'|apply HH', PH]. } subst hi'. destruct c; [exact E2|]. rewrite E1, EL'. reflexivity.
  - intros i Hi. destruct PH as (_ & PH). specialize (PH i Hi). rewrite Rabs_pos_eq in PH by exact H0. exact PH.
Qed.
Lemma line_curve s : GetAccelerationMaxPathVelocity xa xextras line_setup (XFin s) = Ok (XInf false).
Proof.
  assert (DV : length dir = length vmax) by (rewrite dir_dim; congruence).
  assert (ZV : length (repeat 0 n) = length vmax) by (rewrite repeat_length; congruence).
  assert (AV : length amax = length vmax) by congruence.
  assert (NA : Forall (fun v => 0 <= v) amax) by (eapply Forall_impl; [|exact PA]; cbn; intros; lra).
  destruct (acceleration_curve line_path vmax amax (XFin dt) s dir (repeat 0 n) (line_tangent _) (line_curvature _) DV ZV AV NA) as (W & E & [->|(r & ->)] & HW); [exact E|].
  exfalso. assert (K : xle (Rmax 0 r + 1) (XFin r)).
  { apply HW; [pose proof (Rmax_l 0 r); lra|]. exists 0. rewrite within_nth.
    2: { unfold joint_acceleration. pose proof dir_dim. assert (length (repeat 0 n) = n) by apply repeat_length. rewrite Lam. vdim. }
    intros i Hi. rewrite nth_joint_acceleration by congruence. rewrite nth_repeat, Rmult_0_l, Rmult_0_r, Rplus_0_l, Rabs_R0.
      rewrite Forall_forall in NA. apply NA, nth_In. exact Hi. }
  apply xleb_le in K. pose proof (Rmax_r 0 r). lra.
Qed.
Lemma line_deriv V s : V < big -> GetVelocityMaxPathVelocity xa xextras line_setup (XFin s) = Ok (XFin V) ->
  GetVelocityMaxPathVelocityDeriv xa xextras line_setup (XFin s) = Ok (XFin 0).
Proof.
  intros HB EV. unfold GetVelocityMaxPathVelocity in EV. unfold GetVelocityMaxPathVelocityDeriv. cbn [line_setup su_path su_max_velocity] in *.
  rewrite line_tangent in *. cbn [bind] in *. rewrite fin_length, Lv in *.
  assert (INV : forall k, (k <= n)%nat -> exists M i,
    mfold (fun acc i => do v <- raw_get (fin vmax) i; do t <- raw_get (fin dir) i; Ok (std_min xa acc (adiv xa v (aabs xa t)))) (e_max xextras) (seq 0 k) = Ok (XFin M) /\
    mfold (fun acc i => do v <- raw_get (fin vmax) i; do t <- raw_get (fin dir) i; let this := adiv xa v (aabs xa t) in Ok (if altb xa this (fst acc) then (this, i) else acc))
      (e_max xextras, 0%nat) (seq 0 k) = Ok (XFin M, i) /\ ((M = big /\ i = 0%nat) \/ ((i < n)%nat /\ nth i dir 0 <> 0))).
  { induction k as [|k IH]; intros Hk.
    - exists big, 0%nat. split; [reflexivity|]. split; [reflexivity|]. now left.
    - destruct (IH ltac:(lia)) as (M & i & E1 & E2 & OK). rewrite !seq_S, !mfold_app, E1, E2. cbn [bind mfold Nat.add].
      rewrite !fin_get by (rewrite ?dir_dim; lia). cbn [bind]. rewrite ?fin_get by (rewrite ?dir_dim; lia). cbn [bind fst].
      unfold std_min. cbn [xa aabs xabs adiv altb]. destruct (Req_dec (nth k dir 0) 0) as [Z|Z].
      + rewrite Z, Rabs_R0. assert (NV : 0 < nth k vmax 0) by (rewrite Forall_forall in PV; apply PV, nth_In; lia).
        unfold xdiv. rewrite Req_bool_true by reflexivity. rewrite Req_bool_false by lra. unfold xsign. rewrite Rlt_bool_false by lra.
        cbn [xltb]. exists M, i. auto.
      + rewrite xdiv_fin by now apply Rabs_no_R0. cbn [xltb]. destruct (Rlt_bool _ M) eqn:C.
        * do 2 eexists. split; [reflexivity|]. split; [reflexivity|]. right. split; [lia|exact Z].
        * exists M, i. auto. }
  destruct (INV n (le_n n)) as (M & i & E1 & E2 & OK).
  assert (EM : XFin M = XFin V). { cut (Ok (XFin M) = Ok (XFin V)); [congruence|]. rewrite <- E1, <- EV. reflexivity. }
  injection EM as ->. destruct OK as [(-> & _)|(Hi & NZ)]; [lra|].
  match goal with |- (do best <- ?X; _) = _ => replace X with (Ok (XFin V, i)) by (symmetry; exact E2) end. cbn [bind snd].
  rewrite fin_get by lia. cbn [bind]. rewrite line_curvature. cbn [bind]. rewrite fin_get by (rewrite repeat_length; lia). cbn [bind].
  rewrite fin_get by (rewrite dir_dim; lia). cbn [bind xa aopp amul adiv aabs xmul xabs xopp]. pose proof (Rabs_no_R0 _ NZ) as NZ'.
  rewrite xdiv_fin by now apply Rmult_integral_contrapositive_currified. rewrite nth_repeat. do 2 f_equal. field. split; assumption.
Qed.

(** The steps, and their times. *)
Definition timed3 (x : R * R * R) : @timed xr := timed_of (fst (fst x)) (snd (fst x)) (snd x).
Fixpoint sums (l : list (R * R)) : Prop :=
  match l with x :: r => match r with y :: _ => 0 < snd x + snd y /\ sums r | [] => True end | [] => True end.
Lemma sums_app l r : sums l -> sums r -> (forall x y l' r', l = l' ++ [x] -> r = y :: r' -> 0 < snd x + snd y) -> sums (l ++ r).
Proof.
  induction l as [|x [|y l] IH]; intros H K J; [exact K| |].
  - cbn [app sums]. destruct r as [|y r]; [exact I|]. split; [|exact K]. apply (J x y [] r); reflexivity.
  - cbn [app sums] in *. destruct H as (H1 & H2). split; [exact H1|]. apply IH; auto. intros z w l' r' E1 E2. apply (J z w (x :: l') r'); [now rewrite E1|exact E2].
Qed.
(** The time that passes from the first to the last step. *)
Definition pass (g h : R * R) : R := (fst h - fst g) / ((snd h + snd g) / 2).
Fixpoint elapsed (l : list (R * R)) : R := match l with g :: ((h :: _) as r) => pass g h + elapsed r | _ => 0 end.
Lemma elapsed_app l g h r : elapsed ((l ++ [g]) ++ h :: r) = elapsed (l ++ [g]) + pass g h + elapsed (h :: r).
Proof.
  induction l as [|x [|y l] IH]; [cbn; ring|cbn; ring|]. cbn [app elapsed] in *. rewrite IH. ring.
Qed.
Lemma pass_nonneg g h : fst g <= fst h -> 0 < snd g + snd h -> 0 <= pass g h.
Proof. intros H K. unfold pass, Rdiv. apply Rmult_le_pos; [lra|]. apply Rlt_le, Rinv_0_lt_compat. lra. Qed.
Lemma pass_pos g h : fst g < fst h -> 0 < snd g + snd h -> 0 < pass g h.
Proof. intros H K. unfold pass. apply Rdiv_lt_0_compat; lra. Qed.
Lemma elapsed_rising l : rising l -> sums l -> 0 <= elapsed l.
Proof.
  induction l as [|g [|h r] IH]; intros H K; [cbn; lra..|]. destruct H as (H1 & H2). destruct K as (K1 & K2). specialize (IH H2 K2).
  pose proof (pass_pos g h H1 K1). cbn [elapsed] in *. lra.
Qed.
Lemma last_cons {T} : forall (l : list T) x y, last (x :: l) y = last l x.
Proof. induction l as [|z l IH]; intros x y; [reflexivity|]. change (last (x :: z :: l) y) with (last (z :: l) y). rewrite !IH. reflexivity. Qed.
Lemma timing_fin : forall l p v t, sums ((p, v) :: l) -> exists ts, timing xa (timed_of p v t) (map xs l) = map timed3 ts /\ map fst ts = l /\
  last (map snd ts) t = t + elapsed ((p, v) :: l) /\ (forall y l', l = y :: l' -> exists ts', ts = (y, t + pass (p, v) y) :: ts').
Proof.
  induction l as [|[q w] l IH]; intros p v t S; [exists []; cbn; repeat split; [ring|discriminate]|]. cbn [map timing xs fst snd]. destruct S as (S1 & S2). cbn [snd] in S1.
  cbn [timed_of t_time t_pos t_vel xa aadd asub adiv a_of xadd]. rewrite xsub_fin, xdiv_fin by lra. rewrite xdiv_fin by lra. cbn [xadd].
  set (t' := t + (q - p) / ((w + v) / 2)). destruct (IH q w t' S2) as (ts & E & M & EL & _). exists ((q, w, t') :: ts). cbn [map]. rewrite <- E, M. split; [reflexivity|]. split; [reflexivity|]. split.
  - change (elapsed ((p, v) :: (q, w) :: l)) with (pass (p, v) (q, w) + elapsed ((q, w) :: l)). cbn [snd]. replace (last (t' :: map snd ts) t) with (last (map snd ts) t').
    + rewrite EL. unfold t', pass. cbn [fst snd]. ring.
    + symmetry. apply last_cons.
  - intros y l' EY. injection EY as <- <-. exists ts. reflexivity.
Qed.
Lemma add_times_fin p v l : sums ((p, v) :: l) -> exists ts, add_times xa (map xs ((p, v) :: l)) = map timed3 ts /\ map fst ts = (p, v) :: l /\ hd_error ts = Some (p, v, 0) /\
  last (map snd ts) 0 = elapsed ((p, v) :: l) /\ (forall y l', l = y :: l' -> exists ts', ts = (p, v, 0) :: (y, pass (p, v) y) :: ts').
Proof.
  intros S. destruct (timing_fin l p v 0 S) as (ts & E & M & EL & EN). exists ((p, v, 0) :: ts). cbn [map add_times xs fst snd]. rewrite M.
  split; [|split; [reflexivity|split; [reflexivity|split]]].
  2: { rewrite Rplus_0_l in EL. rewrite <- EL. cbn [snd]. rewrite last_cons. reflexivity. }
  2: { intros y l' EY. destruct (EN y l' EY) as (ts' & ->). exists ts'. rewrite Rplus_0_l. reflexivity. }
  cbn [timed3 fst snd]. unfold timed3 at 1. cbn [fst snd]. rewrite <- E. reflexivity.
Qed.
Lemma sums_mono r : mono r -> sums (rev r).
Proof.
  induction r as [|s2 [|s1 r] IH]; intros M; [exact I|exact I|]. destruct (mono_cons _ _ _ M) as (M1 & M2 & M3 & M4).
  change (rev (s2 :: s1 :: r)) with (rev (s1 :: r) ++ [s2]). apply sums_app; [now apply IH|exact I|].
  intros x y l' r' E1 E2. injection E2 as <- _. cbn [rev] in E1. apply app_inj_tail in E1 as (_ & <-).
  pose proof (mono_nonneg _ M4) as NN. inversion_clear NN as [|? ? (_ & N2) _]. lra.
Qed.
Lemma sums_pos l : Forall (fun s => 0 < snd s) l -> sums l.
Proof. induction 1 as [|x l P F IH]; [exact I|]. destruct F as [|y l P' F]; [exact I|]. split; [lra|exact IH]. Qed.
Lemma mono_last r : mono r -> exists l, rev r = (0, 0) :: l.
Proof.
  induction r as [|s2 [|s1 r] IH]; intros M; [destruct M|destruct s2; destruct M as (-> & ->); exists []; reflexivity|].
  destruct (mono_cons _ _ _ M) as (_ & _ & _ & M4). destruct (IH M4) as (l & E). exists (l ++ [s2]). change (rev (s2 :: s1 :: r)) with (rev (s1 :: r) ++ [s2]). now rewrite E.
Qed.

Lemma elapsed_mono r : mono r -> 0 <= elapsed (rev r).
Proof.
  induction r as [|s2 [|s1 r] IH]; intros M; [cbn; lra..|]. destruct (mono_cons _ _ _ M) as (M1 & M2 & M3 & M4). specialize (IH M4).
  change (rev (s2 :: s1 :: r)) with ((rev r ++ [s1]) ++ [s2]). change (rev (s1 :: r)) with (rev r ++ [s1]) in IH. rewrite elapsed_app. cbn [elapsed].
  pose proof (mono_nonneg _ M4) as NN. inversion_clear NN as [|? ? (_ & N2) _]. pose proof (pass_pos s1 s2 M1 ltac:(lra)). lra.
Qed.
Lemma mono_second : forall r g s, mono (g :: r ++ [s]) -> exists y l, rev r ++ [g] = y :: l /\ 0 < fst y /\ 0 < snd y.
Proof.
  intros r. induction r as [|h r IH]; intros g s M; cbn [app] in M.
  - exists g, []. destruct g as [p v], s as [p' v']. cbn in M. cbn [rev app fst snd]. split; [reflexivity|]. lra.
  - destruct (mono_cons _ _ _ M) as (_ & _ & _ & M'). destruct (IH h s M') as (y & l & E & Y). exists y, (l ++ [g]). cbn [rev]. rewrite E. auto.
Qed.
Lemma sums_tail l : forall r, sums (l ++ r) -> sums r.
Proof.
  induction l as [|x l IH]; intros r S; [exact S|]. apply IH. cbn [app sums] in S. destruct (l ++ r); [exact I|]. tauto.
Qed.
Lemma nat_above x : exists N, x < INR N.
Proof.
  exists (Z.to_nat (Z.max 0 (up x))). rewrite INR_IZR_INZ, Z2Nat.id by lia. destruct (archimed x) as (H & _).
  apply Rlt_le_trans with (IZR (up x)); [lra|]. apply IZR_le. lia.
Qed.
Record shape_ok (top : R) (ts : list (R * R * R)) : Prop := {
  so_first : exists y rest, ts = (0, 0, 0) :: y :: rest /\ 0 < fst (fst y) /\ 0 < snd y;
  so_duration : 0 < last (map snd ts) 0;
  so_range : Forall (fun x => 0 <= snd (fst x) <= top) ts;
  so_last : exists before p v t t', ts = before ++ [(p, v, t); (L, 0, t')] /\ p < L /\ 0 < v }.
Lemma line_plan : exists top N, 0 < top /\ (forall i, (i < n)%nat -> top * Rabs (nth i dir 0) <= nth i vmax 0 + dt * nth i amax 0) /\
  forall fuel dev, (N <= fuel)%nat -> exists ts, ParametrizePathTOTP xa xextras fuel [fin a; fin b] (fin vmax) (fin amax) (XFin dev) (XFin dt) =
    Ok (mkTrajectory line_path (map timed3 ts)) /\ shape_ok top ts.
Proof.
  destruct line_velocity as (V & VP & EV & WV). destruct line_acceleration as (A & AP & EA & WA).
  pose proof (fun s => line_deriv V s (proj2 VP) (EV s)) as ED. destruct VP as (VP & VB).
  exists (V + A * dt). pose proof (quantum_pos A dt AP PD) as QP. set (q := quantum A dt) in *.
  destruct (nat_above ((2 * L + q) / q)) as (N & HN). exists (S N). split; [nra|]. split.
  { intros i Hi. specialize (WV i Hi). specialize (WA i Hi). replace ((V + A * dt) * Rabs (nth i dir 0)) with (V * Rabs (nth i dir 0) + dt * (A * Rabs (nth i dir 0))) by ring.
    apply Rplus_le_compat; [exact WV|]. apply Rmult_le_compat_l; [lra|exact WA]. }
  intros fuel dev HF. assert (QF : 2 * L + q < INR fuel * q).
  { apply le_INR in HF. rewrite S_INR in HF. assert (E : (2 * L + q) / q * q = 2 * L + q) by (field; lra). apply Rlt_le_trans with (INR N * q).
    - rewrite <- E at 1. apply Rmult_lt_compat_r; lra.
    - apply Rmult_le_compat_r; lra. }
  unfold ParametrizePathTOTP. rewrite line_make. cbn [bind].
  assert (FF : forall l, forallb (e_finite xextras) (fin l) = true) by (induction l as [|y l IH]; [reflexivity|exact IH]).
  rewrite !FF. cbn [negb xextras e_finite]. fold line_setup. cbn [xa a_of]. rewrite EA. cbn [bind].
  destruct fuel as [|f]; [lia|]. cbn [integrate]. unfold IntegrateForward. change (path_switching_points (su_path line_setup)) with (@nil (xr * bool)).
  change [(XFin 0, XFin 0)] with (map xs [(0, 0)]).
  destruct (forward_line line_setup V A L dt VP AP PD eq_refl eq_refl EV EA line_curve ED (S f) (S f) [] 0 0) as (pe & ve & p1 & v1 & r & E & M & H1 & H2 & H3 & H4).
  { cbn. auto. } { lra. } { lra. } { fold q. lra. } { cbn. lra. }
  change xarith with xa. rewrite E. cbn [bind path_length line_path]. rewrite EA. cbn [bind]. unfold IntegrateBackward. cbn [map].
  change (altb xa (XFin L) (fst (xs (p1, v1)))) with (xltb (XFin L) (XFin p1)). rewrite (proj2 (xltb_ge _ _)) by exact H2.
  destruct (backward_line line_setup A L dt AP PL PD eq_refl EA (V + A * dt) (S f) (pe, ve) (p1, v1) r [] L 0 0 M) as (R & ER & bl & x & v & r' & EQ & FB & VX & XL & MR & FR & qf & wf & rest & p0 & v0 & rr & EB0 & RIS & XQ & WV0 & ER0 & LNK & LNK').
  { cbn. lra. } { left. cbn. repeat split; lra. }
  { fold q. fold q in H4. rewrite Rmax_left by lra. rewrite Rmult_plus_distr_l. lra. }
  cbn [map] in ER. change (a_of xa 0) with (XFin 0). rewrite ER. cbn [bind]. rewrite EQ, <- map_rev.
  cbn [rev]. rewrite rev_app_distr. cbn [rev]. destruct (mono_last r' MR) as (l0 & E0).
  assert (SM : sums (((rev r' ++ [(x, v)]) ++ rev bl) ++ [(L, 0)])).
  { assert (PB : Forall (fun s => 0 < snd s) (rev bl)). { apply Forall_rev. eapply Forall_impl; [|exact FB]. intros s (_ & S). lra. }
    pose proof (Forall_rev (mono_nonneg _ MR)) as NN.
    apply sums_app; [apply sums_app; [apply sums_app; [now apply sums_mono|exact I|]|now apply sums_pos|]|exact I|].
    - intros y z l' r0 E1 E2. injection E2 as <- _. rewrite E1 in NN. apply Forall_app in NN as (_ & NN). inversion_clear NN as [|? ? (_ & N2) _]. cbn [snd]. lra.
    - intros y z l' r0 E1 E2. apply app_inj_tail in E1 as (_ & <-). rewrite E2 in PB. inversion_clear PB. cbn [snd]. lra.
    - intros y z l' r0 E1 E2. injection E2 as <- _. cbn [snd]. destruct (rev bl) as [|z' bl'] eqn:EB using rev_ind.
      + rewrite app_nil_r in E1. apply app_inj_tail in E1 as (_ & <-). cbn. lra.
      + rewrite app_assoc in E1. apply app_inj_tail in E1 as (_ & <-). apply Forall_app in PB as (_ & PB). inversion_clear PB. lra. }
  set (l := ((rev r' ++ [(x, v)]) ++ rev bl) ++ [(L, 0)]) in *.
  assert (EL : exists l1, l = (0, 0) :: l1) by (unfold l; rewrite E0; cbn; eauto). destruct EL as (l1 & EL).
  destruct (add_times_fin 0 0 l1) as (ts & ET & EM & EH & ELT & ESEC); [rewrite <- EL; exact SM|].
  exists ts. split.
  { replace ((rev bl ++ [(x, v)]) ++ [(L, 0)]) with (rev bl ++ [(x, v)] ++ [(L, 0)]) by now rewrite <- app_assoc. do 2 f_equal.
    rewrite <- ET, <- EL. unfold l. reflexivity. }
  rewrite <- EL in EM. constructor.
  - subst r'. destruct (mono_last _ MR) as (m0 & EM0). assert (L1 : exists y l2, l1 = y :: l2 /\ 0 < fst y /\ 0 < snd y).
    { unfold l in EL. destruct rr as [|s rr] using rev_ind.
      - destruct MR as (-> & ->). cbn in EL. injection EL as <-. do 2 eexists. split; [reflexivity|]. cbn [fst snd]. split; [|lra].
        destruct LNK as [[C|C]|C]; [exact C|specialize (LNK' (eq_sym C)); lra|lra].
      - clear IHrr. rewrite app_comm_cons, rev_app_distr in EL. cbn [rev app] in EL. assert (MM : exists y l2, rev rr ++ [(p0, v0)] = y :: l2 /\ 0 < fst y /\ 0 < snd y).
        { apply mono_second with s. exact MR. }
        destruct MM as (y & l2 & EY & Y1 & Y2). rewrite EY in EL. cbn [app] in EL. injection EL as _ <-. eauto. }
    destruct L1 as (y & l2 & -> & Y1 & Y2). destruct (ESEC y l2 eq_refl) as (ts' & ->). exists (y, pass (0, 0) y), ts'. split; [reflexivity|]. cbn [fst snd].
    split; [exact Y1|]. apply pass_pos; cbn [fst snd]; lra.
  - rewrite ELT, <- EL. unfold l. rewrite <- !app_assoc, EB0, ER0. cbn [rev app]. rewrite elapsed_app. change (elapsed ((x, v) :: (qf, wf) :: rest)) with (pass (x, v) (qf, wf) + elapsed ((qf, wf) :: rest)).
    pose proof (elapsed_mono _ MR) as E1. rewrite ER0 in E1. cbn [rev] in E1.
    assert (SR : sums ((qf, wf) :: rest)). { rewrite <- EB0. unfold l in SM. rewrite <- app_assoc in SM. apply sums_tail in SM. exact SM. }
    pose proof (elapsed_rising _ RIS SR) as E2. assert (NV0 : 0 <= v0). { pose proof (mono_nonneg _ MR) as NN. rewrite ER0 in NN. inversion_clear NN as [|? ? (_ & N2) _]. exact N2. }
    assert (0 < pass (p0, v0) (x, v) + pass (x, v) (qf, wf)); [|lra]. pose proof (pass_pos (x, v) (qf, wf)) as P2. cbn [fst snd] in P2. destruct LNK as [C|(C1 & C2)].
    + pose proof (pass_nonneg (p0, v0) (x, v)) as P1. cbn [fst snd] in P1. lra.
    + clear P2. unfold pass. cbn [fst snd]. assert (IV : 0 < / v) by (apply Rinv_0_lt_compat; lra).
      assert (A1 : (qf - x) * / v < (qf - x) / ((wf + v) / 2)). { unfold Rdiv at 1. apply Rmult_lt_compat_l; [lra|]. apply Rinv_lt_contravar; [nra|lra]. }
      assert (A2 : (p0 - x) / ((v + v0) / 2) <= (p0 - x) * / v). { unfold Rdiv at 1. apply Rmult_le_compat_l; [lra|]. apply Rinv_le_contravar; lra. }
      replace ((x - p0) / ((v + v0) / 2)) with (- ((p0 - x) / ((v + v0) / 2))) by (field; lra). nra.
  - assert (FL : Forall (fun s => 0 <= snd s <= V + A * dt) l).
    { unfold l. pose proof (mono_nonneg _ MR) as NN. repeat (apply Forall_app; split).
      - apply Forall_rev. rewrite Forall_forall in *. intros s Hs. specialize (NN s Hs). specialize (FR s Hs). lra.
      - constructor; [cbn; lra|constructor].
      - apply Forall_rev. eapply Forall_impl; [|exact FB]. intros s (_ & S). lra.
      - constructor; [cbn; nra|constructor]. }
    rewrite <- EM in FL. rewrite Forall_map in FL. exact FL.
  - assert (YL : exists l' y, l = (l' ++ [y]) ++ [(L, 0)] /\ fst y < L /\ 0 < snd y).
    { unfold l. destruct (rev bl) as [|z bl'] eqn:EB using rev_ind.
      - exists (rev r'), (x, v). rewrite app_nil_r. cbn. repeat split; lra.
      - exists ((rev r' ++ [(x, v)]) ++ bl'), z. rewrite app_assoc. split; [reflexivity|].
        pose proof (Forall_rev FB) as FB'. rewrite EB in FB'. apply Forall_app in FB' as (_ & FB'). inversion_clear FB' as [|? ? (O1 & O2) _]. lra. }
    destruct YL as (l' & [py vy] & EY & Y1 & Y2). rewrite EY in EM. destruct ts as [|z ts'] using rev_ind; [destruct l'; discriminate|]. clear IHts'.
    rewrite map_app in EM. cbn [map] in EM. apply app_inj_tail in EM as (EM & EZ). destruct ts' as [|z' ts''] using rev_ind; [destruct l'; discriminate|]. clear IHts''.
    rewrite map_app in EM. cbn [map] in EM. apply app_inj_tail in EM as (EM & EZ'). destruct z as [z tz], z' as [z' tz']. cbn [fst] in EZ, EZ'. subst z z'.
    exists ts'', py, vy, tz', tz. split; [now rewrite <- app_assoc|]. cbn in Y1, Y2. auto.
Qed.

(** With a time step of zero nothing is ever returned. *)
Lemma line_stuck fuel dev : dt = 0 -> ParametrizePathTOTP xa xextras fuel [fin a; fin b] (fin vmax) (fin amax) (XFin dev) (XFin dt) = Diverge.
Proof.
  intros Z. destruct line_velocity as (V & VP & EV & WV). destruct line_acceleration as (A & AP & EA & WA).
  pose proof (fun s => line_deriv V s (proj2 VP) (EV s)) as ED. destruct VP as (VP & VB).
  unfold ParametrizePathTOTP. rewrite line_make. cbn [bind].
  assert (FF : forall l, forallb (e_finite xextras) (fin l) = true) by (induction l as [|y l IH]; [reflexivity|exact IH]).
  rewrite !FF. cbn [negb xextras e_finite]. fold line_setup. cbn [xa a_of]. rewrite EA. cbn [bind].
  destruct fuel as [|f]; [reflexivity|]. cbn [integrate]. unfold IntegrateForward. change (path_switching_points (su_path line_setup)) with (@nil (xr * bool)).
  change xarith with xa. rewrite (stuck line_setup V A L dt VP AP PL eq_refl eq_refl EV EA line_curve ED (S f) Z). reflexivity.
Qed.

(** Sampling such a trajectory. *)
Lemma sample_any (x y : R * R * R) t : snd x < snd y -> exists u, 0 <= u <= 1 /\
  let g := mkLeg (fst (fst x)) (snd (fst x)) (snd x) (fst (fst y)) (snd (fst y)) (snd y) in
  sample_between xa xextras line_path (timed3 x) (timed3 y) (XFin t) = Ok (fin (between a b u), fin (vscale (leg_velocity g t) dir)).
Proof.
  intros LT. destruct x as [[p0 v0] t0], y as [[p1 v1] t1]. cbn [fst snd] in *. set (g := mkLeg p0 v0 t0 p1 v1 t1).
  destruct (line_config (leg_position g t)) as (u & U & EC). exists u. split; [exact U|]. cbv zeta.
  unfold sample_between, timed3, timed_of, lit_half. cbn [fst snd t_pos t_vel t_time xa asub aadd amul adiv a_of xsub xadd xopp xmul].
  rewrite !xdiv_fin by (try lra; apply Rgt_not_eq; nra). cbn [xsub xadd xopp xmul].
  match goal with |- context [GetConfig xa xextras line_path (XFin ?s)] => replace s with (leg_position g t) end.
  2: { unfold leg_position, leg_acceleration, g. cbn [l_p0 l_v0 l_t0 l_p1 l_t1]. unfold Rminus, Rdiv. rewrite Rmult_1_l. reflexivity. }
  rewrite EC. cbn [bind]. rewrite line_tangent. cbn [bind]. f_equal. f_equal. etransitivity; [apply fin_scale|]. reflexivity.
Qed.
Lemma leg_mix (g : leg) t top : l_t0 g <= t <= l_t1 g -> l_t0 g < l_t1 g -> 0 <= l_v0 g <= top -> 0 <= l_v1 g <= top ->
  0 < l_v0 g + l_v1 g -> l_t1 g = l_t0 g + (l_p1 g - l_p0 g) / ((l_v1 g + l_v0 g) / 2) -> 0 <= leg_velocity g t <= top.
Proof.
  intros T LT V0 V1 S E. set (T0 := l_t1 g - l_t0 g).
  assert (EP : l_p1 g - l_p0 g = T0 * ((l_v1 g + l_v0 g) / 2)). { unfold T0. rewrite E. field. lra. }
  assert (EA : leg_acceleration g = (l_v1 g - l_v0 g) / T0). { unfold leg_acceleration. fold T0. rewrite EP. field. unfold T0. lra. }
  unfold leg_velocity. rewrite EA. set (r := (t - l_t0 g) / T0).
  assert (R : 0 <= r <= 1).
  { unfold r. assert (0 < T0) by (unfold T0; lra). split; [unfold Rdiv; apply Rmult_le_pos; [lra|apply Rlt_le, Rinv_0_lt_compat; lra]|].
    apply (Rmult_le_reg_r T0); [lra|]. unfold Rdiv. rewrite Rmult_assoc, Rinv_l by lra. unfold T0. lra. }
  replace (l_v0 g + (t - l_t0 g) * ((l_v1 g - l_v0 g) / T0)) with (l_v0 g + r * (l_v1 g - l_v0 g)) by (unfold r; field; unfold T0; lra). nra.
Qed.
Lemma line_samples top fuel dev ts : 0 < top ->
  ParametrizePathTOTP xa xextras fuel [fin a; fin b] (fin vmax) (fin amax) (XFin dev) (XFin dt) = Ok (mkTrajectory line_path (map timed3 ts)) -> shape_ok top ts ->
  let tr := mkTrajectory line_path (map timed3 ts) in
  exists D, Duration tr = Ok (XFin D) /\ 0 < D /\ sampled tr 0 a (repeat 0 n) /\ (D < big -> sampled tr D b (repeat 0 n)) /\
    forall t, 0 <= t <= D -> t < big -> exists u c, 0 <= u <= 1 /\ 0 <= c <= top /\ sampled tr t (between a b u) (vscale c dir).
Proof.
  intros PT P [F DP RG (before & p & v & t0 & D & ET & PP & PV0)] tr. pose proof (parametrize_times _ _ _ _ _ _ _ _ _ P) as TM. pose proof (parametrize_built xa xextras xle01 _ _ _ _ _ _ _ P) as B.
  fold tr in TM, B. exists D. 
  assert (REL : forall l x y r, ts = l ++ x :: y :: r -> snd x < snd y -> snd y = snd x + (fst (fst y) - fst (fst x)) / ((snd (fst y) + snd (fst x)) / 2) /\ 0 < snd (fst x) + snd (fst y)).
  { intros l x y r E LT. assert (ES : tr_steps tr = map timed3 l ++ timed3 x :: timed3 y :: map timed3 r) by (unfold tr; cbn [tr_steps]; rewrite E, map_app; reflexivity).
    specialize (TM _ _ _ _ ES). cbn [timed3 timed_of t_time t_pos t_vel xa aadd asub adiv a_of xadd] in TM. rewrite xsub_fin in TM. rewrite xdiv_fin in TM by lra.
    rewrite E in RG. apply Forall_app in RG as (_ & RG). inversion_clear RG as [|? ? R1 RG']. inversion_clear RG' as [|? ? R2 _].
    destruct (Req_dec (snd (fst y) + snd (fst x)) 0) as [Z|Z].
    - exfalso. rewrite Z in TM. replace (0 / 2) with 0 in TM by field. unfold xdiv in TM. rewrite (Req_bool_true 0 0) in TM by reflexivity.
      destruct (Req_bool _ _) in TM; discriminate.
    - rewrite xdiv_fin in TM by lra. injection TM as TM. split; [exact TM|lra]. }
  assert (LAST : tr_steps tr = map timed3 before ++ [timed3 (p, v, t0); timed3 (L, 0, D)]) by (unfold tr; cbn [tr_steps]; rewrite ET, map_app; reflexivity).
  assert (RV : rev (tr_steps tr) = timed3 (L, 0, D) :: timed3 (p, v, t0) :: rev (map timed3 before)) by (rewrite LAST, rev_app_distr; reflexivity).
  assert (DT : t0 < D).
  { pose proof (TM _ _ _ _ LAST) as TL. cbn [timed3 timed_of t_time t_pos t_vel xa aadd asub adiv a_of xadd fst snd] in TL. rewrite xsub_fin in TL.
    rewrite xdiv_fin in TL by lra. rewrite xdiv_fin in TL by lra. injection TL as TL. rewrite TL.
    assert (0 < (L - p) / ((0 + v) / 2)) by (apply Rdiv_lt_0_compat; lra). lra. }
  split; [unfold Duration; rewrite RV; reflexivity|].
  assert (D0 : 0 < D). { rewrite ET, map_app in DP. cbn [map snd] in DP. change ([t0; D]) with ([t0] ++ [D]) in DP. rewrite app_assoc, last_last in DP. exact DP. }
  split; [exact D0|].
  assert (WP : well_posed n 0 [a; b]).
  { split; [cbn; lia|]. split; [repeat constructor; assumption|]. split; [intros _; cbn; rewrite (dist_sym n) by assumption; exact PL|intros; lra]. }
  destruct (path_geometry n 0 [a; b] WP) as (p' & cs & e & MP & TC & _ & _ & NE & GD & _ & CH & E0 & _). change (map fin [a; b]) with [fin a; fin b] in MP. rewrite line_make in MP. injection MP as <-.
  assert (DIM : forall s, length (eval cu_t cs s) = n) by (intros; now apply eval_t_dim).
  assert (Z0 : forall w : list R, length w = n -> vscale 0 w = repeat 0 n).
  { intros w Hw. rewrite <- Hw. unfold vscale. clear. induction w; cbn; [reflexivity|]. f_equal; [ring|assumption]. }
  pose proof (total_nonneg n cs GD) as TN.
  split.
  { destruct F as (y & rest & EF & Y1 & Y2). unfold sampled. change xarith with xa. rewrite xfirst by (auto; apply ordinary_fin; pose proof big_pos; lra).
    assert (PP0 : place xa tr (XFin 0) = 1%nat).
    { unfold place. rewrite RV. cbn [timed3 timed_of t_time fst snd xa aleb]. rewrite (proj2 (xleb_gt _ _)) by exact D0. unfold tr. cbn [tr_steps]. rewrite EF. cbn [map position timed3 timed_of t_time fst snd xa aleb].
      rewrite (proj2 (xleb_le 0 0)) by lra. rewrite (proj2 (xleb_gt _ _)) by exact Y2. reflexivity. }
    unfold spec_answer. rewrite PP0. unfold raw_get, tr. cbn [tr_steps tr_path]. rewrite EF. cbn [map nth_error bind].
    pose proof (sample_leg line_path cs TC (mkLeg 0 0 0 (fst (fst y)) (snd (fst y)) (snd y)) 0) as SL. cbn [l_p0 l_v0 l_t0 l_p1 l_v1 l_t1] in SL. unfold timed3. cbn [fst snd].
    assert (LP : leg_position (mkLeg 0 0 0 (fst (fst y)) (snd (fst y)) (snd y)) 0 = 0) by (unfold leg_position; cbn [l_p0 l_v0 l_t0]; ring).
    assert (LV0 : leg_velocity (mkLeg 0 0 0 (fst (fst y)) (snd (fst y)) (snd y)) 0 = 0) by (unfold leg_velocity; cbn [l_p0 l_v0 l_t0]; ring).
    rewrite LP, LV0 in SL. rewrite SL by lra. cbn [bind fst snd]. rewrite E0, Z0 by apply DIM. reflexivity. }
  split.
  { intros DB. apply (last_sample fuel (fin vmax) (fin amax) (XFin dev) (XFin dt) [fin a; fin b] tr n cs (mkLeg p v t0 L 0 D) b P B); auto; cbn [l_t0 l_t1]; try lra.
    - split; [exact DT|]. exists (map timed3 before). exact LAST.
    - rewrite (eval_total n e cs b a NE GD CH). reflexivity. }
  assert (PAIR : forall l x y r t, ts = l ++ x :: y :: r -> snd x <= t <= snd y -> snd x < snd y ->
    exists u c, 0 <= u <= 1 /\ 0 <= c <= top /\ sample_between xa xextras line_path (timed3 x) (timed3 y) (XFin t) = Ok (fin (between a b u), fin (vscale c dir))).
  { intros l x y r t E TT LT. destruct (sample_any x y t LT) as (u & U & ES). cbv zeta in ES. destruct (REL l x y r E LT) as (EQ & SP).
    rewrite E in RG. apply Forall_app in RG as (_ & RG). inversion_clear RG as [|? ? R1 RG']. inversion_clear RG' as [|? ? R2 _].
    eexists u, _. split; [exact U|]. split; [|exact ES]. apply leg_mix; cbn [l_t0 l_t1 l_v0 l_v1 l_p0 l_p1]; auto. }
  assert (SPLIT : forall k x y, nth_error ts k = Some x -> nth_error ts (S k) = Some y -> exists l r, ts = l ++ x :: y :: r).
  { intros k x y E1 E2. apply nth_error_split in E1 as (l & r & E1 & LK). rewrite E1, nth_error_app2 in E2 by lia.
    replace (S k - length l)%nat with 1%nat in E2 by lia. destruct r as [|y' r]; [discriminate|]. injection E2 as ->. eauto. }
  assert (CONC : forall k x y t, place xa tr (XFin t) = S k -> 0 <= t < big -> nth_error ts k = Some x -> nth_error ts (S k) = Some y -> snd x <= t <= snd y -> snd x < snd y ->
    exists u c, 0 <= u <= 1 /\ 0 <= c <= top /\ sampled tr t (between a b u) (vscale c dir)).
  { intros k x y t PL0 TB E1 E2 TT LT. destruct (SPLIT k x y E1 E2) as (l & r & E). destruct (PAIR l x y r t E TT LT) as (u & c & U & C & ES).
    exists u, c. split; [exact U|]. split; [exact C|]. unfold sampled. change xarith with xa. rewrite xfirst by (auto; apply ordinary_fin; lra).
    unfold spec_answer. rewrite PL0. unfold raw_get, tr. cbn [tr_steps tr_path]. rewrite !nth_error_map, E1, E2. cbn [option_map bind]. rewrite ES. reflexivity. }
  intros t TD TB. destruct (Rle_lt_or_eq_dec _ _ (proj2 TD)) as [C| ->].
  - assert (PO : place xa tr (XFin t) = position xa (tr_steps tr) (XFin t)).
    { unfold place. rewrite RV. cbn [timed3 timed_of t_time fst snd xa aleb]. now rewrite (proj2 (xleb_gt _ _)) by exact C. }
    pose proof (place_pos xa xextras tr B (XFin t) (ordinary_fin t ltac:(lra))) as PP0. destruct (place xa tr (XFin t)) as [|k] eqn:EP; [lia|].
    unfold tr in PP0. cbn [tr_steps] in PP0. rewrite map_length in PP0.
    destruct (nth_error ts k) as [x|] eqn:E1; [|apply nth_error_None in E1; lia]. destruct (nth_error ts (S k)) as [y|] eqn:E2; [|apply nth_error_None in E2; lia].
    assert (X : snd x <= t).
    { pose proof (position_reached xa (tr_steps tr) (XFin t)) as PR. rewrite <- PO in PR. rewrite Forall_forall in PR. specialize (PR (timed3 x)).
      unfold reached in PR. cbn [timed3 timed_of t_time] in PR. apply xleb_le. apply PR.
      apply (nth_error_In _ k). rewrite nth_error_firstn_lt' by lia. unfold tr. cbn [tr_steps]. rewrite nth_error_map, E1. reflexivity. }
    assert (Y : t < snd y).
    { apply xleb_gt. assert (PF : forall l k y, position xa (map timed3 l) (XFin t) = k -> nth_error l k = Some y -> xleb (XFin (snd y)) (XFin t) = false).
      { induction l as [|z l IH]; intros j w; cbn [map position]; [intros <-; discriminate|]. change (aleb xa) with xleb. cbn [timed3 timed_of t_time].
        destruct (xleb (XFin (snd z)) (XFin t)) eqn:CZ; intros <-; cbn [nth_error]; [apply IH; reflexivity|]. intros EZ. injection EZ as <-. exact CZ. }
      apply (PF ts (S k)); [symmetry; exact PO|exact E2]. }
    apply (CONC k x y); auto; lra.
  - assert (PO : place xa tr (XFin D) = S (length before)).
    { unfold place. rewrite RV. cbn [timed3 timed_of t_time fst snd xa aleb]. rewrite (proj2 (xleb_le _ _)) by lra. rewrite LAST, app_length, map_length. cbn. lia. }
    apply (CONC (length before) (p, v, t0) (L, 0, D)); auto; cbn [snd]; try lra.
    + rewrite ET, nth_error_app2, Nat.sub_diag by lia. reflexivity.
    + rewrite ET, nth_error_app2 by lia. replace (S (length before) - length before)%nat with 1%nat by lia. reflexivity.
Qed.
End Line.
