(** A small trajectory in exact arithmetic: from 0 to 1 with velocity and acceleration
    limits 1 and a time step of 1. *)
From Coq Require Import Reals Lra Psatz List Bool Lia.
From Flocq Require Import Core.
From Verif Require Import Base MathModel MathReal MathLinModel MathVec MathLinProof TotpModel TotpSpec TotpProof TotpScalar TotpRealSpec TotpReal TotpLimits TotpArc TotpPathSpec TotpPath TotpBlend TotpChain TotpPoly TotpGeometry TotpMotionSpec.
Local Open Scope R_scope.

Definition ex_path : @path xr := mkPath (XFin 1) [] [mkSegment (XFin 1) (LinearShape [XFin 0] [XFin 1]) (XFin 0)].
Definition ex_setup : @setup xr := mkSetup ex_path [XFin 1] [XFin 1] (XFin 1).
Definition ex_timed (a b c : R) : @timed xr := mkTimed (XFin a) (XFin b) (XFin c).
Definition ex_trajectory : @trajectory xr :=
  mkTrajectory ex_path [ex_timed 0 0 0; ex_timed (/2) 1 1; ex_timed (/2) 1 1; ex_timed 1 0 2].

Lemma ex_big : 1 < IZR max_double. Proof. apply IZR_lt. reflexivity. Qed.
Ltac xr1 :=
  match goal with
  | |- context [Rlt_bool ?a ?b] => first [rewrite (Rlt_bool_true a b) by (pose proof ex_big; lra)|rewrite (Rlt_bool_false a b) by (pose proof ex_big; lra)]
  | |- context [Req_bool ?a ?b] => first [rewrite (Req_bool_true a b) by lra|rewrite (Req_bool_false a b) by lra]
  end.
Ltac xrs := repeat xr1.

Lemma ex_tangent s : GetTangent xa xextras ex_path s = Ok [XFin 1].
Proof.
  unfold GetTangent, GetPathSegment, ex_path. cbn [path_segments segment_walk bind fst snd seg_tangent seg_shape].
  unfold eig_sub, eig_zip, eig_over. cbn. xrs. cbn. do 3 f_equal. lra.
Qed.
Lemma ex_curvature s : GetCurvature xa xextras ex_path s = Ok [XFin 0].
Proof. reflexivity. Qed.
Lemma ex_velocity s : GetVelocityMaxPathVelocity xa xextras ex_setup s = Ok (XFin 1).
Proof.
  unfold GetVelocityMaxPathVelocity, ex_setup. cbn [su_path su_max_velocity]. rewrite ex_tangent. cbn [bind length seq mfold raw_get nth_error].
  unfold std_min. cbn [xa altb adiv aabs xabs xextras e_max]. rewrite Rabs_R1, xdiv_fin by lra. cbn [xltb]. xrs. f_equal. f_equal. field.
Qed.
Lemma ex_acceleration s v b : GetMinMaxPathAcceleration xa xextras ex_setup s (XFin v) b = Ok (XFin (if b then 1 else -1)).
Proof.
  unfold GetMinMaxPathAcceleration, ex_setup. cbn [su_path su_max_velocity su_max_acceleration]. rewrite ex_tangent, ex_curvature.
  cbn [bind length seq mfold raw_get nth_error]. cbn [xa aeqb a_of xeqb]. xrs. cbn [bind]. unfold std_min.
  assert (E : asub xa (adiv xa (XFin 1) (aabs xa (XFin 1))) (adiv xa (amul xa (amul xa (amul xa (if b then XFin 1 else aopp xa (XFin 1)) (XFin 0)) (XFin v)) (XFin v)) (XFin 1)) = XFin 1).
  { cbn [xa aabs xabs aopp xopp amul]. rewrite Rabs_R1. destruct b; cbn [xmul]; cbn [adiv]; rewrite !xdiv_fin by lra; cbn [xa asub xsub xadd xopp]; f_equal; field. }
  cbn [xa a_of] in E |- *. rewrite E. cbn [xa altb xltb xextras e_max]. xrs. destruct b; cbn; do 2 f_equal; lra.
Qed.
Lemma ex_curve s : GetAccelerationMaxPathVelocity xa xextras ex_setup s = Ok (XInf false).
Proof.
  unfold GetAccelerationMaxPathVelocity, ex_setup. cbn [su_path su_max_velocity su_max_acceleration]. rewrite ex_tangent, ex_curvature.
  cbn [bind length seq mfold raw_get nth_error]. cbn [xa aeqb a_of xeqb]. xrs. reflexivity.
Qed.
Lemma ex_make : MakePath xa xextras [fin [0]; fin [1]] (XFin 0) = Ok ex_path.
Proof.
  unfold MakePath. cbn [xextras e_finite path_loop]. unfold MakeLinear. rewrite fin_sub by reflexivity. cbn [bind].
  rewrite fin_norm. replace (norm (vsub [1] [0])) with 1.
  2: { unfold norm. replace (dot (vsub [1] [0]) (vsub [1] [0])) with 1 by (cbn; ring). now rewrite sqrt_1. }
  cbn [bind mfold place_step seg_switching_points seg_shape seg_length fold_left pop_reached]. cbn [xa aadd a_of xadd tl rev app bind].
  unfold ex_path. do 2 f_equal. f_equal. lra.
Qed.
Lemma ex_loop f0 f : IntegrateForward_loop xa xextras f0 (S (S f)) ex_setup [] [(XFin 0, XFin 0)] (XFin 0) (XFin 0) (XFin 1) =
  Ok (true, [(XFin 2, XFin 2); (XFin (/2), XFin 1); (XFin 0, XFin 0)]).
Proof.
  remember (S f) as f1 eqn:F1.
  cbn [IntegrateForward_loop ex_setup su_path skip_discontinuities su_time_step]. fold ex_setup.
  unfold lit_half. cbn [xa aadd amul adiv a_of]. rewrite xdiv_fin by lra. cbn [xa xadd xmul altb aleb xltb path_length ex_path]. xrs.
  unfold follow, over_limit. fold ex_path. fold ex_setup. rewrite !ex_velocity. cbn [bind altb xa xltb]. xrs. cbn [bind].
  rewrite ex_acceleration. cbn [bind]. rewrite ex_curve. cbn [bind altb xa xltb]. rewrite ?ex_velocity. cbn [bind altb xa xltb]. xrs.
  rewrite F1. clear F1.
  cbn [IntegrateForward_loop ex_setup su_path skip_discontinuities su_time_step]. fold ex_setup.
  unfold lit_half. cbn [xa aadd amul adiv a_of]. rewrite ?xdiv_fin by lra. cbn [xa xadd xmul altb aleb xltb path_length ex_path]. xrs.
  repeat (f_equal; try lra).
Qed.
Lemma ex_integrate f0 f : integrate xa xextras (S (S f0)) (S f) ex_setup [(XFin 0, XFin 0)] (XFin 1) = Ok [(XFin 2, XFin 2); (XFin (/2), XFin 1); (XFin 0, XFin 0)].
Proof.
  cbn [integrate]. unfold IntegrateForward. change (path_switching_points (su_path ex_setup)) with (@nil (xr * bool)). rewrite ex_loop. reflexivity.
Qed.
Lemma ex_forward : integrate xa xextras 10 10 ex_setup [(XFin 0, XFin 0)] (XFin 1) = Ok [(XFin 2, XFin 2); (XFin (/2), XFin 1); (XFin 0, XFin 0)].
Proof. apply ex_integrate. Qed.
Lemma ex_back_step f : IntegrateBackward_loop xa xextras (S f) ex_setup (XFin 2, XFin 2) (XFin (/2), XFin 1) [(XFin 0, XFin 0)] [] (XFin 1) (XFin 0) (XFin (-1)) (XFin 0) =
  Ok [(XFin 1, XFin 0); (XFin (/2), XFin 1); (XFin (/2), XFin 1); (XFin 0, XFin 0)].
Proof.
  cbn [IntegrateBackward_loop fst snd su_time_step ex_setup negb orb]. unfold lit_half. fold ex_setup.
  cbn [xa aadd amul adiv a_of asub aleb altb]. rewrite xdiv_fin by lra. rewrite (proj2 (xleb_le (/2) 1)) by lra. cbn [xsub xadd xmul xopp].
  rewrite ex_acceleration. cbn [bind xltb]. xrs. cbn [bind fst snd].
  rewrite !xdiv_fin by lra. cbn [xsub xadd xmul xopp]. rewrite !smax_fin, !smin_fin. unfold lit_eps. cbn [xa a_of adiv]. rewrite !xdiv_fin by lra. cbn [xsub xadd xmul xopp].
  replace ((0 + - (0 + - (1 * -1))) / (1 + - (1 + - (1 * (1 / 2) * (0 + - (1 * -1) + 0))))) with (-2) by field.
  replace ((2 + - (1)) / (2 + - / 2)) with (2 / 3) by field. rewrite xdiv_fin by lra. cbn [xsub xadd xmul xopp].
  match goal with |- context [xleb (XFin ?a) (XFin (?b / ?c))] => replace (b / c) with (/2) by field end.
  rewrite Rmax_left by lra. rewrite Rmin_right by lra.
  rewrite (proj2 (xleb_le _ _)) by lra. cbn [bind]. rewrite (proj2 (xleb_le _ _)) by lra. cbn [rev_append].
  repeat (f_equal; try field).
Qed.
Lemma ex_backward : IntegrateBackward xa xextras 10 ex_setup [(XFin 2, XFin 2); (XFin (/2), XFin 1); (XFin 0, XFin 0)] (XFin 1) (XFin 0) (XFin (-1)) =
  Ok [(XFin 1, XFin 0); (XFin (/2), XFin 1); (XFin (/2), XFin 1); (XFin 0, XFin 0)].
Proof. unfold IntegrateBackward. cbn [fst xa altb xltb]. xrs. apply ex_back_step. Qed.
Lemma ex_built : ParametrizePathTOTP xa xextras 10 [fin [0]; fin [1]] (fin [1]) (fin [1]) (XFin 0) (XFin 1) = Ok ex_trajectory.
Proof.
  unfold ParametrizePathTOTP. rewrite ex_make. cbn [bind fin map forallb xextras e_finite andb negb].
  fold ex_setup. cbn [xa a_of]. rewrite ex_acceleration. cbn [bind]. fold xa. change xarith with xa. rewrite ex_forward. cbn [bind path_length ex_path].
  rewrite ex_acceleration. cbn [bind]. rewrite ex_backward. cbn [bind rev app add_times timing t_time t_pos t_vel xa aadd asub adiv a_of xadd xsub xopp].
  rewrite !xdiv_fin by lra. cbn [xadd]. unfold ex_trajectory, ex_timed. fold ex_path. repeat (f_equal; try field).
Qed.
Lemma ex_in_order : in_order ex_trajectory.
Proof.
  intros i j x y H Ei Ej. cbn [ex_trajectory tr_steps] in *.
  assert (BI : (i < 4)%nat) by (apply (nth_error_Some [ex_timed 0 0 0; ex_timed (/2) 1 1; ex_timed (/2) 1 1; ex_timed 1 0 2]); congruence).
  assert (BJ : (j < 4)%nat) by (apply (nth_error_Some [ex_timed 0 0 0; ex_timed (/2) 1 1; ex_timed (/2) 1 1; ex_timed 1 0 2]); congruence).
  destruct i as [|[|[|[|i]]]]; try lia; destruct j as [|[|[|[|j]]]]; try lia; cbn in Ei, Ej; injection Ei as <-; injection Ej as <-; apply xleb_le; lra.
Qed.
