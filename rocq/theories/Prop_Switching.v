(** C187: the switching points of a path. *)
From Coq Require Import Reals List Bool Sorted Lra.
From Flocq Require Import Core.
From Verif Require Import Base MathModel MathVec TotpModel TotpScalar TotpRealSpec TotpPathSpec TotpSwitchSpec TotpSwitch TotpFinal.
Import ListNotations.
Local Open Scope R_scope.

(** The path has a configuration, tangent and curvature at every arc length ([describes]), and a
    list of switching points in order, all on the path and before its end.  Discontinuities are
    marked exactly where a segment of the path begins, and nothing is missed: anywhere else the
    tangent is the derivative of the configuration, the curvature that of the tangent, and the
    curvature is continuous.  At every other listed point some joint has velocity zero, and
    every point at which a joint turns is listed: where a component of the tangent is zero,
    that place is listed or the joint stands still around it. *)
Theorem C187_switching_points : forall n dev ws, well_posed n dev ws ->
  exists p len q q' q'' pts, MakePath xarith xextras (map fin ws) (XFin dev) = Ok p /\ describes p len q q' q'' /\ switches_at p pts /\
    StronglySorted (fun a b => fst a < fst b \/ fst a = fst b /\ snd b = false) pts /\
    (forall x f, In (x, f) pts -> 0 <= x < len) /\
    (forall x, In (x, true) pts <-> segment_begins p x) /\
    (forall s, 0 < s < len -> ~ In (s, true) pts -> forall i,
       derivable_pt_lim (fun s => nth i (q s) 0) s (nth i (q' s) 0) /\
       derivable_pt_lim (fun s => nth i (q' s) 0) s (nth i (q'' s) 0) /\
       continuity_pt (fun s => nth i (q'' s) 0) s) /\
    (forall x, In (x, false) pts -> exists i, (i < n)%nat /\ nth i (q' x) 0 = 0) /\
    (forall s i, 0 < s < len -> nth i (q' s) 0 = 0 -> (exists f, In (s, f) pts) \/ vanishes_near q' i s).
Proof. exact path_switches. Qed.

(** GetNextSwitchingPoint gives the first listed point beyond [s]: the discontinuity, if there is
    one at that place; and the end of the path, as a discontinuity, if no point is beyond [s]. *)
Theorem C187_next_switching_point : forall n dev ws p len pts, well_posed n dev ws ->
  MakePath xarith xextras (map fin ws) (XFin dev) = Ok p -> path_length p = XFin len -> switches_at p pts ->
  forall s, exists x f, PathNextSwitchingPoint xarith p (XFin s) = (XFin x, f) /\
  ((In (x, f) pts /\ s < x) \/ (x = len /\ f = true /\ forall y g, In (y, g) pts -> y <= s)) /\
  (forall y g, In (y, g) pts -> s < y -> x <= y /\ (y = x -> g = true -> f = true)).
Proof. exact path_next. Qed.
Print Assumptions C187_switching_points.
Print Assumptions C187_next_switching_point.

(** A corner, blended and not; and an arc of radius 2 from direction (1, 1) on which the second
    joint turns a quarter of half a turn along. *)
Example C187_nonvacuous : well_posed 2 (/ 10) [[0; 0]; [1; 0]; [1; 1]] /\ well_posed 2 0 [[0; 0]; [1; 0]; [1; 1]] /\
  forall p, seg_switching_points xarith xextras
    (mkSegment (XFin 3) (CircularShape (XFin 2) [XFin 0; XFin 0] [XFin (-1); XFin 1] [XFin 1; XFin 1]) p) = Ok [XFin (PI / 4 * 2)].
Proof.
  split; [apply corner_well_posed|]. split; [apply corner_well_posed|]. intros p.
  pose proof PI_RGT_0 as P. pose proof PI_4 as P4. pose proof PI2_1 as P2.
  assert (A0 : Ratan2 1 (-1) = 3 * PI / 4).
  { unfold Ratan2. rewrite Rlt_bool_false, Rlt_bool_true, Rle_bool_true by lra. replace (1 / -1) with (- (1)) by field. rewrite atan_opp, atan_1. lra. }
  assert (A1 : Ratan2 1 1 = PI / 4).
  { unfold Ratan2. rewrite Rlt_bool_true by lra. replace (1 / 1) with 1 by field. apply atan_1. }
  unfold seg_switching_points. cbn [seg_shape seg_length length seq mfold raw_get nth_error bind e_atan2 xextras]. rewrite A0, A1.
  change (altb xarith) with xltb. change (a_of xarith 0) with (XFin 0). cbn [xltb]. rewrite !(Rlt_bool_false _ 0) by lra.
  cbn [amul xarith xmul xltb]. rewrite (Rlt_bool_true (PI / 4 * 2) 3), (Rlt_bool_false (3 * PI / 4 * 2) 3) by lra. reflexivity.
Qed.
