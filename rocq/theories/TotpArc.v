(** Plane geometry of a circular blend, over the reals. *)
From Coq Require Import Reals Lra Psatz List Bool Lia.
From Verif Require Import Base MathVec MathLinProof TotpRealSpec TotpReal TotpLimits.
Local Open Scope R_scope.

Section Dim.
Variable n : nat.
Lemma add_dim u v : length u = n -> length v = n -> length (vadd u v) = n.
Proof. intros H K. rewrite vadd_length; congruence. Qed.
Lemma sub_dim u v : length u = n -> length v = n -> length (vsub u v) = n.
Proof. intros H K. rewrite vsub_length; congruence. Qed.
Lemma scale_dim c u : length u = n -> length (vscale c u) = n.
Proof. intros H. unfold vscale. now rewrite map_length. Qed.
Lemma nth_add u v i : length u = n -> length v = n -> nth i (vadd u v) 0 = nth i u 0 + nth i v 0.
Proof. intros. apply nth_vadd. congruence. Qed.
Lemma nth_sub u v i : length u = n -> length v = n -> nth i (vsub u v) 0 = nth i u 0 - nth i v 0.
Proof.
  intros H K. assert (L : length u = length v) by congruence. clear H K. unfold vsub. revert v i L.
  induction u as [|x u IH]; intros [|y v] [|i] L; cbn in *; try discriminate; try lra. apply IH. lia.
Qed.
Lemma dot_add_r u v w : length v = n -> length w = n -> dot u (vadd v w) = dot u v + dot u w.
Proof. intros. rewrite dot_comm, dot_add by congruence. now rewrite (dot_comm v), (dot_comm w). Qed.
Lemma dot_sub_r u v w : length v = n -> length w = n -> dot u (vsub v w) = dot u v - dot u w.
Proof. intros. rewrite dot_comm, dot_sub by congruence. now rewrite (dot_comm v), (dot_comm w). Qed.
Lemma dot_scale_r c u v : dot u (vscale c v) = c * dot u v.
Proof. rewrite dot_comm, dot_scale. now rewrite dot_comm. Qed.
Lemma vext u v : length u = n -> length v = n -> (forall i, nth i u 0 = nth i v 0) -> u = v.
Proof. intros L K H. apply (nth_ext _ _ 0 0); [congruence|auto]. Qed.
End Dim.
#[export] Hint Resolve add_dim sub_dim scale_dim : vdim.
Ltac vdim := auto 20 with vdim.
Ltac vlen n := transitivity n; [|symmetry]; vdim.
Ltac nths n := repeat first [rewrite nth_vscale | rewrite (nth_add n) by vdim | rewrite (nth_sub n) by vdim].
Ltac veq n := apply (vext n); [vdim..|]; intros ?i; nths n.

Lemma norm_1 u : dot u u = 1 -> norm u = 1. Proof. unfold norm. intros ->. apply sqrt_1. Qed.
Lemma unit_dot u : 0 < norm u -> dot (unit_of u) (unit_of u) = 1.
Proof.
  intros H. unfold unit_of. rewrite dot_scale, dot_scale_r, <- norm_sq. field. lra.
Qed.

Section Arc.
Variables (n : nat) (m u w : list R) (d : R).
Hypotheses (Lm : length m = n) (Lu : length u = n) (Lw : length w = n)
  (Uu : dot u u = 1) (Uw : dot w w = 1) (turn : 0 < norm (vsub u w)) (notback : -1 < dot u w) (Hd : 0 < d).

Definition half : R := / 2 * acos (dot u w).
Definition rad : R := d / (sin half / cos half).
Definition ctr : list R := vadd m (vscale (/ cos half) (vscale rad (unit_of (vsub w u)))).
Definition foot : list R := vsub m (vscale d u).
Definition ax : list R := unit_of (vsub foot ctr).
Definition arc (a : R) : list R := vadd ctr (vscale rad (vadd (vscale (cos a) ax) (vscale (sin a) u))).
Definition arc_tangent (a : R) : list R := vadd (vscale (sin a) (vscale (-1) ax)) (vscale (cos a) u).

Lemma dot_lt_1 : dot u w < 1.
Proof.
  apply norm_pos_dot in turn. rewrite dot_sub_sq in turn by congruence. lra.
Qed.
Lemma cos_twice : cos (2 * half) = dot u w.
Proof. unfold half. replace (2 * (/ 2 * acos (dot u w))) with (acos (dot u w)) by field. apply cos_acos. pose proof dot_lt_1. lra. Qed.
Lemma half_range : 0 < half < PI / 2.
Proof.
  pose proof dot_lt_1. pose proof PI_RGT_0. unfold half. pose proof (acos_bound (dot u w)).
  assert (acos (dot u w) <> 0). { intros e. apply (f_equal cos) in e. rewrite cos_acos, cos_0 in e; lra. }
  assert (acos (dot u w) <> PI). { intros e. apply (f_equal cos) in e. rewrite cos_acos, cos_PI in e; lra. }
  lra.
Qed.
Lemma sin_half_pos : 0 < sin half. Proof. pose proof half_range. apply sin_gt_0; lra. Qed.
Lemma cos_half_pos : 0 < cos half. Proof. pose proof half_range. apply cos_gt_0; lra. Qed.
Lemma cos_half_lt1 : cos half < 1.
Proof. rewrite <- cos_0. pose proof half_range. apply cos_decreasing_1; lra. Qed.
Lemma sc1 : sin half * sin half + cos half * cos half = 1.
Proof. exact (sin2_cos2 half). Qed.
Lemma dot_half : dot u w = 1 - 2 * sin half * sin half.
Proof. rewrite <- cos_twice. rewrite cos_2a. pose proof sc1. nra. Qed.
Lemma norm_turn : norm (vsub w u) = 2 * sin half.
Proof.
  unfold norm. rewrite dot_sub_sq by congruence. rewrite Uu, Uw, dot_comm, dot_half.
  replace (1 - 2 * (1 - 2 * sin half * sin half) + 1) with ((2 * sin half) * (2 * sin half)) by ring.
  apply sqrt_square. pose proof sin_half_pos. lra.
Qed.
Lemma rad_pos : 0 < rad.
Proof. unfold rad. pose proof sin_half_pos. pose proof cos_half_pos. apply Rdiv_lt_0_compat; [exact Hd|]. apply Rdiv_lt_0_compat; assumption. Qed.
Lemma d_rad : d = rad * sin half / cos half.
Proof. unfold rad. pose proof sin_half_pos. pose proof cos_half_pos. field. lra. Qed.
Notation s := (sin half). Notation c := (cos half).
Lemma foot_dim : length foot = n. Proof. unfold foot. vdim. Qed.
Lemma ctr_dim : length ctr = n. Proof. unfold ctr, unit_of. vdim. Qed.
Hint Resolve foot_dim ctr_dim : vdim.
Lemma ctr_eq : ctr = vadd m (vscale (rad / (2 * s * c)) (vsub w u)).
Proof.
  pose proof sin_half_pos. pose proof cos_half_pos. unfold ctr, unit_of. rewrite norm_turn. veq n. field. lra.
Qed.
Lemma arm_eq : vsub foot ctr = vscale (rad / (2 * s * c)) (vsub (vscale (dot u w) u) w).
Proof.
  pose proof sin_half_pos. pose proof cos_half_pos. rewrite ctr_eq. unfold foot. rewrite dot_half. veq n.
  rewrite d_rad. field. lra.
Qed.
Lemma dir_norm : norm (vsub (vscale (dot u w) u) w) = 2 * s * c.
Proof.
  unfold norm. rewrite dot_sub_sq by vlen n. rewrite !dot_scale, dot_scale_r, Uu, Uw. rewrite dot_half.
  pose proof sc1. pose proof sin_half_pos. pose proof cos_half_pos.
  match goal with |- sqrt ?e = _ => replace e with ((2 * s * c) * (2 * s * c)) end.
  - apply sqrt_square. nra.
  - replace (c) with (cos half) by reflexivity. assert (E : c * c = 1 - s * s) by lra.
    replace (2 * s * c * (2 * s * c)) with (4 * s * s * (c * c)) by ring. rewrite E. ring.
Qed.
Lemma arm_norm : norm (vsub foot ctr) = rad.
Proof.
  pose proof sin_half_pos. pose proof cos_half_pos. pose proof rad_pos. rewrite arm_eq, norm_scale, dir_norm, Rabs_pos_eq.
  - field. lra.
  - apply Rlt_le, Rdiv_lt_0_compat; nra.
Qed.
Lemma ax_eq : ax = vscale (/ (2 * s * c)) (vsub (vscale (dot u w) u) w).
Proof.
  pose proof sin_half_pos. pose proof cos_half_pos. pose proof rad_pos. unfold ax, unit_of. rewrite arm_norm, arm_eq.
  veq n. field. lra.
Qed.
Lemma ax_dim : length ax = n. Proof. rewrite ax_eq. vdim. Qed.
Hint Resolve ax_dim : vdim.
Lemma ax_unit : dot ax ax = 1.
Proof. unfold ax. apply unit_dot. rewrite arm_norm. apply rad_pos. Qed.
Lemma ax_u : dot ax u = 0.
Proof. rewrite ax_eq, dot_scale, dot_sub, dot_scale, Uu, (dot_comm w) by vlen n. ring. Qed.
Lemma foot_arc : foot = vadd ctr (vscale rad ax).
Proof.
  pose proof rad_pos. unfold ax, unit_of. rewrite arm_norm. veq n. field. lra.
Qed.
(** The arc begins on the first leg and ends on the second, and its tangent turns from
    one direction to the other. *)
Lemma arc_0 : arc 0 = vsub m (vscale d u).
Proof. change (vsub m (vscale d u)) with foot. rewrite foot_arc. unfold arc. rewrite cos_0, sin_0. veq n. ring. Qed.
Lemma tangent_0 : arc_tangent 0 = u.
Proof. unfold arc_tangent. rewrite cos_0, sin_0. veq n. ring. Qed.
Lemma cos2h : cos (2 * half) = 1 - 2 * s * s. Proof. rewrite cos_twice. apply dot_half. Qed.
Lemma sin2h : sin (2 * half) = 2 * s * c. Proof. apply sin_2a. Qed.
(** The other end. *)
Definition ax2 : list R := vscale (/ (2 * s * c)) (vsub u (vscale (dot u w) w)).
Lemma ax2_dim : length ax2 = n. Proof. unfold ax2. vdim. Qed.
Hint Resolve ax2_dim : vdim.
Lemma frame_x : vadd (vscale (cos (2 * half)) ax) (vscale (sin (2 * half)) u) = ax2.
Proof.
  pose proof sin_half_pos. pose proof cos_half_pos. pose proof sc1. rewrite cos2h, sin2h, ax_eq. unfold ax2. rewrite dot_half. veq n.
  assert (E : c * c = 1 - s * s) by lra.
  match goal with |- ?l = ?r => replace l with ((((1 - 2 * s * s) * (1 - 2 * s * s) + 4 * s * s * (c * c)) * nth i u 0 - (1 - 2 * s * s) * nth i w 0) / (2 * s * c)) by (field; lra) end.
  rewrite E. field. lra.
Qed.
Lemma frame_y : vadd (vscale (sin (2 * half)) (vscale (-1) ax)) (vscale (cos (2 * half)) u) = w.
Proof.
  pose proof sin_half_pos. pose proof cos_half_pos. rewrite cos2h, sin2h, ax_eq, dot_half. veq n. field. lra.
Qed.
Ltac frames :=
  let FX := fresh in let FY := fresh in pose proof frame_x as FX; pose proof frame_y as FY;
  match goal with i : nat |- _ => apply (f_equal (fun v => nth i v 0)) in FX, FY end;
  revert FX FY; nths n; intros FX FY; rewrite <- FX, <- FY.
Lemma arc_back a : arc (2 * half - a) = vadd ctr (vscale rad (vsub (vscale (cos a) ax2) (vscale (sin a) w))).
Proof.
  unfold arc. rewrite cos_minus, sin_minus. veq n. frames. ring.
Qed.
Lemma tangent_back a : arc_tangent (2 * half - a) = vadd (vscale (sin a) ax2) (vscale (cos a) w).
Proof.
  unfold arc_tangent. rewrite cos_minus, sin_minus. veq n. frames. ring.
Qed.
Lemma foot2_arc : vadd m (vscale d w) = vadd ctr (vscale rad ax2).
Proof.
  pose proof sin_half_pos. pose proof cos_half_pos. rewrite ctr_eq. unfold ax2. rewrite dot_half. veq n. rewrite d_rad. field. lra.
Qed.
Lemma ax2_unit : dot ax2 ax2 = 1.
Proof.
  rewrite <- frame_x. rewrite dot_vadd_sq by vlen n. rewrite !dot_scale, !dot_scale_r, ax_unit, ax_u, Uu.
  pose proof (sin2_cos2 (2 * half)) as E. unfold Rsqr in E. lra.
Qed.
Lemma arc_end : arc (2 * half) = vadd m (vscale d w).
Proof.
  rewrite foot2_arc. replace (2 * half) with (2 * half - 0) by ring. rewrite arc_back, cos_0, sin_0. veq n. ring.
Qed.
Lemma tangent_end : arc_tangent (2 * half) = w.
Proof. exact frame_y. Qed.
Lemma arc_dim a : length (arc a) = n. Proof. unfold arc. vdim. Qed.
Hint Resolve arc_dim : vdim.

(** Distances to the legs and to the corner. *)
Definition slack : R := d * (1 - c) / s.
Lemma slack_rad : rad * (1 - c) / c = slack.
Proof. unfold slack. rewrite d_rad. pose proof sin_half_pos. pose proof cos_half_pos. field. lra. Qed.
Lemma leg_bound a : 0 <= a <= half -> 0 <= rad * sin a <= d /\ 0 <= rad * (1 - cos a) <= slack.
Proof.
  intros Ha. pose proof half_range as HR. pose proof sin_half_pos. pose proof cos_half_pos. pose proof cos_half_lt1. pose proof rad_pos as RP.
  assert (S1 : 0 <= sin a <= s).
  { split; [apply sin_ge_0; pose proof PI_RGT_0; lra|]. destruct (Req_dec a half) as [->|]; [lra|]. left. apply sin_increasing_1; lra. }
  assert (C1 : c <= cos a <= 1).
  { split; [|apply COS_bound]. destruct (Req_dec a half) as [->|]; [lra|]. left. apply cos_decreasing_1; lra. }
  split.
  - split; [nra|]. rewrite d_rad. apply Rle_trans with (rad * s); [nra|]. unfold Rdiv. rewrite Rmult_assoc.
    apply Rmult_le_compat_l; [lra|]. rewrite <- (Rmult_1_r s) at 1. apply Rmult_le_compat_l; [lra|].
    apply (Rmult_le_reg_r c); [lra|]. rewrite Rinv_l; lra.
  - split; [nra|]. rewrite <- slack_rad. apply Rle_trans with (rad * (1 - c)); [nra|].
    apply (Rmult_le_reg_r c); [lra|]. replace (rad * (1 - c) / c * c) with (rad * (1 - c)) by (field; lra).
    assert (0 <= rad * (1 - c)) by nra. nra.
Qed.
Lemma first_half a : 0 <= a <= half -> exists t, 0 <= t <= d /\ norm (vsub (arc a) (vsub m (vscale t u))) <= slack.
Proof.
  intros Ha. destruct (leg_bound a Ha) as (B1 & B2). exists (d - rad * sin a). split; [lra|].
  replace (vsub (arc a) (vsub m (vscale (d - rad * sin a) u))) with (vscale (- (rad * (1 - cos a))) ax).
  - rewrite norm_scale, (norm_1 ax ax_unit), Rabs_Ropp, Rabs_pos_eq; lra.
  - assert (F : vsub m (vscale d u) = vadd ctr (vscale rad ax)) by exact foot_arc.
    veq n. apply (f_equal (fun v => nth i v 0)) in F. revert F. unfold arc. nths n. intros F.
    replace (nth i m 0) with (nth i ctr 0 + rad * nth i ax 0 + d * nth i u 0) by lra. ring.
Qed.
Lemma second_half a : 0 <= a <= half -> exists t, 0 <= t <= d /\ norm (vsub (arc (2 * half - a)) (vadd m (vscale t w))) <= slack.
Proof.
  intros Ha. destruct (leg_bound a Ha) as (B1 & B2). exists (d - rad * sin a). split; [lra|].
  replace (vsub (arc (2 * half - a)) (vadd m (vscale (d - rad * sin a) w))) with (vscale (- (rad * (1 - cos a))) ax2).
  - rewrite norm_scale, (norm_1 ax2 ax2_unit), Rabs_Ropp, Rabs_pos_eq; lra.
  - rewrite arc_back. pose proof foot2_arc as F.
    veq n. apply (f_equal (fun v => nth i v 0)) in F. revert F. nths n. intros F.
    replace (nth i m 0) with (nth i ctr 0 + rad * nth i ax2 0 - d * nth i w 0) by lra. ring.
Qed.
Lemma corner_mid : norm (vsub m (arc half)) = slack.
Proof.
  pose proof sin_half_pos. pose proof cos_half_pos. pose proof cos_half_lt1. pose proof rad_pos. pose proof sc1.
  replace (vsub m (arc half)) with (vscale (- (rad * (1 - c) / (2 * s * c))) (vsub w u)).
  - rewrite norm_scale, norm_turn, Rabs_Ropp, Rabs_pos_eq.
    + rewrite <- slack_rad. field. lra.
    + apply Rlt_le, Rdiv_lt_0_compat; nra.
  - unfold arc. rewrite ctr_eq, ax_eq, dot_half. veq n.
    assert (E : s * s = 1 - c * c) by lra.
    match goal with |- ?l = ?r => replace r with (- (rad / (2 * s * c)) * ((nth i w 0 - nth i u 0) + ((c * (1 - 2 * (s * s)) + 2 * (s * s) * c) * nth i u 0 - c * nth i w 0))) by (field; lra) end.
    rewrite E. field. lra.
Qed.
End Arc.
