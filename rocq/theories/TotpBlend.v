(** The circular blend that MakeCircular constructs. *)
From Coq Require Import Reals Lra Psatz List Bool Lia.
From Coquelicot Require Import Coquelicot.
From Flocq Require Import Core.
From Verif Require Import Base MathModel MathReal MathLinModel MathVec MathLinProof TotpModel TotpProof TotpScalar TotpRealSpec TotpReal TotpLimits TotpArc TotpPathSpec TotpPath.
Local Open Scope R_scope.

Lemma sin_le_abs x : Rabs (sin x) <= Rabs x.
Proof.
  assert (P : forall y, 0 <= y -> sin y <= y).
  { intros y [H| <-]; [left; now apply sin_lt_x|rewrite sin_0; lra]. }
  assert (M : forall y, 0 <= y -> - y <= sin y).
  { intros y Hy. destruct (Rle_or_lt y PI) as [L|L]; [pose proof (sin_ge_0 y Hy L); lra|]. pose proof (SIN_bound y). pose proof PI_RGT_0.
    assert (1 <= PI) by (pose proof PI2_1; lra). lra. }
  assert (N : forall y, 0 <= y -> Rabs (sin y) <= y) by (intros y Hy; apply Rabs_le; split; [now apply M|now apply P]).
  destruct (Rle_or_lt 0 x) as [H|H].
  - rewrite (Rabs_pos_eq x H). now apply N.
  - rewrite (Rabs_left x H), <- (Ropp_involutive x) at 1. rewrite sin_neg, Rabs_Ropp. apply N. lra.
Qed.
Lemma chord x : 2 - 2 * cos x <= x * x.
Proof.
  replace x with (2 * (x / 2)) at 1 by field. rewrite cos_2a_sin. pose proof (sin_le_abs (x / 2)) as H.
  assert (S : sin (x / 2) * sin (x / 2) <= x / 2 * (x / 2)).
  { apply Rsqr_le_abs_1 in H. exact H. }
  nra.
Qed.

Section Curve.
Variables (n : nat) (m u w : list R) (d : R).
Hypotheses (Lm : length m = n) (Lu : length u = n) (Lw : length w = n)
  (Uu : dot u u = 1) (Uw : dot w w = 1) (turn : 0 < norm (vsub u w)) (notback : -1 < dot u w) (Hd : 0 < d).
Notation r := (rad u w d). Notation x := (ax m u w d).
Definition arc_curve : curve :=
  mkCurve (acos (dot u w) * r) (fun s => arc m u w d (s / r)) (fun s => arc_tangent m u w d (s / r))
    (fun s => vscale (-1 / r) (vadd (vscale (cos (s / r)) x) (vscale (sin (s / r)) u))).
Lemma rp : 0 < r. Proof. eapply rad_pos; eauto. Qed.
Lemma xdim : length x = n. Proof. eapply ax_dim; eauto. Qed.
Hint Resolve xdim : vdim.
Lemma cdim : length (ctr m u w d) = n. Proof. eapply ctr_dim; eauto. Qed.
Hint Resolve cdim : vdim.
Lemma acos_half : acos (dot u w) = 2 * half u w. Proof. unfold half. field. Qed.
Lemma arc_len_pos : 0 < acos (dot u w) * r.
Proof. rewrite acos_half. pose proof (half_range n u w Lu Lw Uu Uw turn notback). pose proof rp. nra. Qed.
Lemma arc_dist a b : dist (arc m u w d a) (arc m u w d b) <= r * Rabs (a - b).
Proof.
  pose proof rp as R. unfold dist.
  replace (vsub (arc m u w d a) (arc m u w d b)) with
    (vscale r (vadd (vscale (cos a - cos b) x) (vscale (sin a - sin b) u))) by (unfold arc; veq n; ring).
  rewrite norm_scale, (Rabs_pos_eq r) by lra. apply Rmult_le_compat_l; [lra|].
  unfold norm. rewrite dot_vadd_sq by vlen n. rewrite !dot_scale, !dot_scale_r.
  rewrite (ax_unit n m u w d Lm Lu Lw Uu Uw turn notback Hd), (ax_u n m u w d Lm Lu Lw Uu Uw turn notback Hd), Uu.
  rewrite <- (sqrt_Rsqr_abs (a - b)). apply sqrt_le_1_alt.
  apply Rle_trans with (2 - 2 * cos (a - b)); [|apply chord]. rewrite cos_minus.
  pose proof (sin2_cos2 a) as E1. pose proof (sin2_cos2 b) as E2. unfold Rsqr in *.
  apply Req_le. nra.
Qed.
Lemma arc_good : good n arc_curve.
Proof.
  pose proof rp as R. unfold good, arc_curve. cbn [cu_len cu_q cu_t cu_k]. split; [exact arc_len_pos|]. split.
  { intros s. unfold arc, arc_tangent. repeat split; vdim. }
  split. { intros s s'. eapply Rle_trans; [apply arc_dist|]. apply Req_le. rewrite <- (Rabs_pos_eq r) at 1 by lra.
    rewrite <- Rabs_mult. f_equal. field. lra. }
  split. { intros s. unfold arc_tangent. unfold norm. rewrite dot_vadd_sq by vlen n. rewrite ?dot_scale, ?dot_scale_r, ?dot_scale, ?dot_scale_r.
    rewrite (ax_unit n m u w d Lm Lu Lw Uu Uw turn notback Hd), (ax_u n m u w d Lm Lu Lw Uu Uw turn notback Hd), Uu.
    transitivity (sqrt 1); [f_equal|apply sqrt_1]. pose proof (sin2_cos2 (s / r)) as E. unfold Rsqr in E. lra. }
  split; intros i s.
  - apply (lim_ext (fun s => nth i (ctr m u w d) 0 + r * (cos (s / r) * nth i x 0 + sin (s / r) * nth i u 0))).
    { intros y. unfold arc. nths n. reflexivity. }
    unfold arc_tangent. nths n. apply is_derive_Reals. auto_derive; [trivial|]. unfold Rdiv. field. lra.
  - apply (lim_ext (fun s => sin (s / r) * (-1 * nth i x 0) + cos (s / r) * nth i u 0)).
    { intros y. unfold arc_tangent. nths n. reflexivity. }
    nths n. apply is_derive_Reals. auto_derive; [trivial|]. unfold Rdiv. field. lra.
Qed.
Lemma arc_follows p : follows (mkSegment (XFin (acos (dot u w) * r)) (CircularShape (XFin r) (fin (ctr m u w d)) (fin x) (fin u)) p) arc_curve.
Proof.
  pose proof rp as R. split; [reflexivity|]. split; [exact arc_len_pos|]. intros s _.
  unfold seg_config, seg_tangent, seg_curvature. cbn [seg_shape arc_curve cu_q cu_t cu_k]. cbn [adiv xa aopp a_of xopp]. rewrite !xdiv_fin by lra.
  cbn [e_cos e_sin xextras on_fin]. rewrite !fin_opp, !fin_scale. rewrite !fin_add by vlen n. cbn [bind].
  rewrite !fin_scale_l. rewrite fin_add by vlen n. split; [reflexivity|]. split; [reflexivity|].
  reflexivity.
Qed.
End Curve.

(** A straight segment, or an arc of less than half a turn (a blend without length is an
    arc of angle 0 and radius 1 without axes). *)
Definition shaped (n : nat) (g : @segment xr) : Prop :=
  match seg_shape g with
  | LinearShape _ _ => True
  | CircularShape r _ x y => exists rd a fx fy, r = XFin rd /\ 0 < rd /\ x = fin fx /\ y = fin fy /\
      length fx = n /\ length fy = n /\ seg_length g = XFin (a * rd) /\ 0 <= a < PI
  end.
Definition degenerate (m : list R) (k : nat) : @segment xr :=
  mkSegment (XFin 0) (CircularShape (XFin 1) (fin m) (fin (repeat 0 k)) (fin (repeat 0 k))) (XFin 0).
Lemma tiny_lit : lit_eps xa = XFin tiny. Proof. unfold lit_eps. cbn [adiv xa a_of]. rewrite xdiv_fin by lra. reflexivity. Qed.
Lemma tiny_pos : 0 < tiny. Proof. unfold tiny. lra. Qed.
Lemma half_lit : lit_half xa = XFin (/ 2). Proof. unfold lit_half. cbn [adiv xa a_of]. rewrite xdiv_fin by lra. f_equal. lra. Qed.

Lemma degenerate_config m k s : length m = k -> seg_config xa xextras (degenerate m k) (XFin s) = Ok (fin m).
Proof.
  intros H. unfold seg_config, degenerate. cbn [seg_shape]. cbn [adiv xa]. rewrite xdiv_fin by lra. cbn [e_cos e_sin xextras on_fin].
  rewrite !fin_scale, fin_add by (unfold vscale; now rewrite !map_length). cbn [bind]. rewrite fin_scale_l, fin_add.
  - do 2 f_equal. apply (vext k); [|exact H|]; [apply add_dim; [exact H|]; apply scale_dim, add_dim; apply scale_dim, repeat_length|].
    intros i. rewrite (nth_add k); [|exact H|apply scale_dim, add_dim; apply scale_dim, repeat_length].
    rewrite nth_vscale, (nth_add k) by (apply scale_dim, repeat_length). rewrite !nth_vscale, nth_repeat. ring.
  - rewrite H. symmetry. apply scale_dim, add_dim; apply scale_dim, repeat_length.
Qed.

Lemma degenerate_shaped m n : shaped n (degenerate m n).
Proof.
  exists 1, 0, (repeat 0 n), (repeat 0 n). rewrite !repeat_length, Rmult_0_l. pose proof PI_RGT_0. repeat split; lra.
Qed.
Lemma linear_shaped n a b g : MakeLinear xa a b = Ok g -> shaped n g.
Proof. unfold MakeLinear. intros H. destruct (eig_sub xa b a); try discriminate. injection H as <-. exact I. Qed.
Section Blend.
Variables (n : nat) (st m en : list R) (dev : R).
Hypotheses (Ls : length st = n) (Lm : length m = n) (Le : length en = n) (Hdev : 0 < dev).
Notation u := (unit_of (vsub m st)). Notation w := (unit_of (vsub en m)).
Definition flat : Prop := norm (vsub m st) < tiny \/ norm (vsub en m) < tiny \/ norm (vsub u w) < tiny.
Lemma blend_cases :
  (flat /\ MakeCircular xa xextras (fin st) (fin m) (fin en) (XFin dev) = Ok (degenerate m n)) \/
  (~ flat /\ (-1 < dot u w -> exists d p g, MakeCircular xa xextras (fin st) (fin m) (fin en) (XFin dev) = Ok g /\
     g = mkSegment (XFin (acos (dot u w) * rad u w d)) (CircularShape (XFin (rad u w d)) (fin (ctr m u w d)) (fin (ax m u w d)) (fin u)) p /\
     0 < d /\ d <= norm (vsub m st) /\ d <= norm (vsub en m) /\ slack u w d <= dev)).
Proof.
  pose proof tiny_pos as TP. unfold flat, MakeCircular. rewrite !fin_sub by congruence. cbn [bind]. rewrite !fin_norm, tiny_lit.
  change (altb xa) with xltb. rewrite fin_length, !fin_zero, Ls. change (a_of xa 0) with (XFin 0). change (a_of xa 1) with (XFin 1).
  destruct (xltb (XFin (norm (vsub m st))) (XFin tiny)) eqn:E1.
  { apply xltb_lt in E1. left. split; [auto|reflexivity]. }
  destruct (xltb (XFin (norm (vsub en m))) (XFin tiny)) eqn:E2.
  { apply xltb_lt in E2. left. split; [auto|reflexivity]. }
  cbn [orb]. apply xltb_ge in E1, E2. rewrite !fin_normalized by lra.
  assert (Lu : length u = n) by (unfold unit_of; vdim). assert (Lw : length w = n) by (unfold unit_of; vdim).
  rewrite !fin_sub by congruence. cbn [bind]. rewrite !fin_norm.
  destruct (xltb (XFin (norm (vsub u w))) (XFin tiny)) eqn:E3.
  { apply xltb_lt in E3. left. split; [auto|reflexivity]. }
  apply xltb_ge in E3. right. split; [intros [H|[H|H]]; lra|]. intros NB.
  assert (Uu : dot u u = 1) by (apply unit_dot; lra). assert (Uw : dot w w = 1) by (apply unit_dot; lra).
  assert (T : 0 < norm (vsub u w)) by lra.
  pose proof (dot_lt_1 n u w Lu Lw Uu Uw T) as D1.
  rewrite fin_dot, half_lit. cbn [e_acos xextras]. rewrite Rle_bool_true by (apply Rabs_le; lra).
  cbn [amul xa xmul e_sin e_cos e_tan xextras on_fin asub]. rewrite !xsub_fin.
  fold (half u w). pose proof (sin_half_pos n u w Lu Lw Uu Uw T NB) as SP. pose proof (cos_half_pos n u w Lu Lw Uu Uw T NB) as CP.
  pose proof (cos_half_lt1 n u w Lu Lw Uu Uw T NB) as C1.
  cbn [adiv xa]. rewrite !xdiv_fin by lra. rewrite !smin_fin.
  assert (NS : norm (vsub st m) = norm (vsub m st)) by (apply (dist_sym n); assumption).
  set (d := Rmin (Rmin (norm (vsub st m)) (norm (vsub en m))) (dev * sin (half u w) / (1 - cos (half u w)))).
  assert (DB : 0 < dev * sin (half u w) / (1 - cos (half u w))).
  { apply Rdiv_lt_0_compat; [apply Rmult_lt_0_compat; assumption|lra]. }
  assert (DP : 0 < d).
  { unfold d. repeat apply Rmin_glb_lt; lra. }
  assert (TN : sin (half u w) / cos (half u w) <> 0).
  { apply Rgt_not_eq. apply Rdiv_lt_0_compat; assumption. }
  rewrite xdiv_fin by exact TN. fold (rad u w d).
  assert (NT : 0 < norm (vsub w u)) by (change (0 < dist w u); rewrite (dist_sym n) by assumption; exact T).
  rewrite fin_normalized by exact NT. rewrite fin_scale, fin_over by lra.
  assert (LWU : length (unit_of (vsub w u)) = n) by (unfold unit_of; vdim).
  rewrite fin_add by vlen n. cbn [bind]. fold (ctr m u w d).
  rewrite fin_scale_l, fin_sub by vlen n. cbn [bind]. fold (foot m u d).
  assert (LC : length (ctr m u w d) = n) by (eapply ctr_dim; eauto).
  assert (LF : length (foot m u d) = n) by (eapply foot_dim; eauto).
  rewrite fin_sub by vlen n. cbn [bind].
  assert (AN : norm (vsub (foot m u d) (ctr m u w d)) = rad u w d) by (apply (arm_norm n); assumption).
  assert (RP : 0 < rad u w d) by (eapply rad_pos; eauto).
  rewrite fin_normalized by lra. fold (ax m u w d).
  exists d. do 2 eexists. split; [reflexivity|]. split; [reflexivity|]. split; [exact DP|].
  assert (B1 : d <= norm (vsub st m)) by (unfold d; eapply Rle_trans; [apply Rmin_l|apply Rmin_l]).
  assert (B2 : d <= norm (vsub en m)) by (unfold d; eapply Rle_trans; [apply Rmin_l|apply Rmin_r]).
  assert (B3 : d <= dev * sin (half u w) / (1 - cos (half u w))) by (unfold d; apply Rmin_r).
  split; [lra|]. split; [exact B2|]. unfold slack.
  apply (Rmult_le_compat_r (1 - cos (half u w))) in B3; [|lra].
  replace (dev * sin (half u w) / (1 - cos (half u w)) * (1 - cos (half u w))) with (dev * sin (half u w)) in B3 by (field; lra).
  apply (Rmult_le_reg_r (sin (half u w))); [exact SP|].
  replace (d * (1 - cos (half u w)) / sin (half u w) * sin (half u w)) with (d * (1 - cos (half u w))) by (field; lra). exact B3.
Qed.
End Blend.
