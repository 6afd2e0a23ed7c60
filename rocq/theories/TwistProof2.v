(** Every rigid motion is the end of a flow, and of one only below half a turn. *)
From Coq Require Import Reals Lra Psatz.
From Flocq Require Import Core.
From Verif Require Import Base UtilityModel MathModel MathReal MathVec RotationModel RotationSpec RotationProof.
From Verif Require Import MathLinModel MathLinSpec MathLinProof MathLinProof2 MathLinProof3 MathLinProof4.
From Verif Require Import TwistModel TwistSpec TwistProof.
Local Open Scope R_scope.

Lemma quat_opp q : toRotationMatrix ra (mkQuat (- qw q) (- qx q) (- qy q) (- qz q)) = toRotationMatrix ra q.
Proof. destruct q as [w x y z]. unfold toRotationMatrix. ra_simpl. repeat apply pair3_eq; ring. Qed.
(** Euler: a rotation is the identity or turns about an axis by an angle up to half a turn. *)
Lemma rotation_axis m : is_rotation m -> m = id3 \/ exists u s, dot3 u u = 1 /\ 0 < s <= PI /\ m = rod u s.
Proof.
  intros H.
  assert (Q : exists w x y z, 0 <= w /\ w * w + x * x + y * y + z * z = 1 /\ m = toRotationMatrix ra (mkQuat w x y z)).
  { pose proof (q_of_matrix_unit _ H) as U. pose proof (q_of_matrix_matrix _ H) as M. destruct (q_of_matrix ra m) as [w x y z]. unfold unit, dotq in U. cbn [qw qx qy qz] in U.
    destruct (Rle_lt_dec 0 w) as [L|L].
    - exists w, x, y, z. auto.
    - exists (- w), (- x), (- y), (- z). split; [lra|]. split; [lra|]. rewrite <- M, <- quat_opp. reflexivity. }
  destruct Q as (w & x & y & z & W & U & ->). set (n := sqrt (x * x + y * y + z * z)).
  assert (NN : n * n = x * x + y * y + z * z) by (apply sqrt_sqrt; nra). assert (N0 : 0 <= n) by apply sqrt_pos.
  destruct (Req_dec n 0) as [Z|Z].
  - left. rewrite Z in NN. assert (x = 0 /\ y = 0 /\ z = 0) as (-> & -> & ->) by (repeat split; nra). unfold toRotationMatrix. ra_simpl. unfold id3. repeat apply pair3_eq; ring.
  - right. set (h := acos w). assert (W1 : w <= 1) by nra. assert (C : cos h = w) by (apply cos_acos; lra). assert (Sn : sin h = n).
    { unfold h. rewrite sin_acos by lra. unfold n, Rsqr. f_equal. lra. }
    exists (x / n, y / n, z / n), (2 * h).
    assert (H1 : 0 <= h <= PI / 2).
    { split; [apply acos_bound|]. destruct (Rle_lt_dec h (PI / 2)); [assumption|]. pose proof (acos_bound w). fold h in H0. assert (cos h < 0) by (apply cos_lt_0; lra). lra. }
    split; [unfold dot3; transitivity ((x * x + y * y + z * z) / (n * n)); [field; exact Z|rewrite NN; field; rewrite <- NN; nra]|].
    split.
    + split; [|lra]. destruct (Req_dec h 0) as [E|E]; [rewrite E, sin_0 in Sn; lra|lra].
    + unfold rod. cbv zeta. rewrite sin_2a, cos_2a_sin, C, Sn. unfold toRotationMatrix. ra_simpl. repeat apply pair3_eq; field; exact Z.
Qed.

Lemma rod_apply u s a : dot3 u u = 1 -> apply3 (rod u s) a = add3 (add3 (scale3 (cos s) a) (scale3 (sin s) (cross3 u a))) (scale3 ((1 - cos s) * dot3 u a) u).
Proof.
  destruct u as [[p q] r], a as [[x y] z]. intros U. assert (Ua : p * p = 1 - q * q - r * r) by (unfold dot3 in U; lra). unfold rod. cbv zeta.
  generalize (sin s) (cos s). intros S C. unfold add3, scale3. open. tuples; ring [Ua].
Qed.
Lemma cross_self_dot u v : dot3 u (cross3 u v) = 0. Proof. destruct u as [[a b] c], v as [[x y] z]. open. ring. Qed.
Lemma cross_twice u v : dot3 u u = 1 -> cross3 u (cross3 u v) = add3 (scale3 (dot3 u v) u) (scale3 (-1) v).
Proof. destruct u as [[a b] c], v as [[x y] z]. intros U. assert (Ua : a * a = 1 - b * b - c * c) by (unfold dot3 in U; lra). unfold add3, scale3. open. tuples; ring [Ua]. Qed.
Lemma translation_at u v s : dot3 u u = 1 -> screw_translation u v s =
  add3 (add3 (scale3 (1 - cos s) (cross3 u v)) (scale3 (- sin s) (add3 (scale3 (dot3 u v) u) (scale3 (-1) v)))) (scale3 (s * dot3 u v) u).
Proof.
  intros U. unfold screw_translation. rewrite rod_apply, cross_self_dot, cross_twice by exact U. generalize (cross3 u v) (dot3 u v) (sin s) (cos s).
  intros [[a b] c] k S C. destruct u as [[x y] z], v as [[p q] r]. unfold add3, scale3. tuples; ring.
Qed.
(** Every translation is that of a screw with a given axis and angle. *)
Lemma screw_solved (u p : r3) s : dot3 u u = 1 -> 0 < s <= PI -> exists v, screw_translation u v s = p.
Proof.
  intros U S. assert (D : 1 - cos s <> 0).
  { assert (cos s < 1); [|lra]. rewrite <- cos_0. apply cos_decreasing_1; lra. }
  set (g := sin s / (2 * (1 - cos s))). set (d := dot3 u p).
  set (v := add3 (scale3 (d / s) u) (add3 (scale3 (- / 2) (cross3 u p)) (scale3 g (add3 p (scale3 (- d) u))))).
  exists v. rewrite translation_at by exact U.
  pose proof (sin2_cos2 s) as T. unfold Rsqr in T.
  assert (GG : g * (1 - cos s) = sin s / 2) by (unfold g; field; exact D).
  assert (GS : g * sin s = (1 + cos s) / 2).
  { unfold g. apply (Rmult_eq_reg_r (2 * (1 - cos s))); [|lra]. transitivity (sin s * sin s); [field; exact D|]. transitivity (1 - cos s * cos s); [lra|field]. }
  assert (Dv : dot3 u v = d / s).
  { transitivity (d / s * dot3 u u + - / 2 * dot3 u (cross3 u p) + g * (dot3 u p - d * dot3 u u)); [|rewrite U, cross_self_dot; unfold d; ring].
    unfold v. generalize (d / s) d. intros e f. destruct u as [[a b] c], p as [[x y] z]. unfold add3, scale3. open. ring. }
  assert (Cv : cross3 u v = add3 (scale3 (- / 2) (add3 (scale3 d u) (scale3 (-1) p))) (scale3 g (cross3 u p))).
  { unfold d at 1. rewrite <- (cross_twice u p U). unfold v. generalize (d / s) d. intros e f. destruct u as [[a b] c], p as [[x y] z]. unfold add3, scale3. open. tuples; ring. }
  rewrite Dv, Cv. unfold v. replace (s * (d / s)) with d by (field; lra). clearbody g. clear Dv Cv v. clearbody d. generalize (d / s). intros e.
  generalize (cross3 u p). intros [[qx qy] qz]. destruct u as [[a b] c], p as [[x y] z]. clear U. generalize dependent (sin s). generalize dependent (cos s). intros C D S' T GG GS.
  assert (K : forall A B L X, L - X = A * (g * (1 - C) - S' / 2) + B * (g * S' - (1 + C) / 2) -> L = X) by (intros A B L X K; rewrite GG, GS in K; lra).
  unfold add3, scale3. tuples; [apply (K qx (x - d * a))|apply (K qy (y - d * b))|apply (K qz (z - d * c))]; field.
Qed.
Lemma len_scale s u : dot3 u u = 1 -> 0 < s -> len3 (scale3 s u) = s.
Proof.
  intros U S. unfold len3. replace (dot3 (scale3 s u) (scale3 s u)) with (s * s * dot3 u u) by (destruct u as [[a b] c]; unfold scale3; open; ring).
  rewrite U, Rmult_1_r. apply sqrt_square. lra.
Qed.
Lemma scale_inv s u : s <> 0 -> scale3 (/ s) (scale3 s u) = u.
Proof. intros S. destruct u as [[a b] c]. unfold scale3. tuples; field; exact S. Qed.
Lemma scale_inv_r s u : s <> 0 -> scale3 s (scale3 (/ s) u) = u.
Proof. intros S. destruct u as [[a b] c]. unfold scale3. tuples; field; exact S. Qed.
(** Chasles: every rigid motion is a screw. *)
Lemma rigid_flow m : is_rigid m -> exists v w, path v w 1 = m /\ len3 w <= PI.
Proof.
  intros (r & p & R & ->). destruct (rotation_axis r R) as [->|(u & s & U & S & ->)].
  - exists p, (0, 0, 0). assert (Z : len3 (0, 0, 0) = 0) by (unfold len3, dot3; replace (0 * 0 + 0 * 0 + 0 * 0) with 0 by ring; apply sqrt_0).
    rewrite Z. split; [|pose proof PI_RGT_0; lra]. unfold path. destruct (Req_EM_T _ 0); [|contradiction]. unfold slide. destruct p as [[a b] c]. unfold scale3. f_equal. tuples; ring.
  - destruct (screw_solved u p s U S) as (v & V). exists (scale3 s v), (scale3 s u). rewrite len_scale by (auto; lra). split; [|lra].
    unfold path. rewrite len_scale by (auto; lra). destruct (Req_EM_T s 0); [lra|]. rewrite !scale_inv, Rmult_1_l by lra. unfold screw. rewrite V. reflexivity.
Qed.
Definition lin (m : r44) : r33 := m4_linear m.
Lemma lin_motion r p : m4_linear (motion r p) = r /\ m4_translation (motion r p) = p.
Proof. destruct r as [[[[a b] c] [[d e] f]] [[g h] i]], p as [[x y] z]. split; reflexivity. Qed.
Definition trace3 (m : r33) : R := let '((a, _, _), (_, e, _), (_, _, i)) := m in a + e + i.
Lemma rod_trace u s : dot3 u u = 1 -> trace3 (rod u s) = 1 + 2 * cos s.
Proof. destruct u as [[a b] c]. intros U. assert (Ua : a * a = 1 - b * b - c * c) by (unfold dot3 in U; lra). unfold rod, trace3. cbv zeta. generalize (sin s) (cos s). intros S C. ring [Ua]. Qed.
Lemma rod_skew u s : Unskew ra (rod u s) = scale3 (sin s) u.
Proof. destruct u as [[a b] c]. unfold rod, scale3. cbv zeta. generalize (sin s) (cos s). intros S C. open. tuples; field. Qed.
Lemma path_trace v w : trace3 (m4_linear (path v w 1)) = 1 + 2 * cos (len3 w).
Proof.
  unfold path. destruct (Req_EM_T (len3 w) 0) as [Z|Z].
  - unfold slide. destruct (lin_motion id3 (scale3 1 v)) as [-> _]. rewrite Z, cos_0. unfold id3, trace3. ring.
  - unfold screw. destruct (lin_motion (rod (scale3 (/ len3 w) w) (1 * len3 w)) (screw_translation (scale3 (/ len3 w) w) (scale3 (/ len3 w) v) (1 * len3 w))) as [-> _].
    rewrite Rmult_1_l. apply rod_trace, unit_of. pose proof (len3_nonneg w). lra.
Qed.
Lemma path_skew v w : scale3 (len3 w) (Unskew ra (m4_linear (path v w 1))) = scale3 (sin (len3 w)) w.
Proof.
  unfold path. destruct (Req_EM_T (len3 w) 0) as [Z|Z].
  - rewrite Z, sin_0. generalize (Unskew ra (m4_linear (slide v 1))). intros [[a b] c]. destruct w as [[x y] z]. unfold scale3. tuples; ring.
  - unfold screw. destruct (lin_motion (rod (scale3 (/ len3 w) w) (1 * len3 w)) (screw_translation (scale3 (/ len3 w) w) (scale3 (/ len3 w) v) (1 * len3 w))) as [-> _].
    rewrite Rmult_1_l, rod_skew. generalize dependent (len3 w). intros n N. destruct w as [[x y] z]. unfold scale3. tuples; field; exact N.
Qed.
Lemma cos_inj s t : 0 <= s <= PI -> 0 <= t <= PI -> cos s = cos t -> s = t.
Proof. intros S T E. rewrite <- (acos_cos s S), <- (acos_cos t T), E. reflexivity. Qed.
Lemma translation_inj u v v' s : dot3 u u = 1 -> 0 < s < PI -> screw_translation u v s = screw_translation u v' s -> v = v'.
Proof.
  intros U S E. set (d := add3 v (scale3 (-1) v')).
  assert (Z : screw_translation u d s = (0, 0, 0)).
  { transitivity (add3 (screw_translation u v s) (scale3 (-1) (screw_translation u v' s))).
    - rewrite !translation_at by exact U. unfold d. generalize (sin s) (cos s). intros S' C. destruct u as [[a b] c], v as [[x y] z], v' as [[p q] r]. unfold add3, scale3. open. tuples; ring.
    - rewrite E. generalize (screw_translation u v' s). intros [[a b] c]. unfold add3, scale3. tuples; ring. }
  assert (P : s * dot3 u d = 0).
  { transitivity (dot3 u (screw_translation u d s)); [|rewrite Z; destruct u as [[a b] c]; unfold dot3; ring]. rewrite translation_at by exact U.
    transitivity ((1 - cos s) * dot3 u (cross3 u d) - sin s * (dot3 u d * dot3 u u - dot3 u d) + s * dot3 u d * dot3 u u); [rewrite U, cross_self_dot; ring|].
    generalize (sin s) (cos s). intros S' C. generalize (cross3 u d). intros [[e f] g]. destruct u as [[a b] c], d as [[x y] z]. unfold add3, scale3, dot3. ring. }
  assert (Dz : dot3 u d = 0) by (apply Rmult_integral in P as [P|P]; [lra|exact P]).
  rewrite translation_at, Dz in Z by exact U.
  assert (Q : (1 - cos s) * dot3 (cross3 u d) (cross3 u d) = 0).
  { transitivity (dot3 (cross3 u d) (0, 0, 0)); [|destruct (cross3 u d) as [[a b] c]; unfold dot3; ring]. rewrite <- Z. generalize (sin s) (cos s). intros S' C.
    clearbody d. clear -C. destruct u as [[a b] c], d as [[x y] z]. unfold add3, scale3. open. ring. }
  assert (C1 : cos s < 1) by (rewrite <- cos_0; apply cos_decreasing_1; lra).
  apply Rmult_integral in Q as [Q|Q]; [lra|].
  assert (W : dot3 d d = 0).
  { transitivity (dot3 (cross3 u d) (cross3 u d) + dot3 u d * dot3 u d - (dot3 u u - 1) * dot3 d d); [|rewrite Q, Dz, U; ring].
    clearbody d. clear. destruct u as [[a b] c], d as [[x y] z]. open. ring. }
  unfold d in W. clear -W. destruct v as [[x y] z], v' as [[p q] r]. unfold add3, scale3, dot3 in W.
  assert (Q : forall a b c, a * a + b * b + c * c = 0 -> a = 0 /\ b = 0 /\ c = 0) by (intros; repeat split; nra).
  apply Q in W as (W1 & W2 & W3). assert (x = p /\ y = q /\ z = r) as (-> & -> & ->); [|reflexivity]. repeat split; lra.
Qed.
Lemma flow_inj v w v' w' : path v w 1 = path v' w' 1 -> len3 w < PI -> len3 w' <= PI -> v = v' /\ w = w'.
Proof.
  intros E A B. pose proof (path_trace v w) as T. pose proof (path_trace v' w') as T'. rewrite E, T' in T.
  assert (L : len3 w = len3 w') by (symmetry; apply cos_inj; [split; [apply len3_nonneg|lra]|split; [apply len3_nonneg|lra]|lra]). clear T T'.
  pose proof (path_skew v w) as K. pose proof (path_skew v' w') as K'. rewrite E, L, K' in K. clear K'.
  pose proof (len3_nonneg w') as N. destruct (Req_dec (len3 w') 0) as [Z|Z].
  - pose proof (len3_zero _ Z) as W'. rewrite Z in L. pose proof (len3_zero _ L) as W. split; [|congruence].
    unfold path in E. destruct (Req_EM_T (len3 w) 0); [|contradiction]. destruct (Req_EM_T (len3 w') 0); [|contradiction].
    apply (f_equal m4_translation) in E. unfold slide in E. rewrite !(proj2 (lin_motion _ _)) in E. destruct v as [[a b] c], v' as [[x y] z]. unfold scale3 in E. injection E as E1 E2 E3.
    assert (a = x /\ b = y /\ c = z) as (-> & -> & ->); [|reflexivity]. repeat split; lra.
  - assert (Sp : 0 < sin (len3 w')) by (apply sin_gt_0; lra).
    assert (W : w = w').
    { revert K. generalize dependent (sin (len3 w')). intros S Sp. destruct w as [[a b] c], w' as [[x y] z]. unfold scale3. intros K. injection K as K1 K2 K3.
      assert (a = x /\ b = y /\ c = z) as (-> & -> & ->); [|reflexivity]. repeat split; apply (Rmult_eq_reg_l S); lra. }
    split; [|exact W]. subst w'. clear K. unfold path in E. destruct (Req_EM_T (len3 w) 0) as [Z'|Z']; [contradiction|].
    apply (f_equal m4_translation) in E. unfold screw in E. rewrite !(proj2 (lin_motion _ _)), Rmult_1_l in E.
    apply translation_inj in E; [|apply unit_of; lra|lra]. rewrite <- (scale_inv_r (len3 w) v Z), <- (scale_inv_r (len3 w) v' Z), E. reflexivity.
Qed.
