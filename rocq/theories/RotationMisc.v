(** Random rotations, conversions between vectors, isometries and the double version of
    the distance of quaternions: proofs for RotationModel.v. *)
From Coq Require Import Reals Lra Psatz Nsatz Permutation.
From Flocq Require Import Core.
From Verif Require Import Base UtilityModel MathModel MathReal MathLinModel MathLinSpec MathLinProof MathProof RotationModel RotationSpec RotationProof RotationEuler RotationAngle RotationAverage.
Local Open Scope R_scope.

(** ** Weights are squared *)
Definition wa : quat R := mkQuat 1 0 0 0.
Definition wb : quat R := mkQuat (3 / 5) (4 / 5) 0 0.
Lemma wa_unit : unit wa. Proof. unfold unit, dotq, wa. cbn. lra. Qed.
Lemma wb_unit : unit wb. Proof. unfold unit, dotq, wb. cbn. lra. Qed.
Lemma weights_squared solver p p' :
  eigen_basis (moment (effective [wa; wb] [2; 1])) (solver (moment (effective [wa; wb] [2; 1]))) ->
  eigen_basis (moment (effective [wa; wa; wb] [])) (solver (moment (effective [wa; wa; wb] []))) ->
  AverageEigenQuaterniond ra solver [wa; wb] [2; 1] = Ok p ->
  AverageEigenQuaterniond ra solver [wa; wa; wb] [] = Ok p' -> p <> p' /\ p <> oppq p'.
Proof.
  intros B1 B2 E1 E2.
  destruct (average_best solver [wa; wb] [2; 1] ltac:(cbn; lia) ltac:(right; reflexivity) B1) as (q & l & E & U & A & M).
  rewrite E1 in E. injection E as <-.
  destruct (average_best solver [wa; wa; wb] [] ltac:(cbn; lia) ltac:(left; reflexivity) B2) as (q & l' & E & U' & A' & M').
  rewrite E2 in E. injection E as <-. clear B1 B2 E1 E2 M'.
  assert (A'' : p = p' \/ p = oppq p' -> apply4 (moment (effective [wa; wa; wb] [])) (vec_of p) = scale4 l' (vec_of p)).
  { intros [->| ->]; [exact A'|]. rewrite vec_opp, apply4_scale, A'. destruct (vec_of p') as [[[? ?] ?] ?]. unfold scale4. f_equal; [f_equal; [f_equal|]|]; ring. }
  assert (N : ~ (p = p' \/ p = oppq p')); [|tauto]. intros C. specialize (A'' C). clear A' U' p' C.
  specialize (M wa wa_unit). cbn [effective length repeat combine moment alignment] in A, A'', M. unfold unit in U.
  destruct p as [w x y z]. unfold dotq, wa, wb, vec_of, outer4, add44, add4, scale4, apply4, dot4, zero44 in *. cbn [qw qx qy qz] in *.
  injection A as H1 H2 H3 H4. injection A'' as G1 G2 G3 G4.
  (* x component: both give (12/25) w + (16/25) x = l x = l' x; w component: differ by 2 w *)
  assert (K2 : 12 / 25 * w + 16 / 25 * x = l * x) by lra. assert (K2' : 12 / 25 * w + 16 / 25 * x = l' * x) by lra.
  assert (K1 : (4 + 9 / 25) * w + 12 / 25 * x = l * w) by lra. assert (K1' : (2 + 9 / 25) * w + 12 / 25 * x = l' * w) by lra.
  destruct (Req_dec x 0) as [X|X].
  - assert (W : w = 0) by (rewrite X in K2; lra). rewrite X, W in M. lra.
  - assert (l = l') by (apply (Rmult_eq_reg_r x); [lra|exact X]). subst l'. assert (W : w = 0) by lra. rewrite W in K1. assert (x = 0) by lra. contradiction.
Qed.
Lemma moment_ab : moment (effective [wa; wb] [2; 1]) = block (4 + 9 / 25) (12 / 25) (16 / 25).
Proof.
  cbn [effective length repeat combine moment]. unfold wa, wb, outer4, add44, add4, scale4, zero44, block. cbn [qw qx qy qz].
  repeat match goal with |- (_, _) = (_, _) => apply (f_equal2 pair) end; lra.
Qed.
Lemma moment_aab : moment (effective [wa; wa; wb] []) = block (2 + 9 / 25) (12 / 25) (16 / 25).
Proof.
  cbn [effective length repeat combine moment]. unfold wa, wb, outer4, add44, add4, scale4, zero44, block. cbn [qw qx qy qz].
  repeat match goal with |- (_, _) = (_, _) => apply (f_equal2 pair) end; lra.
Qed.
Lemma block_neq : block (4 + 9 / 25) (12 / 25) (16 / 25) <> block (2 + 9 / 25) (12 / 25) (16 / 25).
Proof. unfold block. intros H. injection H. intros. lra. Qed.

(** ** Random rotations *)
Lemma random_quat_facts x0 u1 u2 : 0 <= x0 <= 1 -> let q := random_quaternion ra sin cos x0 u1 u2 in
  unit q /\ qw q * qw q + qz q * qz q = x0 /\ qx q * qx q + qy q * qy q = 1 - x0.
Proof.
  intros H q. unfold q, unit, dotq, random_quaternion. ra_simpl. cbn [qw qx qy qz].
  pose proof (cs1 (2 * PI * u1)). pose proof (cs1 (2 * PI * u2)).
  assert (A : sqrt x0 * sqrt x0 = x0) by (apply sqrt_sqrt; lra). assert (B : sqrt (1 - x0) * sqrt (1 - x0) = 1 - x0) by (apply sqrt_sqrt; lra).
  set (r2 := sqrt x0) in *. set (r1 := sqrt (1 - x0)) in *. set (s1 := sin (2 * PI * u1)) in *. set (c1 := cos (2 * PI * u1)) in *.
  set (s2 := sin (2 * PI * u2)) in *. set (c2 := cos (2 * PI * u2)) in *. clearbody r1 r2 s1 c1 s2 c2.
  assert (E1 : c2 * r2 * (c2 * r2) + s2 * r2 * (s2 * r2) = x0) by (replace (c2 * r2 * (c2 * r2) + s2 * r2 * (s2 * r2)) with ((c2 * c2 + s2 * s2) * (r2 * r2)) by ring; rewrite H1, A; ring).
  assert (E2 : s1 * r1 * (s1 * r1) + c1 * r1 * (c1 * r1) = 1 - x0) by (replace (s1 * r1 * (s1 * r1) + c1 * r1 * (c1 * r1)) with ((c1 * c1 + s1 * s1) * (r1 * r1)) by ring; rewrite H0, B; ring).
  repeat split; lra.
Qed.
(** An angle in [0, 1) of a turn. *)
Definition turn (y x : R) : R := (if Rlt_dec (Ratan2 y x) 0 then Ratan2 y x + 2 * PI else Ratan2 y x) / (2 * PI).
Lemma turn_spec y x : 0 <= turn y x < 1 /\ sqrt (x * x + y * y) * cos (2 * PI * turn y x) = x /\ sqrt (x * x + y * y) * sin (2 * PI * turn y x) = y.
Proof.
  pose proof PI_RGT_0. pose proof (atan2_range y x). destruct (atan2_spec y x) as [C S]. unfold turn.
  set (a := if Rlt_dec (Ratan2 y x) 0 then Ratan2 y x + 2 * PI else Ratan2 y x).
  assert (A : 0 <= a < 2 * PI) by (unfold a; destruct (Rlt_dec (Ratan2 y x) 0); lra).
  replace (2 * PI * (a / (2 * PI))) with a by (field; lra). split.
  - split; [apply Rmult_le_pos; [lra|left; apply Rinv_0_lt_compat; lra]|]. apply (Rmult_lt_reg_r (2 * PI)); [lra|]. unfold Rdiv. rewrite Rmult_assoc, Rinv_l by lra. lra.
  - unfold a. destruct (Rlt_dec (Ratan2 y x) 0); [|split; assumption].
    replace (Ratan2 y x + 2 * PI) with (Ratan2 y x + 2 * INR 1 * PI) by (cbn; ring). rewrite cos_period, sin_period. split; assumption.
Qed.
Lemma random_quat_reaches q : unit q -> (qx q <> 0 \/ qy q <> 0) -> exists x0 u1 u2, 0 <= x0 < 1 /\ 0 <= u1 < 1 /\ 0 <= u2 < 1 /\ random_quaternion ra sin cos x0 u1 u2 = q.
Proof.
  intros U N. destruct q as [w x y z]. unfold unit, dotq in U. cbn [qw qx qy qz] in *.
  exists (w * w + z * z), (turn x y), (turn z w). destruct (turn_spec x y) as (A & B & C). destruct (turn_spec z w) as (D & E & F).
  split; [split; [nra|]; assert (0 < x * x + y * y); [|lra]; destruct N; nra|]. split; [exact A|]. split; [exact D|].
  unfold random_quaternion. ra_simpl. replace (1 - (w * w + z * z)) with (y * y + x * x) by lra. f_equal; lra.
Qed.
Lemma euler_pitch u : 0 <= u <= 1 -> 0 <= acos (1 - 2 * u) <= PI. Proof. intros _. apply acos_bound. Qed.
Lemma random_euler_ranges u1 u2 u3 u4 : 0 <= u1 < 1 -> 0 <= u2 < 1 -> 0 <= u4 < 1 ->
  let '(r, p, y) := random_euler ra acos u1 u2 u3 u4 in - PI <= r < PI /\ 0 <= p < 2 * PI /\ - PI <= y < PI.
Proof.
  intros H1 H2 H4. unfold random_euler. ra_simpl. pose proof PI_RGT_0. pose proof (acos_bound (1 - 2 * u2)).
  set (a := acos (1 - 2 * u2)) in *. repeat split; try nra.
  - destruct (Rlt_le_dec u3 (1 / 2)); [rewrite Rlt_bool_true by assumption|rewrite Rlt_bool_false by assumption; lra].
    destruct (Rlt_le_dec (a + PI / 2) PI); [rewrite Rlt_bool_true by assumption|rewrite Rlt_bool_false by assumption]; lra.
  - destruct (Rlt_le_dec u3 (1 / 2)); [rewrite Rlt_bool_true by assumption|rewrite Rlt_bool_false by assumption; lra].
    destruct (Rlt_le_dec (a + PI / 2) PI); [rewrite Rlt_bool_true by assumption|rewrite Rlt_bool_false by assumption]; lra.
Qed.
Lemma half_turn x : 0 <= x < PI -> exists u, 0 <= u < 1 /\ acos (1 - 2 * u) = x.
Proof.
  intros H. exists ((1 - cos x) / 2). pose proof (COS_bound x). split.
  - split; [lra|]. assert (-1 < cos x); [|lra]. rewrite <- cos_PI. apply cos_decreasing_1; lra.
  - replace (1 - 2 * ((1 - cos x) / 2)) with (cos x) by lra. apply acos_cos. lra.
Qed.
Lemma random_euler_reaches r p y : - PI <= r < PI -> 0 <= p < 2 * PI -> - PI <= y < PI ->
  exists u1 u2 u3 u4, 0 <= u1 < 1 /\ 0 <= u2 < 1 /\ 0 <= u3 < 1 /\ 0 <= u4 < 1 /\ random_euler ra acos u1 u2 u3 u4 = (r, p, y).
Proof.
  intros Hr Hp Hy. pose proof PI_RGT_0.
  assert (T : forall a, - PI <= a < PI -> 0 <= (a + PI) / (2 * PI) < 1 /\ 2 * PI * ((a + PI) / (2 * PI)) - PI = a).
  { intros a Ha. split; [|field; lra]. split; [apply Rmult_le_pos; [lra|left; apply Rinv_0_lt_compat; lra]|]. apply (Rmult_lt_reg_r (2 * PI)); [lra|]. unfold Rdiv. rewrite Rmult_assoc, Rinv_l by lra. lra. }
  assert (P : exists u2 u3, 0 <= u2 < 1 /\ 0 <= u3 < 1 /\ (let a := acos (1 - 2 * u2) + PI / 2 in (if Rlt_bool u3 (1 / 2) then if Rlt_bool a PI then a + PI else a - PI else a) = p)).
  { destruct (Rlt_le_dec p (PI / 2)) as [C|C]; [|destruct (Rlt_le_dec p (3 * (PI / 2))) as [D|D]].
    - destruct (half_turn (p + PI / 2)) as (u & Hu & E); [lra|]. exists u, 0. cbv zeta. rewrite E, Rlt_bool_true by lra. rewrite Rlt_bool_false by lra. repeat split; lra.
    - destruct (half_turn (p - PI / 2)) as (u & Hu & E); [lra|]. exists u, (1 / 2). cbv zeta. rewrite E, Rlt_bool_false by lra. repeat split; lra.
    - destruct (half_turn (p - PI - PI / 2)) as (u & Hu & E); [lra|]. exists u, 0. cbv zeta. rewrite E, Rlt_bool_true by lra. rewrite Rlt_bool_true by lra. repeat split; lra. }
  destruct P as (u2 & u3 & B2 & B3 & E2). destruct (T r Hr) as [B1 E1]. destruct (T y Hy) as [B4 E4].
  exists ((r + PI) / (2 * PI)), u2, u3, ((y + PI) / (2 * PI)). repeat (split; [assumption|]). unfold random_euler. ra_simpl. cbv zeta in E2. rewrite E1, E2, E4. reflexivity.
Qed.
Lemma pitch_cdf u x : 0 <= u <= 1 -> 0 <= x <= PI -> (acos (1 - 2 * u) <= x <-> u <= (1 - cos x) / 2).
Proof.
  intros U X. pose proof (acos_bound (1 - 2 * u)) as B. assert (C : cos (acos (1 - 2 * u)) = 1 - 2 * u) by (apply cos_acos; lra). split; intros H.
  - destruct (Rle_lt_or_eq_dec _ _ H) as [L|L].
    + assert (cos x < cos (acos (1 - 2 * u))) by (apply cos_decreasing_1; lra). lra.
    + rewrite <- L, C. lra.
  - apply cos_le_le; [lra|lra|]. rewrite C. lra.
Qed.

(** ** Conversions *)
Section Copy.
Context {A : Type} (ar : arith A).
Lemma at_get_app (l1 : list A) x l2 : at_get (l1 ++ x :: l2) (length l1) = Ok x.
Proof. unfold at_get. rewrite nth_error_app2, Nat.sub_diag by lia. reflexivity. Qed.
Lemma at_set_app (l1 : list A) x v l2 : at_set (l1 ++ x :: l2) (length l1) v = Ok ((l1 ++ [v]) ++ l2).
Proof.
  unfold at_set. replace (set_nth (l1 ++ x :: l2) (length l1) v) with (Some ((l1 ++ [v]) ++ l2)); [reflexivity|].
  induction l1 as [|a l1 IH]; cbn; [reflexivity|]. rewrite <- IH. reflexivity.
Qed.
Lemma copy_loop_gen (done todo tail : list A) : length tail = length todo ->
  copy_loop (done ++ todo) (done ++ tail) (seq (length done) (length todo)) = Ok (done ++ todo).
Proof.
  revert done tail. induction todo as [|x todo IH]; intros done tail L; destruct tail as [|t tail]; try discriminate L; [reflexivity|].
  cbn [length seq copy_loop]. rewrite at_get_app. cbn [bind]. rewrite at_set_app. cbn [bind].
  specialize (IH (done ++ [x]) tail ltac:(cbn in L; lia)). rewrite app_length in IH. cbn [length] in IH. rewrite Nat.add_1_r in IH.
  replace (done ++ x :: todo) with ((done ++ [x]) ++ todo) by (rewrite <- app_assoc; reflexivity). exact IH.
Qed.
Lemma copy_all (l : list A) : copy_loop l (repeat (a_of ar 0) (length l)) (seq 0 (length l)) = Ok l.
Proof. apply (copy_loop_gen [] l). apply repeat_length. Qed.
End Copy.
