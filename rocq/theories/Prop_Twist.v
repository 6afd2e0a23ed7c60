(** C159-C160: the twist between two transforms, and the weighted angle between two
    vectors.  [real_arith] is exact arithmetic; matrices, rigid motions and derivatives
    are defined in MathLinSpec.v, flows and logarithms in TwistSpec.v. *)
From Coq Require Import Reals Lra Psatz.
From Flocq Require Import Core BinarySingleNaN.
From Verif Require Import Base UtilityModel Double DoubleFacts MathModel MathReal MathVec MathLinModel MathLinSpec.
From Verif Require Import MathLinProof MathLinProof2 MathLinProof3 MathLinProof4 MathLinProof5 MathLinProof6.
From Verif Require Import TwistModel TwistSpec TwistProof TwistProof2.
Local Open Scope R_scope.

Lemma inverse_motion r p : iso_inverse real_arith (motion r p) = motion (transpose3 r) (scale3 (-1) (apply3 (transpose3 r) p)).
Proof.
  unfold iso_inverse. destruct (lin_motion r p) as [-> ->].
  destruct r as [[[[a b] c] [[d e] f]] [[g h] i]], p as [[x y] z]. unfold scale3. open. tuples; ring.
Qed.
Lemma mul_iso s t : is_rigid s -> is_rigid t -> iso_mul real_arith s t = mul4 s t.
Proof.
  intros (r & p & _ & ->) (q & o & _ & ->). unfold iso_mul. rewrite !(proj1 (lin_motion _ _)), !(proj2 (lin_motion _ _)), mul_motion.
  destruct r as [[[[a b] c] [[d e] f]] [[g h] i]], q as [[[[a' b'] c'] [[d' e'] f']] [[g' h'] i']], p as [[x y] z], o as [[x' y'] z']. unfold add3. open. tuples; ring.
Qed.
Lemma inverse_rigid t : is_rigid t -> is_rigid (iso_inverse real_arith t) /\ mul4 (iso_inverse real_arith t) t = id4 /\ mul4 t (iso_inverse real_arith t) = id4.
Proof.
  intros (r & p & R & ->). destruct (rigid_inverse (motion r p)) as (t' & (q & o & Q & ->) & A & B); [exists r, p; auto|].
  assert (E : iso_inverse real_arith (motion r p) = motion q o).
  { rewrite inverse_motion, <- (mul4_id_r (motion (transpose3 r) _)), <- A, <- mul4_assoc, mul_motion. destruct (rot_columns r R) as [-> _].
    rewrite <- (mul4_id_l (motion q o)) at 2. f_equal. destruct (apply3 (transpose3 r) p) as [[x y] z]. unfold add3, scale3. open. tuples; ring. }
  rewrite E. split; [exists q, o; auto|]. split; [exact B|exact A].
Qed.
Lemma between_diff logm start end_ diff : is_rigid start -> is_rigid diff -> mul4 start diff = end_ ->
  TwistBetweenTransforms real_arith logm start end_ = TwistUnhat real_arith (logm diff).
Proof.
  intros S D <-. destruct (inverse_rigid start S) as (I & L & _). unfold TwistBetweenTransforms. rewrite mul_iso by (auto using rigid_mul).
  rewrite <- mul4_assoc, L, mul4_id_l. reflexivity.
Qed.
Lemma diff_rigid start end_ : is_rigid start -> is_rigid end_ -> exists diff, is_rigid diff /\ mul4 start diff = end_.
Proof.
  intros S T. destruct (inverse_rigid start S) as (I & _ & R). exists (mul4 (iso_inverse real_arith start) end_). split; [apply rigid_mul; assumption|].
  rewrite <- mul4_assoc, R, mul4_id_l. reflexivity.
Qed.

(** C159: the twist, followed for one unit of time from the start in its own frame, ends
    at the end.  What is used of Eigen's matrix logarithm is that it is one, on the motion
    from start to end.  Proved unless ExpTwist drops the rotation (C106). *)
Theorem C159_reaches_end_partial : forall logm start end_, is_rigid start -> is_rigid end_ ->
  (forall diff, mul4 start diff = end_ -> is_logarithm (logm diff) diff) ->
  let '(v, w) := TwistBetweenTransforms real_arith logm start end_ in
  (exists diff, mul4 start diff = end_ /\ flows_to (field v w) diff) /\ length3 w <= PI /\
  (length3 w = 0 \/ / IZR (10 ^ 100) <= length3 w \/ length3 v < / IZR (10 ^ 100) ->
   exists m, ExpTwist real_arith sin cos (v, w) 1 = Ok m /\ mul4 start m = end_).
Proof.
  intros logm start end_ S T H. destruct (diff_rigid start end_ S T) as (diff & D & E). destruct (H diff E) as (v & w & L & F & B).
  rewrite (between_diff logm start end_ diff S D E), L, field_hat, unhat_hat. rewrite L in F.
  split; [exists diff; split; [exact E|exact F]|]. split; [exact B|]. intros C. exists diff. split; [|exact E]. rewrite exp_path by exact C. f_equal. apply flows_path. exact F.
Qed.
(** C159: and it is the twist that was followed, if that turns less than half a turn. *)
Theorem C159_recovers_twist : forall logm start (v w : r3) diff, is_rigid start -> flows_to (field v w) diff -> length3 w < PI ->
  is_logarithm (logm diff) diff ->
  is_rigid diff /\ TwistBetweenTransforms real_arith logm start (mul4 start diff) = (v, w).
Proof.
  intros logm start v w diff S F L (v' & w' & E & F' & B). assert (D : is_rigid diff) by (apply flows_path in F as <-; apply path_group).
  split; [exact D|]. rewrite (between_diff logm start _ diff S D eq_refl), E, field_hat, unhat_hat. rewrite E in F'.
  apply flows_path in F. apply flows_path in F'. destruct (flow_inj v w v' w') as [-> ->]; [congruence|exact L|exact B|reflexivity].
Qed.
(** C159: every rigid motion has a logarithm (Chasles: it is a screw). *)
Theorem C159_logarithms_exist : forall m, is_rigid m -> exists h, is_logarithm h m.
Proof. intros m R. destruct (rigid_flow m R) as (v & w & E & L). exists (field v w), v, w. split; [reflexivity|]. split; [apply flows_path, E|exact L]. Qed.
(** C159: where the rotation is dropped, following the twist misses the end. *)
Theorem C159_slow_rotation_refuted : exists logm start end_ m, is_rigid start /\ is_rigid end_ /\
  (forall diff, mul4 start diff = end_ -> is_logarithm (logm diff) diff) /\
  ExpTwist real_arith sin cos (TwistBetweenTransforms real_arith logm start end_) 1 = Ok m /\ mul4 start m <> end_.
Proof.
  set (w := (0, 0, tiny / 10)). set (v := (1, 0, 0)). pose proof tiny_pos as TP.
  assert (TS : tiny < 1).
  { unfold tiny. apply Rmult_lt_reg_l with (IZR (10 ^ 100)); [apply IZR_lt; reflexivity|]. rewrite Rinv_r by (apply not_eq_sym, Rlt_not_eq, IZR_lt; reflexivity). rewrite Rmult_1_r. apply IZR_lt. reflexivity. }
  assert (LW : len3 w = tiny / 10).
  { unfold len3, w, dot3. replace (0 * 0 + 0 * 0 + tiny / 10 * (tiny / 10)) with (tiny / 10 * (tiny / 10)) by ring. apply sqrt_square. lra. }
  assert (RI : is_rigid id4) by (exists id3, (0, 0, 0); split; [exact rot_id|reflexivity]).
  assert (RE : is_rigid (path v w 1)) by apply path_group.
  exists (fun _ => field v w), id4, (path v w 1), (slide v 1). split; [exact RI|]. split; [exact RE|]. pose proof PI2_1 as PI1. assert (LP : len3 w < PI) by lra.
  split; [|split].
  - intros diff E. rewrite mul4_id_l in E. subst diff. exists v, w. split; [reflexivity|]. split; [apply flows_path; reflexivity|]. unfold len3 in LP. unfold length3. lra.
  - rewrite (between_diff _ id4 _ (path v w 1) RI RE (mul4_id_l _)), field_hat, unhat_hat. apply slow_turn_slides.
  - rewrite mul4_id_l. intros E. assert (E' : path v (0, 0, 0) 1 = path v w 1).
    { rewrite <- E. unfold path. destruct (Req_EM_T (len3 (0, 0, 0)) 0) as [Z|Z]; [reflexivity|]. exfalso. apply Z. unfold len3, dot3. replace (0 * 0 + 0 * 0 + 0 * 0) with 0 by ring. apply sqrt_0. }
    assert (L0 : len3 (0, 0, 0) < PI) by (unfold len3, dot3; replace (0 * 0 + 0 * 0 + 0 * 0) with 0 by ring; rewrite sqrt_0; lra).
    destruct (flow_inj _ _ _ _ E' L0 (Rlt_le _ _ LP)) as [_ W]. unfold w in W. injection W as W. lra.
Qed.
Print Assumptions C159_reaches_end_partial.
Print Assumptions C159_recovers_twist.
Print Assumptions C159_logarithms_exist.
Print Assumptions C159_slow_rotation_refuted.
(** From (5, 6, 7) turned a quarter about z to the origin: the hypotheses are met. *)
Example C159_nonvacuous : exists logm, let start := motion ((0, -1, 0), (1, 0, 0), (0, 0, 1)) (5, 6, 7) in
  is_rigid start /\ is_rigid id4 /\ forall diff, mul4 start diff = id4 -> is_logarithm (logm diff) diff.
Proof.
  set (start := motion ((0, -1, 0), (1, 0, 0), (0, 0, 1)) (5, 6, 7)).
  assert (S : is_rigid start) by (exists ((0, -1, 0), (1, 0, 0), (0, 0, 1)), (5, 6, 7); split; [split; open; [tuples; ring|ring]|reflexivity]).
  assert (RI : is_rigid id4) by (exists id3, (0, 0, 0); split; [exact rot_id|reflexivity]).
  destruct (inverse_rigid start S) as (I & L & R). destruct (C159_logarithms_exist _ I) as (h & H).
  exists (fun _ => h). split; [exact S|]. split; [exact RI|]. intros diff E. rewrite <- (mul4_id_l diff), <- L, mul4_assoc, E, mul4_id_r. exact H.
Qed.

(** C160: the weighted angle is the angle in [0, PI] whose cosine is the weighted cosine,
    and there is none if a vector has no length under the weights. *)
Theorem C160_angle : forall u v w : list R, length u = length v -> length u = length w -> Forall (fun z => 0 <= z) w ->
  0 < weighted_dot u u w -> 0 < weighted_dot v v w ->
  exists a, WeightedAngleBetweenVectors real_arith acos u v w = Ok a /\ 0 <= a <= PI /\
  weighted_dot u v w = sqrt (weighted_dot u u w) * sqrt (weighted_dot v v w) * cos a /\
  WeightedAngleBetweenVectors real_arith acos v u w = Ok a.
Proof.
  intros u v w L M W U V. destruct (cosine_real u v w L M W U V) as [E B]. destruct (cosine_real v u w (eq_sym L) ltac:(congruence) W V U) as [E' B'].
  pose proof (sqrt_lt_R0 _ U) as SU. pose proof (sqrt_lt_R0 _ V) as SV.
  assert (Sy : forall (a b c : list R), weighted_dot a b c = weighted_dot b a c) by (clear; induction a as [|x a IH]; intros [|y b] [|z c]; cbn [weighted_dot]; auto; rewrite IH; ring).
  eexists. unfold WeightedAngleBetweenVectors. rewrite E, E'. cbn [bind]. split; [reflexivity|]. split; [apply acos_bound|]. split.
  - rewrite cos_acos by exact B. field. split; lra.
  - f_equal. f_equal. rewrite (Sy v u w). field. split; lra.
Qed.
Theorem C160_no_angle : forall u v w : list R, length u = length v -> length u = length w -> Forall (fun z => 0 <= z) w ->
  weighted_dot u u w = 0 \/ weighted_dot v v w = 0 -> WeightedAngleBetweenVectors real_arith acos u v w = Throw InvalidArgument.
Proof. intros u v w L M W H. unfold WeightedAngleBetweenVectors. rewrite cosine_throws by assumption. reflexivity. Qed.
(** In double arithmetic acos is only ever asked for numbers in [-1, 1]. *)
Theorem C160_rounded : forall (acosd : double -> double) (u v w : list double) a, WeightedAngleBetweenVectors double_arith acosd u v w = Ok a ->
  exists c, a = acosd c /\ is_finite c = true /\ -1 <= B2R c <= 1.
Proof.
  intros acosd u v w a. unfold WeightedAngleBetweenVectors. destruct (WeightedCosineAngleBetweenVectors double_arith u v w) as [c| | |] eqn:E; try discriminate.
  cbn [bind]. intros H. injection H as <-. exists c. split; [reflexivity|]. exact (cosine_double u v w c E).
Qed.
Print Assumptions C160_angle.
Print Assumptions C160_no_angle.
Print Assumptions C160_rounded.
Example C160_nonvacuous : WeightedAngleBetweenVectors real_arith acos [1; 0] [0; 2] [1; 1] = Ok (PI / 2).
Proof.
  destruct (C160_angle [1; 0] [0; 2] [1; 1]) as (a & E & B & C & _); try reflexivity; [repeat constructor; lra|cbn [weighted_dot]; lra|cbn [weighted_dot]; lra|].
  rewrite E. f_equal. cbn [weighted_dot] in C.
  replace (1 * (1 * 0) + (1 * (0 * 2) + 0)) with 0 in C by ring. replace (1 * (1 * 1) + (1 * (0 * 0) + 0)) with 1 in C by ring.
  replace (1 * (0 * 0) + (1 * (2 * 2) + 0)) with (2 * 2) in C by ring. rewrite sqrt_1, sqrt_square in C by lra.
  apply cos_inj; [exact B|pose proof PI_RGT_0; lra|]. rewrite cos_PI2. lra.
Qed.
