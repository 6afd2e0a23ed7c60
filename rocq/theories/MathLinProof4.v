(** Exponentials of twists, averages of vectors, and double arithmetic. *)
From Coq Require Import Reals Lra Psatz.
From Flocq Require Import Core BinarySingleNaN.
From Verif Require Import Base UtilityModel Double DoubleFacts MathModel MathReal MathSpec MathProof MathVec MathLinModel MathLinSpec MathLinProof MathLinProof2 MathLinProof3.
Local Open Scope R_scope.

Definition tiny : R := / IZR (10 ^ 100).
Lemma tiny_pos : 0 < tiny. Proof. apply Rinv_0_lt_compat, IZR_lt. reflexivity. Qed.
Lemma lit_tiny : lit_1e100 ra = tiny.
Proof. unfold lit_1e100, tiny. simpl_ra. change (a_of ra (10 ^ 100)) with (IZR (10 ^ 100)). unfold Rdiv. apply Rmult_1_l. Qed.
Lemma norm_len (v : r3) : v3_norm ra v = len3 v. Proof. destruct v as [[a b] c]. reflexivity. Qed.
Lemma len3_nonneg v : 0 <= len3 v. Proof. apply sqrt_pos. Qed.
Lemma len3_zero v : len3 v = 0 -> v = (0, 0, 0).
Proof. intros H. pose proof (len3_sq v) as E. rewrite H in E. destruct v as [[a b] c]. open. assert (a = 0 /\ b = 0 /\ c = 0) as (-> & -> & ->); [|reflexivity]. repeat split; nra. Qed.
Definition slide (v : r3) (t : R) : r44 := motion id3 (scale3 t v).
Lemma exp_turning (v w : r3) t : 0 < len3 w -> tiny <= len3 w \/ len3 v < tiny ->
  ExpTwist ra sin cos (v, w) t = Ok (screw (scale3 (/ len3 w) w) (scale3 (/ len3 w) v) (t * len3 w)).
Proof.
  intros H C. unfold ExpTwist. cbv zeta. cbn [fst snd]. rewrite lit_tiny, !norm_len. change (aleb ra) with Rle_bool. change (aeqb ra) with Req_bool. change (a_of ra 0) with 0.
  destruct (Rle_bool_spec tiny (len3 w)) as [L|L]; [apply rotating_screw; exact H|].
  destruct C as [C|C]; [lra|]. rewrite Rle_bool_false by exact C. rewrite Req_bool_false by lra. cbn [orb]. apply rotating_screw. exact H.
Qed.
Lemma exp_sliding (v w : r3) t : len3 w = 0 \/ (len3 w < tiny /\ tiny <= len3 v) -> ExpTwist ra sin cos (v, w) t = Ok (slide v t).
Proof.
  intros C. unfold ExpTwist. cbv zeta. cbn [fst snd]. rewrite lit_tiny, !norm_len. change (aleb ra) with Rle_bool. change (aeqb ra) with Req_bool. change (a_of ra 0) with 0.
  pose proof tiny_pos. rewrite (Rle_bool_false tiny (len3 w)) by (destruct C; lra).
  assert (B : (Rle_bool tiny (len3 v) || Req_bool (len3 w) 0)%bool = true).
  { destruct C as [C|[_ C]]; [rewrite C, Req_bool_true by reflexivity; apply Bool.orb_true_r|rewrite Rle_bool_true by exact C; reflexivity]. }
  match goal with |- (if ?b then _ else _) = _ => change b with (Rle_bool tiny (len3 v) || Req_bool (len3 w) 0)%bool end. rewrite B. apply (f_equal Ok). destruct v as [[a b] c]. unfold slide, scale3. open. tuples; ring.
Qed.
Lemma rot_id : is_rotation id3. Proof. split; open; [tuples; ring|ring]. Qed.
Lemma slide_add v s t : slide v (s + t) = mul4 (slide v s) (slide v t).
Proof. unfold slide. rewrite mul_motion. destruct v as [[a b] c]. unfold add3, scale3. open. tuples; ring. Qed.
Lemma slide_0 v : slide v 0 = id4. Proof. unfold slide. destruct v as [[a b] c]. unfold scale3. open. tuples; ring. Qed.
Lemma which_case (v w : r3) : (0 < len3 w /\ (tiny <= len3 w \/ len3 v < tiny)) \/ (len3 w = 0 \/ (len3 w < tiny /\ tiny <= len3 v)).
Proof. pose proof (len3_nonneg w). pose proof tiny_pos. destruct (Req_dec (len3 w) 0); [auto|]. destruct (Rle_lt_dec tiny (len3 w)); [left; split; [lra|auto]|]. destruct (Rle_lt_dec tiny (len3 v)); [auto|left; split; [lra|auto]]. Qed.
Lemma exp_group (xi : r3 * r3) : exists F, (forall t, ExpTwist ra sin cos xi t = Ok (F t)) /\ F 0 = id4 /\
  (forall t, is_rigid (F t)) /\ (forall s t, F (s + t) = mul4 (F s) (F t)).
Proof.
  destruct xi as [v w]. destruct (which_case v w) as [[H C]|C].
  - pose proof (unit_of w H) as U. exists (fun t => screw (scale3 (/ len3 w) w) (scale3 (/ len3 w) v) (t * len3 w)).
    split; [intros t; apply exp_turning; assumption|]. split; [rewrite Rmult_0_l; apply screw_0|]. split.
    + intros t. eexists. eexists. split; [|reflexivity]. destruct (scale3 (/ len3 w) w) as [[a b] c]. apply rod_rotation. exact U.
    + intros s t. rewrite Rmult_plus_distr_r. apply screw_add. exact U.
  - exists (slide v). split; [intros t; apply exp_sliding; exact C|]. split; [apply slide_0|]. split.
    + intros t. exists id3, (scale3 t v). split; [exact rot_id|reflexivity].
    + apply slide_add.
Qed.
Lemma exp_solves (v w : r3) : len3 w = 0 \/ tiny <= len3 w \/ len3 v < tiny ->
  exists F, (forall t, ExpTwist ra sin cos (v, w) t = Ok (F t)) /\ F 0 = id4 /\
  forall t, derivative_at F t (mul4 (TwistHat ra (v, w)) (F t)).
Proof.
  intros C. pose proof (len3_nonneg w). pose proof tiny_pos.
  destruct (Req_dec (len3 w) 0) as [Z|Z].
  - exists (slide v). split; [intros t; apply exp_sliding; auto|]. split; [apply slide_0|]. apply len3_zero in Z. subst w. intros t k Hk.
    destruct v as [[a b] c].
    apply (trig_derive (nth k (entries (slide (a, b, c) 0)) 0) 0 0 (nth k (entries (slide (a, b, c) 1)) 0 - nth k (entries (slide (a, b, c) 0)) 0) 1).
    + intros s. unfold slide, scale3, entries. open. do 16 (destruct k as [|k]; [cbn [nth]; ring|]). lia.
    + unfold slide, scale3, entries. open. do 16 (destruct k as [|k]; [cbn [nth]; ring|]). lia.
  - assert (P : 0 < len3 w) by lra. pose proof (unit_of w P) as U.
    exists (fun t => screw (scale3 (/ len3 w) w) (scale3 (/ len3 w) v) (t * len3 w)).
    split; [intros t; apply exp_turning; [exact P|destruct C as [C|C]; [contradiction|exact C]]|]. split; [rewrite Rmult_0_l; apply screw_0|].
    intros t. replace (TwistHat ra (v, w)) with (TwistHat ra (scale3 (len3 w) (scale3 (/ len3 w) v), scale3 (len3 w) (scale3 (/ len3 w) w))).
    + apply screw_derivative. exact U.
    + apply f_equal. clear C U H. generalize dependent (len3 w). intros n Zn Pn. destruct v as [[a b] c], w as [[x y] z]. unfold scale3. tuples; field; exact Zn.
Qed.
(** A slow rotation with a fast translation is not followed. *)
Definition slow_turn : r3 * r3 := ((1, 0, 0), (0, 0, tiny / 10)).
Lemma slow_turn_slides t : ExpTwist ra sin cos slow_turn t = Ok (slide (1, 0, 0) t).
Proof.
  unfold slow_turn. apply exp_sliding. right. pose proof tiny_pos as P. split.
  - unfold len3. open. replace (0 * 0 + 0 * 0 + tiny / 10 * (tiny / 10)) with (Rsqr (tiny / 10)) by (unfold Rsqr; ring). rewrite sqrt_Rsqr by lra. lra.
  - unfold len3. open. replace (1 * 1 + 0 * 0 + 0 * 0) with 1 by ring. rewrite sqrt_1. unfold tiny. apply Rmult_le_reg_l with (IZR (10 ^ 100)); [apply IZR_lt; reflexivity|].
    rewrite Rinv_r, Rmult_1_r; [apply IZR_le; discriminate|]. apply not_eq_sym, Rlt_not_eq, IZR_lt. reflexivity.
Qed.
Lemma slow_turn_wrong : ~ derivative_at (slide (1, 0, 0)) 0 (mul4 (TwistHat ra slow_turn) (slide (1, 0, 0) 0)).
Proof.
  intros H. specialize (H 1%nat ltac:(lia)). unfold slow_turn, slide, scale3, entries in H. open. cbn [nth] in H. pose proof tiny_pos as P.
  assert (Z : derivable_pt_lim (fun _ : R => 0) 0 0) by apply derivable_pt_lim_const.
  pose proof (uniqueness_limite _ _ _ _ H Z) as E. lra.
Qed.
