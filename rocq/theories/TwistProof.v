(** Flows of twists: uniqueness, every rigid motion is one, and which. *)
From Coq Require Import Reals Lra Psatz.
From Flocq Require Import Core.
From Verif Require Import Base UtilityModel MathModel MathReal MathVec MathLinModel MathLinSpec MathLinProof MathLinProof2 MathLinProof3 MathLinProof4.
From Verif Require Import TwistModel TwistSpec.
Local Open Scope R_scope.

Lemma field_hat v w : field v w = TwistHat ra (v, w).
Proof. destruct v as [[a b] c], w as [[p q] r]. reflexivity. Qed.
Definition ent (m : r44) (k : nat) : R := nth k (entries m) 0.
Lemma ent_ext m n : (forall k, (k < 16)%nat -> ent m k = ent n k) -> m = n.
Proof.
  intros H. destruct m as [[[[[[a0 a1] a2] a3] [[[a4 a5] a6] a7]] [[[a8 a9] a10] a11]] [[[a12 a13] a14] a15]].
  destruct n as [[[[[[b0 b1] b2] b3] [[[b4 b5] b6] b7]] [[[b8 b9] b10] b11]] [[[b12 b13] b14] b15]].
  assert (H' := fun k L => H k L). unfold ent, entries in H'.
  assert (a0 = b0) by (apply (H' 0%nat); lia). assert (a1 = b1) by (apply (H' 1%nat); lia). assert (a2 = b2) by (apply (H' 2%nat); lia). assert (a3 = b3) by (apply (H' 3%nat); lia).
  assert (a4 = b4) by (apply (H' 4%nat); lia). assert (a5 = b5) by (apply (H' 5%nat); lia). assert (a6 = b6) by (apply (H' 6%nat); lia). assert (a7 = b7) by (apply (H' 7%nat); lia).
  assert (a8 = b8) by (apply (H' 8%nat); lia). assert (a9 = b9) by (apply (H' 9%nat); lia). assert (a10 = b10) by (apply (H' 10%nat); lia). assert (a11 = b11) by (apply (H' 11%nat); lia).
  assert (a12 = b12) by (apply (H' 12%nat); lia). assert (a13 = b13) by (apply (H' 13%nat); lia). assert (a14 = b14) by (apply (H' 14%nat); lia). assert (a15 = b15) by (apply (H' 15%nat); lia).
  subst. reflexivity.
Qed.
Lemma ent_mul m n i j : (i < 4)%nat -> (j < 4)%nat -> ent (mul4 m n) (4 * i + j) =
  ent m (4 * i) * ent n j + ent m (4 * i + 1) * ent n (4 + j) + ent m (4 * i + 2) * ent n (8 + j) + ent m (4 * i + 3) * ent n (12 + j).
Proof.
  intros Hi Hj. destruct m as [[[[[[a0 a1] a2] a3] [[[a4 a5] a6] a7]] [[[a8 a9] a10] a11]] [[[a12 a13] a14] a15]].
  destruct n as [[[[[[b0 b1] b2] b3] [[[b4 b5] b6] b7]] [[[b8 b9] b10] b11]] [[[b12 b13] b14] b15]].
  destruct i as [|[|[|[|i]]]]; try lia; (destruct j as [|[|[|[|j]]]]; try lia; unfold ent, entries, mul4, transpose4, dot4; cbn [nth Nat.mul Nat.add]; ring).
Qed.
Lemma split16 k : (k < 16)%nat -> exists i j, (i < 4)%nat /\ (j < 4)%nat /\ k = (4 * i + j)%nat.
Proof.
  intros H. exists (k / 4)%nat, (k mod 4)%nat. split; [apply Nat.div_lt_upper_bound; lia|]. split; [apply Nat.mod_upper_bound; lia|]. apply Nat.div_mod; lia.
Qed.
(** The product rule. *)
Lemma derive_mul F G t f g k : derivative_at F t f -> derivative_at G t g -> (k < 16)%nat ->
  derivable_pt_lim (fun s => ent (mul4 (F s) (G s)) k) t (ent (mul4 f (G t)) k + ent (mul4 (F t) g) k).
Proof.
  intros HF HG Hk. destruct (split16 k Hk) as (i & j & Hi & Hj & ->).
  assert (P : forall a b, (a < 16)%nat -> (b < 16)%nat -> derivable_pt_lim (fun s => ent (F s) a * ent (G s) b) t (ent f a * ent (G t) b + ent (F t) a * ent g b)).
  { intros a b Ha Hb. apply (derivable_pt_lim_mult (fun s => ent (F s) a) (fun s => ent (G s) b)); [apply HF|apply HG]; assumption. }
  assert (E : forall (u v : R -> R) l, (forall s, u s = v s) -> derivable_pt_lim u t l -> derivable_pt_lim v t l).
  { intros u v l H K e He. destruct (K e He) as [d D]. exists d. intros h H1 H2. rewrite <- !H. apply D; assumption. }
  rewrite !ent_mul by assumption.
  eapply E; [intros s; symmetry; apply ent_mul; assumption|].
  match goal with |- derivable_pt_lim _ _ ?x => replace x with
    ((ent f (4 * i) * ent (G t) j + ent (F t) (4 * i) * ent g j) + (ent f (4 * i + 1) * ent (G t) (4 + j) + ent (F t) (4 * i + 1) * ent g (4 + j)) +
     (ent f (4 * i + 2) * ent (G t) (8 + j) + ent (F t) (4 * i + 2) * ent g (8 + j)) + (ent f (4 * i + 3) * ent (G t) (12 + j) + ent (F t) (4 * i + 3) * ent g (12 + j))) by ring end.
  apply (derivable_pt_lim_plus (fun s => ent (F s) (4 * i) * ent (G s) j + ent (F s) (4 * i + 1) * ent (G s) (4 + j) + ent (F s) (4 * i + 2) * ent (G s) (8 + j)) (fun s => ent (F s) (4 * i + 3) * ent (G s) (12 + j))).
  - apply (derivable_pt_lim_plus (fun s => ent (F s) (4 * i) * ent (G s) j + ent (F s) (4 * i + 1) * ent (G s) (4 + j)) (fun s => ent (F s) (4 * i + 2) * ent (G s) (8 + j))).
    + apply (derivable_pt_lim_plus (fun s => ent (F s) (4 * i) * ent (G s) j) (fun s => ent (F s) (4 * i + 1) * ent (G s) (4 + j))); apply P; lia.
    + apply P; lia.
  - apply P; lia.
Qed.
Lemma derive_ext (u v : R -> R) t l : (forall s, u s = v s) -> derivable_pt_lim u t l -> derivable_pt_lim v t l.
Proof. intros H K e He. destruct (K e He) as [d D]. exists d. intros h H1 H2. rewrite <- !H. apply D; assumption. Qed.
Definition neg4 (m : r44) : r44 := let '((a, b, c, d), (e, f, g, h), (i, j, k, l), (m, n, o, p)) := m in
  ((- a, - b, - c, - d), (- e, - f, - g, - h), (- i, - j, - k, - l), (- m, - n, - o, - p)).
Lemma ent_neg m k : ent (neg4 m) k = - ent m k.
Proof.
  destruct m as [[[[[[a0 a1] a2] a3] [[[a4 a5] a6] a7]] [[[a8 a9] a10] a11]] [[[a12 a13] a14] a15]]. unfold ent, entries, neg4.
  do 16 (destruct k as [|k]; [reflexivity|]). destruct k; cbn [nth]; ring.
Qed.
Lemma neg_mul_l m n : mul4 (neg4 m) n = neg4 (mul4 m n).
Proof.
  apply ent_ext. intros k Hk. destruct (split16 k Hk) as (i & j & Hi & Hj & ->). rewrite ent_neg, !ent_mul by assumption. rewrite !ent_neg. ring.
Qed.

Definition zero4 : r44 := ((0, 0, 0, 0), (0, 0, 0, 0), (0, 0, 0, 0), (0, 0, 0, 0)).
Lemma ent_zero k : ent zero4 k = 0.
Proof. unfold ent, entries, zero4. do 16 (destruct k as [|k]; [reflexivity|]). destruct k; reflexivity. Qed.

(** A group of matrices flowing along h. *)
Section Group.
Variables (h : r44) (G : R -> r44).
Hypothesis G0 : G 0 = id4.
Hypothesis GA : forall s t, G (s + t) = mul4 (G s) (G t).
Hypothesis GD : forall t, derivative_at G t (mul4 h (G t)).
Lemma group_commutes s : mul4 h (G s) = mul4 (G s) h.
Proof.
  apply ent_ext. intros k Hk.
  assert (A : derivable_pt_lim (fun t => ent (G (s + t)) k) 0 (ent (mul4 h (G s)) k)).
  { assert (D := GD s k Hk). assert (L : derivable_pt_lim (fun t => s + t) 0 1).
    { replace 1 with (0 + 1) by ring. apply (derivable_pt_lim_plus (fun _ => s) (fun t => t)); [apply derivable_pt_lim_const|apply derivable_pt_lim_id]. }
    replace s with (s + 0) in D by ring. assert (C := derivable_pt_lim_comp (fun t => s + t) (fun t => ent (G t) k) 0 1 _ L D).
    replace (s + 0) with s in C by ring. unfold comp in C. rewrite Rmult_1_r in C. exact C. }
  assert (B : derivable_pt_lim (fun t => ent (G (s + t)) k) 0 (ent (mul4 (G s) h) k)).
  { eapply derive_ext; [intros t; symmetry; rewrite GA; reflexivity|].
    assert (Z : derivative_at (fun _ => G s) 0 zero4).
    { intros i Hi. fold (ent zero4 i). rewrite ent_zero. apply derivable_pt_lim_const. }
    assert (P := derive_mul (fun _ => G s) G 0 _ _ k Z (GD 0) Hk). cbv beta in P. rewrite G0, !mul4_id_r, ent_zero, Rplus_0_l in P. exact P. }
  exact (uniqueness_limite _ _ _ _ A B).
Qed.
Lemma group_inverse t : mul4 (G t) (G (- t)) = id4.
Proof. rewrite <- GA, Rplus_opp_r. exact G0. Qed.
Lemma flow_unique F : F 0 = id4 -> (forall t, derivative_at F t (mul4 h (F t))) -> forall t, F t = G t.
Proof.
  intros F0 FD t.
  assert (N : forall s, derivative_at (fun s => G (- s)) s (neg4 (mul4 (G (- s)) h))).
  { intros s i Hi. change (derivable_pt_lim (fun s => ent (G (- s)) i) s (ent (neg4 (mul4 (G (- s)) h)) i)). rewrite ent_neg, <- group_commutes.
    assert (L : derivable_pt_lim (fun s => - s) s (- (1))) by (apply (derivable_pt_lim_opp (fun s => s)), derivable_pt_lim_id).
    assert (C := derivable_pt_lim_comp (fun s => - s) (fun t => ent (G t) i) s (- (1)) _ L (GD (- s) i Hi)). unfold comp in C.
    fold (ent (mul4 h (G (- s))) i) in C. replace (- ent (mul4 h (G (- s))) i) with (ent (mul4 h (G (- s))) i * - (1)) by ring. exact C. }
  assert (Z : forall k, (k < 16)%nat -> forall s, derivable_pt_lim (fun s => ent (mul4 (G (- s)) (F s)) k) s 0).
  { intros k Hk s. assert (P := derive_mul _ _ s _ _ k (N s) (FD s) Hk). cbv beta in P. rewrite neg_mul_l, ent_neg, mul4_assoc in P.
    replace (- ent (mul4 (G (- s)) (mul4 h (F s))) k + ent (mul4 (G (- s)) (mul4 h (F s))) k) with 0 in P by ring. exact P. }
  assert (E : mul4 (G (- t)) (F t) = id4).
  { transitivity (mul4 (G (- 0)) (F 0)).
    - apply ent_ext. intros k Hk. assert (pr : derivable (fun s => ent (mul4 (G (- s)) (F s)) k)) by (intros s; exists 0; apply Z, Hk).
      assert (C : constant (fun s => ent (mul4 (G (- s)) (F s)) k)).
      { apply (null_derivative_1 _ pr). intros s. apply derive_pt_eq_0. apply Z, Hk. }
      apply C.
    - rewrite Ropp_0, G0, F0. apply mul4_id_l. }
  rewrite <- (mul4_id_l (F t)), <- (group_inverse t), mul4_assoc, E, mul4_id_r. reflexivity.
Qed.
End Group.

(** The flow of the field of v and w. *)
Definition path (v w : r3) (t : R) : r44 :=
  if Req_EM_T (len3 w) 0 then slide v t else screw (scale3 (/ len3 w) w) (scale3 (/ len3 w) v) (t * len3 w).
Lemma path_group v w : path v w 0 = id4 /\ (forall s t, path v w (s + t) = mul4 (path v w s) (path v w t)) /\
  (forall t, derivative_at (path v w) t (mul4 (field v w) (path v w t))) /\ forall t, is_rigid (path v w t).
Proof.
  rewrite field_hat. unfold path. destruct (Req_EM_T (len3 w) 0) as [Z|Z].
  - split; [apply slide_0|]. split; [apply slide_add|]. split.
    + destruct (exp_solves v w (or_introl Z)) as (F & E & _ & D). assert (X : forall t, F t = slide v t).
      { intros t. specialize (E t). rewrite exp_sliding in E by (left; exact Z). injection E as E. symmetry. exact E. }
      intros t k Hk. rewrite <- X. eapply derive_ext; [|apply D, Hk]. intros s. cbv beta. rewrite X. reflexivity.
    + intros t. exists id3, (scale3 t v). split; [exact rot_id|reflexivity].
  - pose proof (len3_nonneg w) as N. assert (P : 0 < len3 w) by lra. pose proof (unit_of w P) as U. split; [rewrite Rmult_0_l; apply screw_0|].
    split; [intros s t; rewrite Rmult_plus_distr_r; apply screw_add; exact U|]. split.
    + intros t. replace (TwistHat ra (v, w)) with (TwistHat ra (scale3 (len3 w) (scale3 (/ len3 w) v), scale3 (len3 w) (scale3 (/ len3 w) w))).
      * apply screw_derivative. exact U.
      * apply f_equal. clear U N. generalize dependent (len3 w). intros n Zn Pn. destruct v as [[a b] c], w as [[x y] z]. unfold scale3. tuples; field; exact Zn.
    + intros t. eexists. eexists. split; [|reflexivity]. destruct (scale3 (/ len3 w) w) as [[a b] c]. apply rod_rotation. exact U.
Qed.
Lemma flows_path v w m : flows_to (field v w) m <-> path v w 1 = m.
Proof.
  destruct (path_group v w) as (G0 & GA & GD & _). split.
  - intros (F & F0 & FD & <-). symmetry. exact (flow_unique _ _ G0 GA GD F F0 FD 1).
  - intros <-. exists (path v w). split; [exact G0|]. split; [exact GD|reflexivity].
Qed.
Lemma exp_path v w t : len3 w = 0 \/ tiny <= len3 w \/ len3 v < tiny -> ExpTwist ra sin cos (v, w) t = Ok (path v w t).
Proof.
  intros C. unfold path. destruct (Req_EM_T (len3 w) 0) as [Z|Z]; [apply exp_sliding; left; exact Z|]. pose proof (len3_nonneg w). apply exp_turning; [lra|]. destruct C as [C|C]; [contradiction|exact C].
Qed.
