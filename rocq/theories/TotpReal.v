(** Exact scalars (TotpScalar.v): the operations on finite values. *)
From Coq Require Import Reals Lra Psatz List Bool Lia.
From Flocq Require Import Core.
From Verif Require Import Base MathModel MathReal MathLinModel MathVec MathLinProof TotpModel TotpScalar TotpRealSpec.
Local Open Scope R_scope.
Notation xa := xarith.

Lemma xdiv_fin a b : b <> 0 -> xdiv (XFin a) (XFin b) = XFin (a / b).
Proof. intros H. cbn. now rewrite Req_bool_false. Qed.
Lemma xsub_fin a b : xsub (XFin a) (XFin b) = XFin (a - b). Proof. reflexivity. Qed.
Lemma xltb_fin a b : xltb (XFin a) (XFin b) = Rlt_bool a b. Proof. reflexivity. Qed.
Lemma xltb_lt a b : xltb (XFin a) (XFin b) = true <-> a < b.
Proof. cbn. destruct (Rlt_bool_spec a b); split; intros; auto; try discriminate; lra. Qed.
Lemma xltb_ge a b : xltb (XFin a) (XFin b) = false <-> b <= a.
Proof. cbn. destruct (Rlt_bool_spec a b); split; intros; auto; try discriminate; lra. Qed.
Lemma xleb_le a b : xleb (XFin a) (XFin b) = true <-> a <= b.
Proof.
  unfold xleb. cbn. destruct (Rlt_bool_spec a b); [split; intros; auto; lra|].
  destruct (Req_bool_spec a b); cbn; split; intros; auto; try discriminate; lra.
Qed.
Lemma xleb_gt a b : xleb (XFin a) (XFin b) = false <-> b < a.
Proof.
  destruct (xleb (XFin a) (XFin b)) eqn:e; split; intros H; auto; try discriminate.
  - apply xleb_le in e. lra.
  - destruct (Rlt_or_le b a); auto. apply xleb_le in H0. congruence.
Qed.
Lemma xeqb_0 a : xeqb (XFin a) (XFin 0) = true <-> a = 0.
Proof. cbn. destruct (Req_bool_spec a 0); split; intros; auto; try discriminate; contradiction. Qed.
Lemma smin_fin a b : std_min xa (XFin a) (XFin b) = XFin (Rmin a b).
Proof.
  unfold std_min. cbn. unfold Rmin. destruct (Rlt_bool_spec b a), (Rle_dec a b); f_equal; lra.
Qed.
Lemma smax_fin a b : std_max xa (XFin a) (XFin b) = XFin (Rmax a b).
Proof.
  unfold std_max. cbn. unfold Rmax. destruct (Rlt_bool_spec a b), (Rle_dec a b); f_equal; lra.
Qed.
Lemma smin_inf a : std_min xa (XFin a) (XInf false) = XFin a. Proof. reflexivity. Qed.
Lemma smin_nan a : std_min xa a XNan = a. Proof. destruct a as [| []|]; reflexivity. Qed.
Lemma xsqrt_fin a : 0 <= a -> xsqrt (XFin a) = XFin (sqrt a).
Proof. intros H. cbn. rewrite Rlt_bool_false; auto. Qed.

Lemma fin_length u : length (fin u) = length u. Proof. apply map_length. Qed.
Lemma fin_zip f g u v : (forall a b, f (XFin a) (XFin b) = XFin (g a b)) -> zip_with f (fin u) (fin v) = fin (zip_with g u v).
Proof. intros H. revert v. induction u as [|x u IH]; intros [|y v]; cbn; auto. now rewrite H, <- IH. Qed.
Lemma fin_sub u v : length u = length v -> eig_sub xa (fin u) (fin v) = Ok (fin (vsub u v)).
Proof. intros H. unfold eig_sub, eig_zip. rewrite !fin_length, H, Nat.eqb_refl. f_equal. now apply fin_zip. Qed.
Lemma fin_add u v : length u = length v -> eig_add xa (fin u) (fin v) = Ok (fin (vadd u v)).
Proof. intros H. unfold eig_add, eig_zip. rewrite !fin_length, H, Nat.eqb_refl. f_equal. now apply fin_zip. Qed.
Lemma fin_dot_acc : forall u v s, fold_left (fun s p => xadd s (xmul (fst p) (snd p))) (combine (fin u) (fin v)) (XFin s) = XFin (s + dot u v).
Proof.
  induction u as [|x u IH]; intros [|y v] s; cbn [fin map combine fold_left dot]; try (f_equal; lra).
  fold (fin u) (fin v). cbn [fst snd xmul xadd]. rewrite IH. f_equal. lra.
Qed.
Lemma fin_dot u v : eig_dot xa (fin u) (fin v) = XFin (dot u v).
Proof. unfold eig_dot. etransitivity; [apply fin_dot_acc|]. f_equal. lra. Qed.
Lemma fin_norm u : eig_norm xa (fin u) = XFin (norm u).
Proof. unfold eig_norm. rewrite fin_dot. cbn [xa asqrt]. now rewrite xsqrt_fin by apply dot_nonneg. Qed.
Lemma fin_scale u c : eig_scale xa (fin u) (XFin c) = fin (vscale c u).
Proof. unfold eig_scale, fin, vscale. rewrite !map_map. apply map_ext. intros x. cbn. f_equal. lra. Qed.
Lemma fin_scale_l u c : map (fun x => amul xa (XFin c) x) (fin u) = fin (vscale c u).
Proof. unfold fin, vscale. rewrite !map_map. apply map_ext. intros x. reflexivity. Qed.
Lemma fin_over u c : c <> 0 -> eig_over xa (fin u) (XFin c) = fin (vscale (/ c) u).
Proof. intros H. unfold eig_over, fin, vscale. rewrite !map_map. apply map_ext. intros x. cbn [xa adiv]. rewrite xdiv_fin by exact H. f_equal. unfold Rdiv. ring. Qed.
Lemma fin_opp u : eig_opp xa (fin u) = fin (vscale (-1) u).
Proof. unfold eig_opp, fin, vscale. rewrite !map_map. apply map_ext. intros x. cbn. f_equal. lra. Qed.
Definition unit_of (u : list R) : list R := vscale (/ norm u) u.
Lemma norm_pos_dot u : 0 < norm u <-> 0 < dot u u.
Proof.
  unfold norm. split; intros H.
  - destruct (Rle_lt_or_eq_dec 0 (dot u u) (dot_nonneg u)) as [|e]; [assumption|]. rewrite <- e, sqrt_0 in H. lra.
  - now apply sqrt_lt_R0.
Qed.
Lemma fin_normalized u : 0 < norm u -> eig_normalized xa (fin u) = fin (unit_of u).
Proof.
  intros H. unfold eig_normalized. rewrite fin_dot. cbn [xa altb a_of asqrt].
  rewrite (proj2 (xltb_lt 0 (dot u u))) by now apply norm_pos_dot.
  rewrite xsqrt_fin by apply dot_nonneg. change (sqrt (dot u u)) with (norm u). rewrite fin_over by lra. reflexivity.
Qed.
Lemma fin_zero n : eig_zero xa n = fin (repeat 0 n).
Proof. unfold eig_zero, fin. induction n as [|n IH]; cbn; [reflexivity|]. f_equal. exact IH. Qed.
Lemma fin_get u i : (i < length u)%nat -> raw_get (fin u) i = Ok (XFin (nth i u 0)).
Proof.
  intros H. unfold raw_get, fin. rewrite nth_error_map.
  rewrite (nth_error_nth' u 0 H). reflexivity.
Qed.

(** Loops over all joints. *)
Lemma mfold_seq {S} (P : nat -> S -> Prop) (f : S -> nat -> outcome S) : forall n a s, P a s ->
  (forall k s, (a <= k < a + n)%nat -> P k s -> exists s', f s k = Ok s' /\ P (Datatypes.S k) s') ->
  exists s', mfold f s (seq a n) = Ok s' /\ P (a + n)%nat s'.
Proof.
  induction n as [|n IH]; intros a s H F; cbn [seq mfold].
  - rewrite Nat.add_0_r. eauto.
  - destruct (F a s) as (s1 & E & P1); [lia|exact H|]. rewrite E. cbn [bind].
    destruct (IH (Datatypes.S a) s1 P1) as (s2 & E2 & P2); [intros k s' K; apply F; lia|].
    exists s2. split; [exact E2|]. now rewrite Nat.add_succ_r.
Qed.
