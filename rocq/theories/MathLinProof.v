(** Proofs about MathLinModel.v in exact arithmetic. *)
From Coq Require Import Reals Lra Psatz Nsatz.
From Flocq Require Import Core.
From Verif Require Import Base UtilityModel MathModel MathReal MathSpec MathVec MathLinModel MathLinSpec.
Local Open Scope R_scope.
Notation ra := real_arith.

(** ** Vectors *)
Lemma fold_dot l s : fold_left (fun s p => s + fst p * snd p) l s = s + fold_right (fun p s => fst p * snd p + s) 0 l.
Proof. revert s. induction l as [|p l IH]; intros s; cbn; [ring|]. rewrite IH. ring. Qed.
Lemma eig_dot_real u v : eig_dot ra u v = dot u v.
Proof.
  unfold eig_dot. change (fold_left (fun s p => s + fst p * snd p) (combine u v) 0 = dot u v). rewrite fold_dot, Rplus_0_l.
  revert v. induction u as [|x u IH]; intros [|y v]; cbn; auto. rewrite IH. reflexivity.
Qed.
Lemma eig_norm_real u : eig_norm ra u = norm u.
Proof. unfold eig_norm, norm. rewrite eig_dot_real. reflexivity. Qed.
Lemma eig_sub_real u v : length u = length v -> eig_sub ra u v = Ok (vsub u v).
Proof. intros E. unfold eig_sub, eig_zip. rewrite E, Nat.eqb_refl. reflexivity. Qed.
Lemma eig_add_real u v : length u = length v -> eig_add ra u v = Ok (vadd u v).
Proof. intros E. unfold eig_add, eig_zip. rewrite E, Nat.eqb_refl. reflexivity. Qed.
Lemma vsub_length u v : length u = length v -> length (vsub u v) = length u. Proof. apply zip_length. Qed.
Lemma vadd_length u v : length u = length v -> length (vadd u v) = length u. Proof. apply zip_length. Qed.
Lemma map_scale (c : R) u : map (fun x => amul ra c x) u = vscale c u. Proof. reflexivity. Qed.
Lemma map_scale_r (c : R) u : map (fun x => amul ra x c) u = vscale c u.
Proof. apply map_ext. intros x. cbn. ring. Qed.
Lemma zeros_scale n : repeat 0 n = vscale 0 (repeat 0 n).
Proof. induction n as [|n IH]; [reflexivity|]. cbn. f_equal; [ring|exact IH]. Qed.
Lemma scale_zero u : vscale 0 u = repeat 0 (length u).
Proof. induction u as [|x u IH]; [reflexivity|]. cbn. f_equal; [ring|exact IH]. Qed.
Lemma sub_add u p : length u = length p -> vadd p (vsub u p) = u.
Proof. unfold vadd, vsub. revert p. induction u as [|x u IH]; intros [|y p] E; try discriminate; cbn; [reflexivity|]. f_equal; [ring|]. apply IH. cbn in E; lia. Qed.

(** The coefficient of the projection. *)
Definition coef (b v : list R) : R := if Rlt_dec 0 (dot b b) then dot b v / dot b b else 0.
Lemma dot_pos_or b : 0 < dot b b \/ (dot b b = 0 /\ Forall (fun x => x = 0) b).
Proof. pose proof (dot_nonneg b). destruct (Req_dec (dot b b) 0) as [E|E]; [right; split; [exact E|]; apply dot_zero; exact E|left; lra]. Qed.
Lemma projection_real b v : length b = length v -> VectorProjection ra b v = Ok (vscale (coef b v) b).
Proof.
  intros E. unfold VectorProjection. rewrite E, Nat.eqb_refl. cbn [negb]. cbv zeta. rewrite !eig_dot_real.
  unfold coef. change (altb ra) with Rlt_bool. change (a_of ra 0) with 0. change (adiv ra) with Rdiv.
  destruct (Rlt_dec 0 (dot b b)) as [H|H].
  - rewrite Rlt_bool_true by exact H. reflexivity.
  - rewrite Rlt_bool_false by lra. f_equal. symmetry. rewrite scale_zero, E. reflexivity.
Qed.
Lemma rejection_real b v : length b = length v -> VectorRejection ra b v = Ok (vsub v (vscale (coef b v) b)).
Proof. intros E. unfold VectorRejection. rewrite projection_real by exact E. cbn [bind]. apply eig_sub_real. rewrite vscale_length. auto. Qed.
Lemma coef_dot b v : coef b v * dot b b = dot b v.
Proof.
  unfold coef. destruct (Rlt_dec 0 (dot b b)) as [H|H]; [field; lra|]. destruct (dot_pos_or b) as [H'|[H' F]]; [lra|].
  rewrite (dot_zero_l b v F). ring.
Qed.
Lemma reject_orthogonal b v : length b = length v -> dot b (vsub v (vscale (coef b v) b)) = 0.
Proof. intros E. rewrite dot_comm, dot_sub by (rewrite vscale_length; auto). rewrite dot_scale, coef_dot, dot_comm. ring. Qed.
Lemma dot_sub_sq u v : length u = length v -> dot (vsub u v) (vsub u v) = dot u u - 2 * dot u v + dot v v.
Proof.
  intros E. rewrite dot_sub by exact E. rewrite (dot_comm u (vsub u v)), (dot_comm v (vsub u v)), !dot_sub by exact E.
  rewrite (dot_comm v u). ring.
Qed.
Lemma reject_norm b v : length b = length v ->
  dot (vsub v (vscale (coef b v) b)) (vsub v (vscale (coef b v) b)) = dot v v - coef b v * dot b v.
Proof.
  intros E. rewrite dot_sub_sq by (rewrite vscale_length; auto). rewrite (dot_comm v (vscale _ b)), !dot_scale.
  rewrite (dot_comm b (vscale _ b)), dot_scale. pose proof (coef_dot b v) as C. rewrite C. ring.
Qed.
Lemma proj_closest b v c : length b = length v ->
  dot (vsub v (vscale (coef b v) b)) (vsub v (vscale (coef b v) b)) <= dot (vsub v (vscale c b)) (vsub v (vscale c b)).
Proof.
  intros E. rewrite reject_norm by exact E. rewrite dot_sub_sq by (rewrite vscale_length; auto). rewrite (dot_comm v (vscale c b)), !dot_scale.
  rewrite (dot_comm b (vscale c b)), dot_scale. pose proof (coef_dot b v) as C. pose proof (dot_nonneg b).
  replace (dot v v - 2 * (c * dot b v) + c * (c * dot b b)) with (dot v v - coef b v * dot b v + (c - coef b v) * (c - coef b v) * dot b b) by (rewrite <- C; ring).
  pose proof (Rle_0_sqr (c - coef b v)) as S. unfold Rsqr in S. nra.
Qed.

(** ClampNorm. *)
Lemma clamp_norm_real v m : ClampNorm ra v m = if Rlt_dec m (norm v) then vscale (m / norm v) v else v.
Proof.
  unfold ClampNorm. cbv zeta. rewrite eig_norm_real. change (altb ra) with Rlt_bool. destruct (Rlt_dec m (norm v)) as [H|H].
  - rewrite Rlt_bool_true by exact H. apply map_scale_r.
  - rewrite Rlt_bool_false by lra. reflexivity.
Qed.
Lemma vscale_1 v : vscale 1 v = v. Proof. unfold vscale. rewrite <- (map_id v) at 2. apply map_ext. intros. ring. Qed.

(** ** Orthogonal vectors *)
Lemma unit_length n i : length (unit_vector ra n i) = n.
Proof. unfold unit_vector. rewrite upd_length, repeat_length. reflexivity. Qed.
Lemma dot_unit b : forall i, (i < length b)%nat -> dot b (unit_vector ra (length b) i) = nth i b 0.
Proof.
  unfold unit_vector. induction b as [|x b IH]; intros [|i] H; cbn in H; try lia; cbn [length repeat upd dot nth].
  - change (a_of ra 1) with 1. change (a_of ra 0) with 0. rewrite dot_comm, dot_zero_l; [ring|]. apply Forall_forall. intros y Hy. apply repeat_spec in Hy. exact Hy.
  - rewrite IH by lia. change (a_of ra 0) with 0. ring.
Qed.
Lemma unit_norm n i : (i < n)%nat -> dot (unit_vector ra n i) (unit_vector ra n i) = 1.
Proof.
  unfold unit_vector. revert i. induction n as [|n IH]; intros [|i] H; try lia; cbn [repeat upd dot].
  - change (a_of ra 1) with 1. change (a_of ra 0) with 0. rewrite dot_zero_l; [ring|]. apply Forall_forall. intros y Hy. apply repeat_spec in Hy. exact Hy.
  - rewrite IH by lia. change (a_of ra 0) with 0. ring.
Qed.
Lemma loop_ok b idxs : Forall (fun i => (i < length b)%nat) idxs ->
  (exists i r, In i idxs /\ orthogonal_loop ra b idxs = Ok r /\ r = vsub (unit_vector ra (length b) i) (vscale (coef b (unit_vector ra (length b) i)) b) /\ 0 < dot r r)
  \/ (orthogonal_loop ra b idxs = Throw RuntimeError /\
      forall i, In i idxs -> coef b (unit_vector ra (length b) i) * nth i b 0 = 1).
Proof.
  induction 1 as [|i idxs H F IH]; [right; split; [reflexivity|intros i []]|]. cbn [orthogonal_loop].
  rewrite rejection_real by (symmetry; apply unit_length). cbn [bind]. rewrite eig_dot_real. change (altb ra) with Rlt_bool. change (a_of ra 0) with 0.
  set (r := vsub (unit_vector ra (length b) i) _). pose proof (reject_norm b (unit_vector ra (length b) i) ltac:(symmetry; apply unit_length)) as N. fold r in N.
  rewrite unit_norm, dot_unit in N by exact H.
  destruct (Rlt_dec 0 (dot r r)) as [P|P].
  - rewrite Rlt_bool_true by exact P. left. exists i, r. cbn [In]. auto.
  - rewrite Rlt_bool_false by lra. destruct IH as [(j & q & J1 & J2)|[J1 J2]].
    + left. exists j, q. split; [right; exact J1|exact J2].
    + right. split; [exact J1|]. intros j [<- |Hj]; [|apply J2; exact Hj]. pose proof (dot_nonneg r). lra.
Qed.
Lemma sum_le (b : list R) i : (i < length b)%nat -> nth i b 0 * nth i b 0 <= dot b b.
Proof.
  revert i. induction b as [|x b IH]; intros [|i] H; cbn in *; try lia; pose proof (dot_nonneg b).
  - lra.
  - specialize (IH i ltac:(lia)). nra.
Qed.
Lemma two_le (b : list R) i j : (i < j < length b)%nat -> nth i b 0 * nth i b 0 + nth j b 0 * nth j b 0 <= dot b b.
Proof.
  revert i j. induction b as [|x b IH]; intros [|i] [|j] H; cbn in *; try lia.
  - pose proof (sum_le b j ltac:(lia)). lra.
  - specialize (IH i j ltac:(lia)). nra.
Qed.
Lemma orthogonal_found b : (2 <= length b)%nat -> exists r, GetArbitraryOrthogonalVector ra b = Ok r /\
  length r = length b /\ dot b r = 0 /\ 0 < dot r r.
Proof.
  intros L. unfold GetArbitraryOrthogonalVector. replace (0 <? length b)%nat with true by (symmetry; apply Nat.ltb_lt; lia).
  destruct (loop_ok b (seq 0 (length b))) as [(i & r & I & E & -> & P)|[E C]].
  - apply Forall_forall. intros i I. apply in_seq in I. lia.
  - eexists. split; [exact E|]. split; [rewrite vsub_length; [apply unit_length|rewrite vscale_length; apply unit_length]|].
    split; [apply reject_orthogonal; symmetry; apply unit_length|exact P].
  - exfalso. assert (A : forall i, (i < length b)%nat -> nth i b 0 * nth i b 0 = dot b b).
    { intros i H. assert (In i (seq 0 (length b))) as I by (apply in_seq; lia). specialize (C i I).
      pose proof (coef_dot b (unit_vector ra (length b) i)) as D. rewrite dot_unit in D by exact H.
      assert (coef b (unit_vector ra (length b) i) <> 0) by (intros Z; rewrite Z in C; lra).
      apply (Rmult_eq_reg_l (coef b (unit_vector ra (length b) i))); [|assumption]. rewrite D, <- Rmult_assoc, C. ring. }
    pose proof (two_le b 0 1 ltac:(lia)) as T. rewrite (A 0%nat), (A 1%nat) in T by lia. pose proof (dot_nonneg b).
    assert (Z : dot b b = 0) by lra. specialize (C 0%nat ltac:(apply in_seq; lia)). pose proof (A 0%nat ltac:(lia)) as A0. rewrite Z in A0.
    assert (nth 0 b 0 = 0) as E0 by nra. rewrite E0 in C. lra.
Qed.
Lemma orthogonal_one x : x <> 0 -> GetArbitraryOrthogonalVector ra [x] = Throw RuntimeError.
Proof.
  intros N. unfold GetArbitraryOrthogonalVector. change (0 <? length [x])%nat with true. change (seq 0 (length [x])) with [0%nat].
  destruct (loop_ok [x] [0%nat]) as [(i & r & I & E & Er & P)|[E _]]; [repeat constructor| |exact E]. exfalso.
  destruct I as [<- |[]]. assert (D : dot [x] r = 0) by (rewrite Er; apply reject_orthogonal; reflexivity).
  assert (L : length r = 1%nat) by (rewrite Er; reflexivity). destruct r as [|y [|? ?]]; try discriminate. cbn [dot] in D, P. assert (x * y = 0) as D2 by lra. apply Rmult_integral in D2. destruct D2 as [D2|D2]; [contradiction|]. rewrite D2 in P. lra.
Qed.

(** ** Hyperplanes *)
Lemma dot_vadd_sq u v : length u = length v -> dot (vadd u v) (vadd u v) = dot u u + 2 * dot u v + dot v v.
Proof.
  intros E. rewrite dot_add by exact E. rewrite (dot_comm u (vadd u v)), (dot_comm v (vadd u v)), !dot_add by exact E.
  rewrite (dot_comm v u). ring.
Qed.
Lemma vsub_add_l o q : length o = length q -> vsub (vadd o q) o = q.
Proof. unfold vadd, vsub. revert q. induction o as [|x o IH]; intros [|y q] E; try discriminate; cbn; [reflexivity|]. f_equal; [ring|]. apply IH. cbn in E; lia. Qed.
Lemma vsub_sub a b c : length a = length b -> length b = length c -> vsub (vsub a c) (vsub b c) = vsub a b.
Proof. unfold vsub. revert b c. induction a as [|x a IH]; intros [|y b] [|z c] E F; try discriminate; cbn; [reflexivity|]. f_equal; [ring|]. apply IH; cbn in *; lia. Qed.
Lemma vsub_self_scale v c b : length v = length b -> vsub v (vsub v (vscale c b)) = vscale c b.
Proof. unfold vsub, vscale. revert b. induction v as [|x v IH]; intros [|y b] E; try discriminate; cbn; [reflexivity|]. f_equal; [ring|]. apply IH. cbn in E; lia. Qed.

(** ** Weighted products *)
Lemma weighted_real u v w : length u = length v -> length u = length w -> WeightedDotProduct ra u v w = Ok (weighted_dot u v w).
Proof.
  intros E F. unfold WeightedDotProduct, eig_zip. rewrite F, Nat.eqb_refl. cbn [bind].
  rewrite zip_length by exact F. rewrite <- E, Nat.eqb_refl. cbn [negb]. rewrite eig_dot_real. f_equal.
  revert v w E F. induction u as [|x u IH]; intros [|y v] [|z w] E F; try discriminate; cbn; [reflexivity|]. rewrite IH by (cbn in *; lia). ring.
Qed.
Lemma weighted_scaled u v w : Forall (fun z => 0 <= z) w -> length u = length v -> length u = length w ->
  weighted_dot u v w = dot (zip_with (fun x z => sqrt z * x) u w) (zip_with (fun x z => sqrt z * x) v w).
Proof.
  intros P. revert u v. induction P as [|z w Hz P IH]; intros [|x u] [|y v] E F; try discriminate; cbn; [reflexivity|].
  rewrite IH by (cbn in *; lia). replace (sqrt z * x * (sqrt z * y)) with (sqrt z * sqrt z * (x * y)) by ring. rewrite sqrt_sqrt by exact Hz. ring.
Qed.
Lemma weighted_nonneg u w : Forall (fun z => 0 <= z) w -> length u = length w -> 0 <= weighted_dot u u w.
Proof. intros P E. rewrite weighted_scaled by auto. apply dot_nonneg. Qed.
Lemma zip_length2 (f : R -> R -> R) u v : length u = length v -> length (zip_with f u v) = length v.
Proof. intros E. rewrite zip_length by exact E. exact E. Qed.
Lemma weighted_cauchy u v w : Forall (fun z => 0 <= z) w -> length u = length v -> length u = length w ->
  Rabs (weighted_dot u v w) <= sqrt (weighted_dot u u w) * sqrt (weighted_dot v v w).
Proof.
  intros P E F. rewrite !weighted_scaled by (auto; congruence). apply cauchy_norm. rewrite !zip_length2 by congruence. reflexivity.
Qed.
