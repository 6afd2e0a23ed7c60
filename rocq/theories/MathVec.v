(** Vectors of reals as lists: inner product, Cauchy-Schwarz, triangle inequality. *)
From Coq Require Import Reals Lra Psatz.
From Verif Require Import Base MathModel MathReal.
Local Open Scope R_scope.

Fixpoint dot (u v : list R) : R := match u, v with x :: u', y :: v' => x * y + dot u' v' | _, _ => 0 end.
Definition vsub (u v : list R) : list R := zip_with Rminus u v.
Definition vadd (u v : list R) : list R := zip_with Rplus u v.
Definition vscale (c : R) (u : list R) : list R := map (Rmult c) u.
Definition norm (u : list R) : R := sqrt (dot u u).

Lemma zip_length {f : R -> R -> R} u v : length u = length v -> length (zip_with f u v) = length u.
Proof. revert v. induction u as [|x u IH]; intros [|y v] E; try discriminate; cbn; [reflexivity|]. f_equal. apply IH. cbn in E. lia. Qed.
Lemma vscale_length c u : length (vscale c u) = length u. Proof. apply map_length. Qed.
Lemma dot_comm u v : dot u v = dot v u.
Proof. revert v. induction u as [|x u IH]; intros [|y v]; cbn; auto. rewrite IH. ring. Qed.
Lemma dot_add u v w : length u = length v -> dot (vadd u v) w = dot u w + dot v w.
Proof.
  unfold vadd. revert v w. induction u as [|x u IH]; intros [|y v] w E; try discriminate; cbn [zip_with dot]; [ring|].
  destruct w as [|z w]; [lra|]. rewrite IH by (cbn in E; lia). ring.
Qed.
Lemma dot_sub u v w : length u = length v -> dot (vsub u v) w = dot u w - dot v w.
Proof.
  unfold vsub. revert v w. induction u as [|x u IH]; intros [|y v] w E; try discriminate; cbn [zip_with dot]; [ring|].
  destruct w as [|z w]; [lra|]. rewrite IH by (cbn in E; lia). ring.
Qed.
Lemma dot_scale c u w : dot (vscale c u) w = c * dot u w.
Proof. revert w. induction u as [|x u IH]; intros w; cbn [vscale map dot]; [lra|]. destruct w as [|z w]; [lra|]. fold (vscale c u). rewrite IH. ring. Qed.
Lemma dot_nonneg u : 0 <= dot u u.
Proof. induction u as [|x u IH]; cbn; [lra|]. nra. Qed.
Lemma dot_zero u : dot u u = 0 <-> Forall (fun x => x = 0) u.
Proof.
  induction u as [|x u IH]; cbn; [split; auto|]. pose proof (dot_nonneg u). split; intros H1.
  - constructor; [nra|]. apply IH. nra.
  - inversion H1; subst. apply IH in H4. rewrite H4. ring.
Qed.
Lemma dot_zero_l u w : Forall (fun x => x = 0) u -> dot u w = 0.
Proof. intros H. revert w. induction H as [|x u -> H IH]; intros w; cbn; [reflexivity|]. destruct w; [reflexivity|]. rewrite IH. ring. Qed.

Lemma cauchy u v : length u = length v -> (dot u v) ^ 2 <= dot u u * dot v v.
Proof.
  intros E. destruct (Req_dec (dot v v) 0) as [Z|Z].
  - rewrite (dot_comm u v), (dot_zero_l v u (proj1 (dot_zero v) Z)), Z. lra.
  - pose proof (dot_nonneg v) as P. 
    pose proof (dot_nonneg (vsub (vscale (dot v v) u) (vscale (dot u v) v))) as Q.
    assert (L : length (vscale (dot v v) u) = length (vscale (dot u v) v)) by (rewrite !vscale_length; exact E).
    rewrite (dot_sub _ _ _ L), !dot_scale, !(dot_comm u (vsub _ _)), !(dot_comm v (vsub _ _)), !(dot_sub _ _ _ L), !dot_scale, (dot_comm v u) in Q.
    assert (Q' : 0 <= dot v v * (dot u u * dot v v - (dot u v) ^ 2)) by nra.
    assert (0 < dot v v) by lra. nra.
Qed.
Lemma norm_nonneg u : 0 <= norm u. Proof. apply sqrt_pos. Qed.
Lemma norm_sq u : norm u * norm u = dot u u. Proof. apply sqrt_sqrt, dot_nonneg. Qed.
Lemma cauchy_norm u v : length u = length v -> Rabs (dot u v) <= norm u * norm v.
Proof.
  intros E. apply Rsqr_incr_0_var; [|apply Rmult_le_pos; apply norm_nonneg].
  rewrite <- Rsqr_abs. unfold Rsqr. replace (norm u * norm v * (norm u * norm v)) with ((norm u * norm u) * (norm v * norm v)) by ring.
  rewrite !norm_sq. pose proof (cauchy u v E). cbn in H. lra.
Qed.
Lemma norm_triangle u v : length u = length v -> norm (vadd u v) <= norm u + norm v.
Proof.
  intros E. apply Rsqr_incr_0_var; [|pose proof (norm_nonneg u); pose proof (norm_nonneg v); lra].
  unfold Rsqr. rewrite norm_sq. rewrite (dot_add _ _ _ E), !(dot_comm _ (vadd u v)), !(dot_add _ _ _ E).
  pose proof (cauchy_norm u v E) as C. apply Rabs_le_inv in C || apply Rabs_def2 in C || idtac.
  pose proof (Rle_abs (dot u v)). rewrite <- (norm_sq u), <- (norm_sq v), (dot_comm v u). lra.
Qed.
Lemma norm_scale c u : norm (vscale c u) = Rabs c * norm u.
Proof.
  unfold norm. rewrite dot_scale, dot_comm, dot_scale. rewrite <- Rmult_assoc.
  rewrite sqrt_mult_alt by nra. f_equal. rewrite <- sqrt_Rsqr_abs. reflexivity.
Qed.
