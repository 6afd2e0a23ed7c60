(** Bilinear and trilinear interpolation and vector distances in exact arithmetic. *)
From Coq Require Import Reals Lra Psatz.
From Flocq Require Import Core.
From Verif Require Import Base UtilityModel MathModel MathReal MathSpec MathProof MathVec.
Local Open Scope R_scope.

(** Reproducing functions that are affine in each coordinate. *)
Lemma linear_affine lo hi a b q : lo <> hi -> LinearInterpolate real_arith lo hi (a + b * lo) (a + b * hi) q = a + b * q.
Proof. intros H. rewrite linear_real by exact H. field. lra. Qed.
Lemma bilinear_affine lx ly hx hy (f : R -> R -> R) a b c d qx qy : lx <> hx -> ly <> hy ->
  (forall x y, f x y = a + b * x + c * y + d * x * y) ->
  BilinearInterpolate real_arith (lx, ly) (hx, hy) (f lx ly) (f lx hy) (f hx ly) (f hx hy) (qx, qy) = f qx qy.
Proof.
  intros Hx Hy F. unfold BilinearInterpolate. cbn [fst snd]. rewrite !F, !linear_real by assumption. field. split; lra.
Qed.
Lemma trilinear_affine lx ly lz hx hy hz (f : R -> R -> R -> R) a b c d e g h i qx qy qz : lx <> hx -> ly <> hy -> lz <> hz ->
  (forall x y z, f x y z = a + b * x + c * y + d * z + e * x * y + g * x * z + h * y * z + i * x * y * z) ->
  TrilinearInterpolate real_arith (lx, ly, lz) (hx, hy, hz) (f lx ly lz) (f lx ly hz) (f lx hy lz) (f lx hy hz) (f hx ly lz) (f hx ly hz) (f hx hy lz) (f hx hy hz) (qx, qy, qz) = f qx qy qz.
Proof.
  intros Hx Hy Hz F. unfold TrilinearInterpolate. cbn [fst snd].
  rewrite (bilinear_affine lx ly hx hy (fun x y => f x y lz) (a + d * lz) (b + g * lz) (c + h * lz) (e + i * lz)) by (try assumption; intros; rewrite F; ring).
  rewrite (bilinear_affine lx ly hx hy (fun x y => f x y hz) (a + d * hz) (b + g * hz) (c + h * hz) (e + i * hz)) by (try assumption; intros; rewrite F; ring).
  rewrite linear_real by assumption. rewrite !F. field. lra.
Qed.
Lemma bilinear_hull lx ly hx hy v1 v2 v3 v4 qx qy a b : lx < hx -> ly < hy -> lx <= qx <= hx -> ly <= qy <= hy ->
  a <= v1 <= b -> a <= v2 <= b -> a <= v3 <= b -> a <= v4 <= b ->
  a <= BilinearInterpolate real_arith (lx, ly) (hx, hy) v1 v2 v3 v4 (qx, qy) <= b.
Proof. intros. unfold BilinearInterpolate. cbn [fst snd]. repeat apply linear_hull; assumption. Qed.
Lemma trilinear_hull lx ly lz hx hy hz v1 v2 v3 v4 v5 v6 v7 v8 qx qy qz a b : lx < hx -> ly < hy -> lz < hz ->
  lx <= qx <= hx -> ly <= qy <= hy -> lz <= qz <= hz ->
  a <= v1 <= b -> a <= v2 <= b -> a <= v3 <= b -> a <= v4 <= b -> a <= v5 <= b -> a <= v6 <= b -> a <= v7 <= b -> a <= v8 <= b ->
  a <= TrilinearInterpolate real_arith (lx, ly, lz) (hx, hy, hz) v1 v2 v3 v4 v5 v6 v7 v8 (qx, qy, qz) <= b.
Proof. intros. unfold TrilinearInterpolate. cbn [fst snd]. apply linear_hull; try assumption; apply bilinear_hull; assumption. Qed.
Lemma trilinear_corners lx ly lz hx hy hz (v : bool -> bool -> bool -> R) (cx cy cz : bool) : lx <> hx -> ly <> hy -> lz <> hz ->
  TrilinearInterpolate real_arith (lx, ly, lz) (hx, hy, hz) (v false false false) (v false false true) (v false true false) (v false true true)
    (v true false false) (v true false true) (v true true false) (v true true true)
    (if cx then hx else lx, if cy then hy else ly, if cz then hz else lz) = v cx cy cz.
Proof.
  intros Hx Hy Hz. unfold TrilinearInterpolate, BilinearInterpolate. cbn [fst snd]. rewrite !linear_real by assumption.
  destruct cx, cy, cz; field; repeat split; lra.
Qed.

(** Distances. *)
Lemma sq_sum_dot p q : length p = length q ->
  fold_left (fun s d => s + d * d) (zip_with (fun x y => y - x) p q) 0 = dot (vsub q p) (vsub q p).
Proof.
  intros E. rewrite (fold_left_plus (fun d => d * d)). rewrite Rplus_0_l. revert q E.
  induction p as [|x p IH]; intros [|y q] E; try discriminate; unfold vsub; cbn [zip_with map fold_right dot]; [reflexivity|].
  cbn in E. rewrite IH by lia. reflexivity.
Qed.
Lemma distance_real p q : length p = length q -> Distance real_arith p q = Ok (norm (vsub q p)).
Proof.
  intros E. unfold Distance, SquaredDistance. rewrite E, Nat.eqb_refl. cbn [bind aadd amul asub a_of asqrt real_arith].
  rewrite sq_sum_dot by exact E. reflexivity.
Qed.
Lemma vsub_opp p q : length p = length q -> vsub p q = vscale (-1) (vsub q p).
Proof.
  revert q. induction p as [|x p IH]; intros [|y q] E; try discriminate; unfold vsub, vscale in *; cbn [zip_with map]; [reflexivity|].
  cbn in E. rewrite IH by lia. f_equal. ring.
Qed.
Lemma vsub_split p q r : length p = length q -> length q = length r -> vsub r p = vadd (vsub q p) (vsub r q).
Proof.
  revert q r. induction p as [|x p IH]; intros [|y q] [|z r] E1 E2; try discriminate; unfold vsub, vadd in *; cbn [zip_with]; [reflexivity|].
  cbn in E1, E2. rewrite (IH q r) by lia. f_equal. ring.
Qed.
Lemma norm_sym p q : length p = length q -> norm (vsub q p) = norm (vsub p q).
Proof. intros E. rewrite (vsub_opp p q E), norm_scale. rewrite Rabs_left by lra. ring. Qed.
Lemma norm_sub_triangle p q r : length p = length q -> length q = length r -> norm (vsub r p) <= norm (vsub q p) + norm (vsub r q).
Proof.
  intros E1 E2. rewrite (vsub_split p q r E1 E2). apply norm_triangle. unfold vsub. rewrite !zip_length by lia. lia.
Qed.
Lemma norm_sub_zero p q : length p = length q -> norm (vsub q p) = 0 <-> p = q.
Proof.
  intros E. unfold norm. split; intros H.
  - apply sqrt_eq_0 in H; [|apply dot_nonneg]. apply dot_zero in H. revert q E H.
    induction p as [|x p IH]; intros [|y q] E H; try discriminate; [reflexivity|]. unfold vsub in H. cbn [zip_with] in H. inversion H; subst.
    cbn in E. f_equal; [lra|]. apply IH; [lia|assumption].
  - subst q. replace (dot (vsub p p) (vsub p p)) with 0; [apply sqrt_0|]. symmetry. apply dot_zero. clear E.
    induction p as [|x p IH]; unfold vsub in *; cbn [zip_with]; constructor; [ring|exact IH].
Qed.
