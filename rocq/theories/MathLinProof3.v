(** ExpTwist of MathLinModel.v in exact arithmetic. *)
From Coq Require Import Reals Lra Psatz.
From Flocq Require Import Core.
From Verif Require Import Base UtilityModel MathModel MathReal MathVec MathLinModel MathLinSpec MathLinProof MathLinProof2.
Local Open Scope R_scope.

(** Rotation about the unit vector u by the angle s. *)
Definition rod (u : r3) (s : R) : r33 := let '(a, b, c) := u in
  let S := sin s in let C := 1 - cos s in
  ((1 - C * (b * b + c * c), - c * S + C * (a * b), b * S + C * (a * c)),
   (c * S + C * (a * b), 1 - C * (a * a + c * c), - a * S + C * (b * c)),
   (- b * S + C * (a * c), a * S + C * (b * c), 1 - C * (a * a + b * b))).
Definition screw_translation (u v : r3) (s : R) : r3 :=
  add3 (add3 (cross3 u v) (scale3 (-1) (apply3 (rod u s) (cross3 u v)))) (scale3 (s * dot3 u v) u).
Definition screw (u v : r3) (s : R) : r44 := motion (rod u s) (screw_translation u v s).

Definition len3 (v : r3) : R := sqrt (dot3 v v).
Lemma dot3_nonneg v : 0 <= dot3 v v. Proof. destruct v as [[a b] c]. open. nra. Qed.
Lemma len3_sq v : len3 v * len3 v = dot3 v v. Proof. apply sqrt_sqrt, dot3_nonneg. Qed.
Lemma unit_of w : 0 < len3 w -> dot3 (scale3 (/ len3 w) w) (scale3 (/ len3 w) w) = 1.
Proof.
  intros H. pose proof (len3_sq w) as E. assert (len3 w <> 0) as N by lra. destruct w as [[a b] c]. set (n := len3 (a, b, c)) in *. unfold scale3. open.
  transitivity (/ n * / n * (a * a + b * b + c * c)); [ring|]. rewrite <- E. field. exact N.
Qed.
Lemma exp_matrix_unit u s : dot3 u u = 1 -> ExpMatrixExact ra sin cos (Skew ra u) s = Ok (rod u s).
Proof.
  intros H. unfold ExpMatrixExact. rewrite unskew_skew. destruct u as [[a b] c]. unfold v3_norm. open. rewrite H, sqrt_1.
  rewrite Rlt_bool_true.
  - cbv iota. apply (f_equal Ok). unfold rod. cbv zeta. tuples; ring.
  - replace (1 - 1) with 0 by ring. rewrite Rabs_R0. unfold lit_1e10. simpl_ra. change (a_of ra (10 ^ 10)) with (IZR (10 ^ 10)).
    apply Rdiv_lt_0_compat; [lra|]. apply IZR_lt. reflexivity.
Qed.
Lemma rotating_screw (v w : r3) t : 0 < len3 w ->
  exp_rotating ra sin cos v w (len3 w) t = Ok (screw (scale3 (/ len3 w) w) (scale3 (/ len3 w) v) (t * len3 w)).
Proof.
  intros H. pose proof (unit_of w H) as U. unfold exp_rotating. cbv zeta.
  assert (D : forall x : r3, v3_div ra x (len3 w) = scale3 (/ len3 w) x).
  { intros [[a b] c]. unfold scale3. open. tuples; unfold Rdiv; ring. }
  rewrite !D. simpl_ra. rewrite exp_matrix_unit by exact U. cbn [bind]. apply (f_equal Ok). unfold screw.
  assert (M : forall m p, m4_of m p (0, 0, 0, 1) = motion m p).
  { intros [[[[? ?] ?] [[? ?] ?]] [[? ?] ?]] [[? ?] ?]. reflexivity. }
  rewrite M. apply (f_equal (motion _)). unfold screw_translation. generalize (rod (scale3 (/ len3 w) w) (t * len3 w)).
  generalize (scale3 (/ len3 w) w) (scale3 (/ len3 w) v) (t * len3 w). clear. intros [[a b] c] [[x y] z] s m.
  destruct m as [[[[m1 m2] m3] [[m4 m5] m6]] [[m7 m8] m9]]. unfold add3, scale3. open. tuples; ring.
Qed.

Section U.
Variables a b c : R.
Hypothesis U : dot3 (a, b, c) (a, b, c) = 1.
Let U' : a * a + b * b + c * c = 1. Proof. exact U. Qed.
Let Ua : a * a = 1 - b * b - c * c. Proof. lra. Qed.
Lemma rod_rotation s : is_rotation (rod (a, b, c) s).
Proof.
  pose proof (sin2_cos2 s) as T. unfold Rsqr in T. unfold is_rotation, rod. cbv zeta. generalize dependent (sin s). generalize (cos s). intros C S T.
  assert (TS : S * S = 1 - C * C) by lra. split; open; [tuples|]; ring [Ua TS].
Qed.
End U.
Lemma rod_add u s t : dot3 u u = 1 -> rod u (s + t) = mul3 (rod u s) (rod u t).
Proof.
  destruct u as [[a b] c]. intros U. open. assert (Ua : a * a = 1 - b * b - c * c) by lra. unfold rod. cbv zeta. rewrite sin_plus, cos_plus.
  generalize (sin s) (cos s) (sin t) (cos t). intros S C S' C'. open. tuples; ring [Ua].
Qed.
Lemma rod_axis u s : dot3 u u = 1 -> apply3 (rod u s) u = u.
Proof.
  destruct u as [[a b] c]. intros U. open. assert (Ua : a * a = 1 - b * b - c * c) by lra. unfold rod. cbv zeta. generalize (sin s) (cos s). intros S C. open. tuples; ring [Ua].
Qed.
Lemma screw_add u v s t : dot3 u u = 1 -> screw u v (s + t) = mul4 (screw u v s) (screw u v t).
Proof.
  intros U. unfold screw. rewrite mul_motion, rod_add by exact U. f_equal. unfold screw_translation. rewrite rod_add by exact U.
  rewrite !apply3_add, !apply3_scale, apply_mul3, rod_axis by exact U.
  generalize (cross3 u v) (dot3 u v). intros q k. generalize (apply3 (rod u s) (apply3 (rod u t) q)). intros [[a b] c].
  generalize (apply3 (rod u s) q). intros [[d e] f]. destruct q as [[g h] i]. destruct u as [[x y] z]. unfold add3, scale3. open. tuples; ring.
Qed.
Lemma screw_0 u v : screw u v 0 = id4.
Proof.
  unfold screw, screw_translation, rod. destruct u as [[a b] c], v as [[x y] z]. cbv zeta. rewrite sin_0, cos_0. unfold add3, scale3. open. tuples; ring.
Qed.
Lemma trig_derive c0 c1 c2 c3 n t f d :
  (forall s, f s = c0 + c1 * sin (s * n) + c2 * cos (s * n) + c3 * s) ->
  d = c1 * n * cos (t * n) - c2 * n * sin (t * n) + c3 ->
  derivable_pt_lim f t d.
Proof.
  intros Hf ->.
  assert (E : forall g, (forall s, g s = f s) -> derivable_pt_lim g t (c1 * n * cos (t * n) - c2 * n * sin (t * n) + c3) -> derivable_pt_lim f t (c1 * n * cos (t * n) - c2 * n * sin (t * n) + c3)).
  { intros g Hg H e He. destruct (H e He) as [dl P]. exists dl. intros h H1 H2. rewrite <- !Hg. apply P; assumption. }
  apply (E (fun s => c0 + c1 * sin (s * n) + c2 * cos (s * n) + c3 * s)); [intros; symmetry; apply Hf|]. clear.
  assert (L : derivable_pt_lim (fun s => s * n) t n).
  { assert (H := derivable_pt_lim_mult (fun s => s) (fun _ => n) t 1 0 (derivable_pt_lim_id t) (derivable_pt_lim_const n t)).
    cbv beta in H. replace (1 * n + t * 0) with n in H by ring. exact H. }
  assert (Sn : derivable_pt_lim (fun s => sin (s * n)) t (cos (t * n) * n)).
  { apply (derivable_pt_lim_comp (fun s => s * n) sin); [exact L|apply derivable_pt_lim_sin]. }
  assert (Cn : derivable_pt_lim (fun s => cos (s * n)) t (- sin (t * n) * n)).
  { apply (derivable_pt_lim_comp (fun s => s * n) cos); [exact L|apply derivable_pt_lim_cos]. }
  replace (c1 * n * cos (t * n) - c2 * n * sin (t * n) + c3) with (0 + (0 * sin (t * n) + c1 * (cos (t * n) * n)) + (0 * cos (t * n) + c2 * (- sin (t * n) * n)) + (0 * t + c3 * 1)) by ring.
  apply (derivable_pt_lim_plus (fun s => c0 + c1 * sin (s * n) + c2 * cos (s * n)) (fun s => c3 * s)).
  - apply (derivable_pt_lim_plus (fun s => c0 + c1 * sin (s * n)) (fun s => c2 * cos (s * n))).
    + apply (derivable_pt_lim_plus (fun _ => c0) (fun s => c1 * sin (s * n))); [apply derivable_pt_lim_const|].
      apply (derivable_pt_lim_mult (fun _ => c1) (fun s => sin (s * n))); [apply derivable_pt_lim_const|exact Sn].
    + apply (derivable_pt_lim_mult (fun _ => c2) (fun s => cos (s * n))); [apply derivable_pt_lim_const|exact Cn].
  - apply (derivable_pt_lim_mult (fun _ => c3) (fun s => s)); [apply derivable_pt_lim_const|apply derivable_pt_lim_id].
Qed.

(** The coefficients of an entry as a function of the sine, the cosine and the time. *)
Definition screw_at (u v : r3) (S C s : R) : r44 :=
  let '(a, b, c) := u in let C := 1 - C in
  let r := ((1 - C * (b * b + c * c), - c * S + C * (a * b), b * S + C * (a * c)),
   (c * S + C * (a * b), 1 - C * (a * a + c * c), - a * S + C * (b * c)),
   (- b * S + C * (a * c), a * S + C * (b * c), 1 - C * (a * a + b * b))) in
  motion r (add3 (add3 (cross3 u v) (scale3 (-1) (apply3 r (cross3 u v)))) (scale3 (s * dot3 u v) u)).
Lemma screw_is_at u v s : screw u v s = screw_at u v (sin s) (cos s) s.
Proof. destruct u as [[a b] c]. reflexivity. Qed.
Lemma entry_affine u v k S C s : 
  nth k (entries (screw_at u v S C s)) 0 =
  nth k (entries (screw_at u v 0 0 0)) 0 + (nth k (entries (screw_at u v 1 0 0)) 0 - nth k (entries (screw_at u v 0 0 0)) 0) * S +
  (nth k (entries (screw_at u v 0 1 0)) 0 - nth k (entries (screw_at u v 0 0 0)) 0) * C +
  (nth k (entries (screw_at u v 0 0 1)) 0 - nth k (entries (screw_at u v 0 0 0)) 0) * s.
Proof.
  destruct u as [[a b] c], v as [[x y] z]. unfold screw_at, add3, scale3, entries. open.
  do 16 (destruct k as [|k]; [cbn [nth]; ring|]). destruct k; cbn [nth]; ring.
Qed.
Lemma screw_derivative (u v : r3) n t : dot3 u u = 1 ->
  derivative_at (fun t => screw u v (t * n)) t (mul4 (TwistHat ra (scale3 n v, scale3 n u)) (screw u v (t * n))).
Proof.
  intros U k Hk.
  apply (trig_derive (nth k (entries (screw_at u v 0 0 0)) 0) (nth k (entries (screw_at u v 1 0 0)) 0 - nth k (entries (screw_at u v 0 0 0)) 0)
    (nth k (entries (screw_at u v 0 1 0)) 0 - nth k (entries (screw_at u v 0 0 0)) 0) ((nth k (entries (screw_at u v 0 0 1)) 0 - nth k (entries (screw_at u v 0 0 0)) 0) * n) n).
  - intros s. rewrite screw_is_at, entry_affine. ring.
  - rewrite screw_is_at. generalize (sin (t * n)) (cos (t * n)) (t * n). intros S C s. destruct u as [[a b] c], v as [[x y] z].
    unfold screw_at, add3, scale3. open. assert (Ua : a * a = 1 - b * b - c * c) by lra. unfold entries. cbv beta iota.
    do 16 (destruct k as [|k]; [cbn [nth]; ring [Ua]|]). lia.
Qed.
