(** Twists, adjoints and exponentials of MathLinModel.v in exact arithmetic. *)
From Coq Require Import Reals Lra Psatz Nsatz.
From Flocq Require Import Core.
From Verif Require Import Base UtilityModel MathModel MathReal MathVec MathLinModel MathLinSpec MathLinProof.
Local Open Scope R_scope.

Lemma pair_eq {X Y} (a c : X) (b d : Y) : a = c -> b = d -> (a, b) = (c, d). Proof. congruence. Qed.
Ltac tuples := repeat match goal with |- (_, _) = (_, _) => apply pair_eq end.
Ltac simpl_ra := change (a_of ra 0) with 0 in *; change (a_of ra 1) with 1 in *; change (a_of ra 2) with 2 in *;
  change (aadd ra) with Rplus in *; change (asub ra) with Rminus in *; change (amul ra) with Rmult in *; change (adiv ra) with Rdiv in *;
  change (aopp ra) with Ropp in *; change (aabs ra) with Rabs in *; change (asqrt ra) with sqrt in *;
  change (altb ra) with Rlt_bool in *; change (aleb ra) with Rle_bool in *; change (aeqb ra) with Req_bool in *.
Ltac open := cbv beta iota zeta delta [Skew Unskew TwistHat TwistUnhat m4_of m4_linear m4_translation m3_apply m3_mul m3_transpose m3_add m3_sub
    m3_scale m3_div m3_map2 m3_identity m3_zero v3_add v3_sub v3_scale v3_div v3_dot v3_cross v3_outer v3_norm m6_apply AdjointFromTransform TransformTwist
    dot3 cross3 transpose3 apply3 mul3 id3 det3 dot4 apply4 transpose4 mul4 id4 motion fst snd] in *; simpl_ra.

Lemma skew_cross (v w : r3) : m3_apply ra (Skew ra v) w = cross3 v w /\ apply3 (Skew ra v) w = cross3 v w.
Proof. destruct v as [[x y] z], w as [[p q] r]. split; open; tuples; ring. Qed.
Lemma unskew_skew (v : r3) : Unskew ra (Skew ra v) = v.
Proof. destruct v as [[x y] z]. open. tuples; field. Qed.
Lemma skew_unskew (m : r33) : Skew ra (Unskew ra m) = m3_scale ra (/ 2) (m3_sub ra m (transpose3 m)).
Proof. destruct m as [[[[a b] c] [[d e] f]] [[g h] i]]. open. tuples; field. Qed.
Lemma unhat_hat (t : r3 * r3) : TwistUnhat ra (TwistHat ra t) = t.
Proof. destruct t as [[[a b] c] [[x y] z]]. unfold TwistHat, TwistUnhat. open. tuples; field. Qed.
Lemma hat_generates (v w : r3) : generates (TwistHat ra (v, w)) v w.
Proof. destruct v as [[a b] c], w as [[p q] r]. intros x y z. open. tuples; ring. Qed.

(** ** Rotations *)
Lemma rot_adj a b c d e f g h i :
  a * a + b * b + c * c = 1 -> a * d + b * e + c * f = 0 -> a * g + b * h + c * i = 0 ->
  a * (e * i - f * h) + b * (f * g - d * i) + c * (d * h - e * g) = 1 ->
  a = e * i - f * h /\ b = f * g - d * i /\ c = d * h - e * g.
Proof.
  intros H1 H2 H3 D.
  assert (A : a * (a * (e * i - f * h) + b * (f * g - d * i) + c * (d * h - e * g)) =
    (e * i - f * h) * (a * a + b * b + c * c) + (c * h - b * i) * (a * d + b * e + c * f) + (b * f - c * e) * (a * g + b * h + c * i)) by ring.
  assert (B : b * (a * (e * i - f * h) + b * (f * g - d * i) + c * (d * h - e * g)) =
    (f * g - d * i) * (a * a + b * b + c * c) + (a * i - c * g) * (a * d + b * e + c * f) + (c * d - a * f) * (a * g + b * h + c * i)) by ring.
  assert (C : c * (a * (e * i - f * h) + b * (f * g - d * i) + c * (d * h - e * g)) =
    (d * h - e * g) * (a * a + b * b + c * c) + (b * g - a * h) * (a * d + b * e + c * f) + (a * e - b * d) * (a * g + b * h + c * i)) by ring.
  rewrite H1, H2, H3, D in A, B, C. repeat split; lra.
Qed.
Lemma rot_columns m : is_rotation m -> mul3 (transpose3 m) m = id3 /\
  forall v, apply3 (transpose3 m) (apply3 m v) = v.
Proof.
  destruct m as [[[[a b] c] [[d e] f]] [[g h] i]]. intros [H D]. open. injection H as H1 H2 H3 H4 H5 H6 H7 H8 H9.
  destruct (rot_adj a b c d e f g h i) as (A1 & A2 & A3); try lra.
  destruct (rot_adj d e f g h i a b c) as (B1 & B2 & B3); try lra.
  destruct (rot_adj g h i a b c d e f) as (C1 & C2 & C3); try lra.
  assert (C : a * a + d * d + g * g = 1 /\ b * b + e * e + h * h = 1 /\ c * c + f * f + i * i = 1 /\
    a * b + d * e + g * h = 0 /\ a * c + d * f + g * i = 0 /\ b * c + e * f + h * i = 0).
  { assert (X : forall p q r s t u, a * p + d * q + g * r = s /\ b * p + e * q + h * r = t /\ c * p + f * q + i * r = u ->
       (e * i - f * h) * p + (h * c - i * b) * q + (b * f - c * e) * r = s /\
       (f * g - d * i) * p + (i * a - g * c) * q + (c * d - a * f) * r = t /\
       (d * h - e * g) * p + (g * b - h * a) * q + (a * e - b * d) * r = u).
    { intros. rewrite <- A1, <- A2, <- A3, <- B1, <- B2, <- B3, <- C1, <- C2, <- C3. assumption. }
    assert (Y : forall p q r, a * p + d * q + g * r = (e * i - f * h) * p + (h * c - i * b) * q + (b * f - c * e) * r /\
       b * p + e * q + h * r = (f * g - d * i) * p + (i * a - g * c) * q + (c * d - a * f) * r /\
       c * p + f * q + i * r = (d * h - e * g) * p + (g * b - h * a) * q + (a * e - b * d) * r).
    { intros. rewrite <- A1, <- A2, <- A3, <- B1, <- B2, <- B3, <- C1, <- C2, <- C3. auto. }
    assert (D' : a * (e * i - f * h) + b * (f * g - d * i) + c * (d * h - e * g) = 1) by lra.
    destruct (Y a d g) as (Y1 & _ & _), (Y b e h) as (Y2 & Y3 & _), (Y c f i) as (Y4 & Y5 & Y6).
    rewrite Y1, Y2, Y3, Y4, Y5, Y6. repeat split; try (rewrite <- D'; ring); ring. }
  destruct C as (C1' & C2' & C3' & C4 & C5 & C6). split.
  - tuples; lra.
  - intros [[x y] z]. tuples.
    + transitivity ((a * a + d * d + g * g) * x + (a * b + d * e + g * h) * y + (a * c + d * f + g * i) * z); [ring|]. rewrite C1', C4, C5. ring.
    + transitivity ((a * b + d * e + g * h) * x + (b * b + e * e + h * h) * y + (b * c + e * f + h * i) * z); [ring|]. rewrite C2', C4, C6. ring.
    + transitivity ((a * c + d * f + g * i) * x + (b * c + e * f + h * i) * y + (c * c + f * f + i * i) * z); [ring|]. rewrite C3', C5, C6. ring.
Qed.
Lemma cross_rot m v w : is_rotation m -> cross3 (apply3 m v) (apply3 m w) = apply3 m (cross3 v w).
Proof.
  destruct m as [[[[a b] c] [[d e] f]] [[g h] i]], v as [[x y] z], w as [[p q] r]. intros [H D]. open. injection H as H1 H2 H3 H4 H5 H6 H7 H8 H9.
  destruct (rot_adj a b c d e f g h i) as (A1 & A2 & A3); try lra.
  destruct (rot_adj d e f g h i a b c) as (B1 & B2 & B3); try lra.
  destruct (rot_adj g h i a b c d e f) as (C1 & C2 & C3); try lra.
  assert (X : forall p q r, a * p + b * q + c * r = (e * i - f * h) * p + (f * g - d * i) * q + (d * h - e * g) * r /\
     d * p + e * q + f * r = (h * c - i * b) * p + (i * a - g * c) * q + (g * b - h * a) * r /\
     g * p + h * q + i * r = (b * f - c * e) * p + (c * d - a * f) * q + (a * e - b * d) * r).
  { intros. rewrite <- A1, <- A2, <- A3, <- B1, <- B2, <- B3, <- C1, <- C2, <- C3. auto. }
  destruct (X (y * r - z * q) (z * p - x * r) (x * q - y * p)) as (X1 & X2 & X3). rewrite X1, X2, X3. clear. tuples; ring.
Qed.

Definition act (t : r44) (x : r3) (s : R) : r4 := let '(a, b, c) := x in apply4 t (a, b, c, s).
Lemma m4_ext (m n : r44) : (forall v, apply4 m v = apply4 n v) -> m = n.
Proof.
  intros H. pose proof (H (1, 0, 0, 0)) as H1. pose proof (H (0, 1, 0, 0)) as H2. pose proof (H (0, 0, 1, 0)) as H3. pose proof (H (0, 0, 0, 1)) as H4. clear H.
  destruct m as [[[[[[a b] c] d] [[[e f] g] h]] [[[i j] k] l]] [[[o p] q] r]].
  destruct n as [[[[[[a' b'] c'] d'] [[[e' f'] g'] h']] [[[i' j'] k'] l']] [[[o' p'] q'] r']].
  open. injection H1 as ? ? ? ?. injection H2 as ? ? ? ?. injection H3 as ? ? ? ?. injection H4 as ? ? ? ?. tuples; lra.
Qed.
Lemma apply_mul4 m n v : apply4 (mul4 m n) v = apply4 m (apply4 n v).
Proof.
  destruct m as [[[[[[a b] c] d] [[[e f] g] h]] [[[i j] k] l]] [[[o p] q] r]].
  destruct n as [[[[[[a' b'] c'] d'] [[[e' f'] g'] h']] [[[i' j'] k'] l']] [[[o' p'] q'] r']].
  destruct v as [[[x y] z] w]. open. tuples; ring.
Qed.
Lemma mul4_assoc l m n : mul4 (mul4 l m) n = mul4 l (mul4 m n).
Proof. apply m4_ext. intros v. rewrite !apply_mul4. reflexivity. Qed.
Lemma apply_id4 v : apply4 id4 v = v.
Proof. destruct v as [[[x y] z] w]. open. tuples; ring. Qed.
Lemma mul4_id_r m : mul4 m id4 = m. Proof. apply m4_ext. intros v. rewrite apply_mul4, apply_id4. reflexivity. Qed.
Lemma mul4_id_l m : mul4 id4 m = m. Proof. apply m4_ext. intros v. rewrite apply_mul4, apply_id4. reflexivity. Qed.

Definition add3 (a b : r3) : r3 := let '(x, y, z) := a in let '(p, q, r) := b in (x + p, y + q, z + r).
Definition scale3 (s : R) (a : r3) : r3 := let '(x, y, z) := a in (s * x, s * y, s * z).
Definition last0 (a : r3) (s : R) : r4 := let '(x, y, z) := a in (x, y, z, s).
Lemma apply_motion m p x s : apply4 (motion m p) (last0 x s) = last0 (add3 (apply3 m x) (scale3 s p)) s.
Proof. destruct m as [[[[a b] c] [[d e] f]] [[g h] i]], p as [[p q] r], x as [[x y] z]. unfold last0, add3, scale3. open. tuples; ring. Qed.
Lemma apply_hat v w x s : apply4 (TwistHat ra (v, w)) (last0 x s) = last0 (add3 (cross3 w x) (scale3 s v)) 0.
Proof. destruct v as [[a b] c], w as [[p q] r], x as [[x y] z]. unfold last0, add3, scale3. open. tuples; ring. Qed.
Lemma transform_eq m p (v w : r3) : TransformTwist ra (motion m p) (v, w) = (add3 (apply3 m v) (cross3 p (apply3 m w)), apply3 m w).
Proof.
  destruct m as [[[[a b] c] [[d e] f]] [[g h] i]], p as [[p q] r], v as [[x y] z], w as [[x' y'] z'].
  unfold last0, add3, scale3. open. tuples; ring.
Qed.
Lemma apply3_add m a b : apply3 m (add3 a b) = add3 (apply3 m a) (apply3 m b).
Proof. destruct m as [[[[m1 m2] m3] [[m4 m5] m6]] [[m7 m8] m9]], a as [[x y] z], b as [[p q] r]. unfold add3. open. tuples; ring. Qed.
Lemma apply3_scale m s a : apply3 m (scale3 s a) = scale3 s (apply3 m a).
Proof. destruct m as [[[[m1 m2] m3] [[m4 m5] m6]] [[m7 m8] m9]], a as [[x y] z]. unfold scale3. open. tuples; ring. Qed.
Lemma split4 (v : r4) : exists x s, v = last0 x s.
Proof. destruct v as [[[x y] z] s]. exists (x, y, z), s. reflexivity. Qed.
Lemma hat_intertwines t (xi : r3 * r3) : is_rigid t ->
  mul4 (TwistHat ra (TransformTwist ra t xi)) t = mul4 t (TwistHat ra xi).
Proof.
  intros (m & p & Rm & ->). destruct xi as [v w]. rewrite transform_eq. apply m4_ext. intros u. destruct (split4 u) as (x & s & ->).
  rewrite !apply_mul4, apply_motion, !apply_hat, apply_motion. rewrite apply3_add, apply3_scale, <- cross_rot by exact Rm.
  generalize (apply3 m x) (apply3 m w) (apply3 m v). intros [[a b] c] [[d e] f] [[g h] i]. destruct p as [[p q] r]. unfold last0, add3, scale3. open. tuples; ring.
Qed.
Lemma hat_conjugated t t' (xi : r3 * r3) : is_rigid t -> mul4 t t' = id4 ->
  TwistHat ra (TransformTwist ra t xi) = mul4 (mul4 t (TwistHat ra xi)) t'.
Proof. intros H E. rewrite <- hat_intertwines by exact H. rewrite mul4_assoc, E, mul4_id_r. reflexivity. Qed.
Lemma rigid_inverse t : is_rigid t -> exists t', is_rigid t' /\ mul4 t t' = id4 /\ mul4 t' t = id4.
Proof.
  intros (m & p & Rm & ->). destruct (rot_columns m Rm) as [C A].
  exists (motion (transpose3 m) (scale3 (-1) (apply3 (transpose3 m) p))). split; [|split].
  - exists (transpose3 m), (scale3 (-1) (apply3 (transpose3 m) p)). split; [|reflexivity]. split.
    + replace (transpose3 (transpose3 m)) with m; [exact C|]. destruct m as [[[[? ?] ?] [[? ?] ?]] [[? ?] ?]]. reflexivity.
    + destruct Rm as [_ D]. rewrite <- D. destruct m as [[[[a b] c] [[d e] f]] [[g h] i]]. open. ring.
  - apply m4_ext. intros v. destruct (split4 v) as (x & s & ->). rewrite apply_mul4, !apply_motion, apply_id4.
    assert (B : forall v, apply3 m (apply3 (transpose3 m) v) = v).
    { clear - Rm. intros v. destruct Rm as [H _]. transitivity (apply3 (mul3 m (transpose3 m)) v).
      - destruct m as [[[[a b] c] [[d e] f]] [[g h] i]], v as [[x y] z]. open. tuples; ring.
      - rewrite H. destruct v as [[x y] z]. open. tuples; ring. }
    rewrite apply3_add, !apply3_scale, !B. destruct x as [[x y] z], p as [[p q] r]. unfold last0, add3, scale3. tuples; ring.
  - apply m4_ext. intros v. destruct (split4 v) as (x & s & ->). rewrite apply_mul4, !apply_motion, apply_id4.
    rewrite apply3_add, !apply3_scale, A. generalize (apply3 (transpose3 m) p). intros [[p1 q1] r1]. destruct x as [[x y] z]. unfold last0, add3, scale3. tuples; ring.
Qed.
Lemma mul_motion m p n q : mul4 (motion m p) (motion n q) = motion (mul3 m n) (add3 (apply3 m q) p).
Proof.
  destruct m as [[[[a b] c] [[d e] f]] [[g h] i]], p as [[p1 p2] p3], n as [[[[a' b'] c'] [[d' e'] f']] [[g' h'] i']], q as [[q1 q2] q3].
  unfold add3. open. tuples; ring.
Qed.
Lemma apply_mul3 m n v : apply3 (mul3 m n) v = apply3 m (apply3 n v).
Proof. destruct m as [[[[a b] c] [[d e] f]] [[g h] i]], n as [[[[a' b'] c'] [[d' e'] f']] [[g' h'] i']], v as [[x y] z]. open. tuples; ring. Qed.
Lemma twist_compose t u xi : is_rigid t -> is_rigid u -> TransformTwist ra (mul4 t u) xi = TransformTwist ra t (TransformTwist ra u xi).
Proof.
  intros (m & p & Rm & ->) (n & q & Rn & ->). destruct xi as [v w]. rewrite mul_motion, !transform_eq. rewrite !apply_mul3, apply3_add.
  apply pair_eq; [|reflexivity]. rewrite <- cross_rot by exact Rm. generalize (apply3 m (apply3 n w)) (apply3 m q) (apply3 m (apply3 n v)).
  intros [[a b] c] [[d e] f] [[g h] i]. destruct p as [[p1 p2] p3]. unfold add3. open. tuples; ring.
Qed.
Lemma rigid_mul t u : is_rigid t -> is_rigid u -> is_rigid (mul4 t u).
Proof.
  intros (m & p & [Rm Dm] & ->) (n & q & [Rn Dn] & ->). rewrite mul_motion. eexists. eexists. split; [|reflexivity]. split.
  - assert (X : forall m n, mul3 (mul3 m n) (transpose3 (mul3 m n)) = mul3 (mul3 m (mul3 n (transpose3 n))) (transpose3 m)).
    { clear. intros [[[[a b] c] [[d e] f]] [[g h] i]] [[[[a' b'] c'] [[d' e'] f']] [[g' h'] i']]. open. tuples; ring. }
    rewrite X, Rn. replace (mul3 m id3) with m; [exact Rm|]. clear. destruct m as [[[[a b] c] [[d e] f]] [[g h] i]]. open. tuples; ring.
  - transitivity (det3 m * det3 n); [|rewrite Dm, Dn; ring]. clear. destruct m as [[[[a b] c] [[d e] f]] [[g h] i]], n as [[[[a' b'] c'] [[d' e'] f']] [[g' h'] i']]. open. ring.
Qed.
