(** C150: elementwise arithmetic and norms of std::vector<double>. *)
From Coq Require Import Reals Lra Psatz.
From Flocq Require Import Core BinarySingleNaN Relative.
From Verif Require Import Base UtilityModel Double DoubleFacts MathModel MathReal MathDouble MathDouble2 MathVec.
Local Open Scope R_scope.
Notation finite x := (is_finite x = true).
Notation da := double_arith.

(** What a caller expects of an operation on two vectors: the elements of the result are
    those of [op], and vectors of different sizes are refused. *)
Definition elementwise (f : list double -> list double -> outcome (list double)) (op : double -> double -> double) : Prop :=
  forall v1 v2, (length v1 <> length v2 -> f v1 v2 = Throw InvalidArgument) /\
    (length v1 = length v2 -> exists r, f v1 v2 = Ok r /\ length r = length v1 /\ forall i, (i < length v1)%nat -> nth i r d0 = op (nth i v1 d0) (nth i v2 d0)).
Definition elementwise_scalar (f : list double -> double -> list double) (op : double -> double -> double) : Prop :=
  forall v c, length (f v c) = length v /\ forall i, (i < length v)%nat -> nth i (f v c) d0 = op (nth i v d0) c.
Lemma zip_elementwise op : elementwise (zip_checked op) op.
Proof.
  intros v1 v2. unfold zip_checked. split.
  - intros N. apply Nat.eqb_neq in N. rewrite N. reflexivity.
  - intros E. rewrite E, Nat.eqb_refl. eexists. split; [reflexivity|]. revert v2 E. induction v1 as [|x v1 IH]; intros [|y v2] E; try discriminate; cbn [zip_with length]; [split; [reflexivity|intros; lia]|].
    injection E as E. destruct (IH v2 E) as [L N]. split; [lia|]. intros [|i] Hi; [reflexivity|]. cbn [nth]. apply N. lia.
Qed.
Lemma map_elementwise op : elementwise_scalar (fun v c => map (fun x => op x c) v) op.
Proof. intros v c. split; [apply map_length|]. intros i Hi. rewrite (nth_indep _ d0 ((fun x => op x c) d0)) by (rewrite map_length; exact Hi). apply (map_nth (fun x => op x c)). Qed.
Theorem C150_two_vectors : elementwise (Add da) dadd /\ elementwise (Sub da) dsub /\ elementwise (Multiply da) dmul /\ elementwise (Divide da) ddiv.
Proof. split; [|split; [|split]]; apply zip_elementwise. Qed.
Theorem C150_scalar : elementwise_scalar (AddScalar da) dadd /\ elementwise_scalar (SubScalar da) dsub /\ elementwise_scalar (MultiplyScalar da) dmul.
Proof. split; [|split]; apply map_elementwise. Qed.
(** Absolute values, one by one. *)
Theorem C150_abs : forall v : list double, length (Abs da v) = length v /\
  forall i, (i < length v)%nat -> B2R (nth i (Abs da v) d0) = Rabs (B2R (nth i v d0)) /\ Bsign (nth i (Abs da v) d0) = false /\
    is_finite (nth i (Abs da v) d0) = is_finite (nth i v d0) /\ is_nan (nth i (Abs da v) d0) = is_nan (nth i v d0).
Proof.
  intros v. split; [apply map_length|]. intros i Hi. unfold Abs. rewrite (nth_indep _ d0 (aabs da d0)) by (rewrite map_length; exact Hi). rewrite map_nth.
  cbn [aabs double_arith]. generalize (nth i v d0). intros x. split; [apply B2R_Babs|]. destruct x; auto.
Qed.
Print Assumptions C150_abs.
(** Dividing by a scalar multiplies by its rounded inverse: the elements are not those of the
    division; they can be off by one place, and even infinite or zero where the quotient is an
    ordinary number. *)
Theorem C150_divide_refuted : ~ elementwise_scalar (DivideScalar da) ddiv.
Proof. intros H. destruct (H [d_of_Z 5] (d_of_Z 49)) as [_ N]. specialize (N 0%nat ltac:(cbn; lia)). apply (f_equal (@B2SF 53 1024)) in N. vm_compute in N. discriminate N. Qed.
Theorem C150_divide_extreme_refuted : exists x c q : double, finite x /\ finite c /\ q = ddiv x c /\ finite q /\ B2R q = 1 /\ DivideScalar da [x] c = [dinf].
Proof.
  exists (d_of_me 1 (-1074)), (d_of_me 1 (-1074)), (ddiv (d_of_me 1 (-1074)) (d_of_me 1 (-1074))).
  assert (S : forall a b : double, B2SF a = B2SF b -> a = b) by (intros; apply B2SF_inj; assumption).
  assert (E : ddiv (d_of_me 1 (-1074)) (d_of_me 1 (-1074)) = d_of_Z 1) by (apply S; vm_compute; reflexivity).
  split; [reflexivity|]. split; [reflexivity|]. split; [reflexivity|]. rewrite E. destruct d1_val as [V F]. split; [exact F|]. split; [exact V|].
  unfold DivideScalar, MultiplyScalar. cbn [map]. f_equal.
Qed.
(** When neither the inverse nor the quotient is near the limits of the format, the result is
    the quotient up to two roundings. *)
Theorem C150_divide_partial : forall (x c : double), finite x -> finite c ->
  bpow radix2 (-1000) <= Rabs (B2R c) <= bpow radix2 1000 -> bpow radix2 (-1000) <= Rabs (B2R x / B2R c) <= bpow radix2 1000 ->
  exists r, DivideScalar da [x] c = [r] /\ finite r /\ Rabs (B2R r - B2R x / B2R c) <= (2 * bpow radix2 (-53) + bpow radix2 (-106)) * Rabs (B2R x / B2R c).
Proof.
  intros x c Fx Fc [C1 C2] [Q1 Q2]. eexists. split; [reflexivity|]. cbn [amul adiv da a_of double_arith].
  assert (NZ : B2R c <> 0) by (intros Z; rewrite Z, Rabs_R0 in C1; pose proof (bpow_gt_0 radix2 (-1000)); lra).
  assert (PC : 0 < Rabs (B2R c)) by (apply Rabs_pos_lt; exact NZ).
  assert (I1 : bpow radix2 (-1000) <= Rabs (1 / B2R c) <= bpow radix2 1000).
  { unfold Rdiv. rewrite Rmult_1_l, Rabs_inv. assert (BO : bpow radix2 (-1000) = / bpow radix2 1000) by (apply (bpow_opp radix2 1000)). rewrite BO in C1 |- *. split.
    - apply Rinv_le; assumption.
    - rewrite <- (Rinv_inv (bpow radix2 1000)). apply Rinv_le; [apply Rinv_0_lt_compat, bpow_gt_0|exact C1]. }
  destruct d1_val as [V1 F1].
  assert (NN : bpow radix2 (-1022) <= bpow radix2 (-1000)) by (apply bpow_le; lia).
  assert (MM : bpow radix2 1000 <= bpow radix2 1023) by (apply bpow_le; lia).
  destruct (ddiv_val (d_of_Z 1) c F1 NZ) as [VI FI]; [rewrite V1; lra|]. rewrite V1 in VI.
  destruct (rnd64_rel (1 / B2R c)) as (e1 & B1 & E1); [lra|]. rewrite E1 in VI.
  set (q := B2R x / B2R c) in *. assert (EQ : B2R x * B2R (ddiv (d_of_Z 1) c) = q * (1 + e1)) by (rewrite VI; unfold q; field; exact NZ).
  assert (T : bpow radix2 (-53) <= / 1024) by (change (/ 1024) with (bpow radix2 (-10)); apply bpow_le; lia).
  apply Rabs_le_inv in B1.
  assert (K : / 2 * Rabs q <= Rabs (q * (1 + e1)) <= 2 * Rabs q).
  { rewrite Rabs_mult, (Rabs_right (1 + e1)) by lra. pose proof (Rabs_pos q). split; nra. }
  assert (TW : bpow radix2 (-1000) = 2 * bpow radix2 (-1001)) by (change (-1000)%Z with (1 + -1001)%Z; rewrite bpow_plus; reflexivity).
  assert (TW2 : bpow radix2 1001 = 2 * bpow radix2 1000) by (change 1001%Z with (1 + 1000)%Z; rewrite bpow_plus; reflexivity).
  destruct (dmul_val x (ddiv (d_of_Z 1) c) Fx FI) as [VM FM].
  { rewrite EQ. apply Rle_trans with (bpow radix2 1001); [lra|apply bpow_le; lia]. }
  split; [exact FM|]. rewrite VM, EQ. destruct (rnd64_rel (q * (1 + e1))) as (e2 & B2 & E2).
  { apply Rle_trans with (bpow radix2 (-1001)); [apply bpow_le; lia|]. lra. }
  rewrite E2. replace (q * (1 + e1) * (1 + e2) - q) with ((e1 + e2 + e1 * e2) * q) by ring. rewrite Rabs_mult. apply Rmult_le_compat_r; [apply Rabs_pos|].
  assert (X : bpow radix2 (-106) = bpow radix2 (-53) * bpow radix2 (-53)) by (rewrite <- bpow_plus; reflexivity).
  rewrite X. apply Rabs_le_inv in B2. set (u := bpow radix2 (-53)) in *. apply Rabs_le. nra.
Qed.

(** Norms.  In exact arithmetic SquaredNorm and Norm are the sum of the squares and its root. *)
Theorem C150_norm_partial : forall v : list R, SquaredNorm real_arith v = dot v v /\ Norm real_arith v = sqrt (dot v v) /\
  (Norm real_arith v = 0 <-> Forall (fun x => x = 0) v) /\ Sum real_arith v = fold_right Rplus 0 v.
Proof.
  intros v. assert (S : forall a, fold_left (fun s x => s + x * x) v a = a + dot v v).
  { induction v as [|x v IH]; intros a; cbn; [ring|]. rewrite IH. cbn. ring. }
  assert (E : SquaredNorm real_arith v = dot v v) by (etransitivity; [apply S|cbn; ring]).
  split; [exact E|]. split; [unfold Norm; rewrite E; reflexivity|]. split.
  - unfold Norm. rewrite E. cbn [asqrt real_arith]. rewrite <- dot_zero. pose proof (dot_nonneg v). split; [apply sqrt_eq_0; assumption|intros ->; apply sqrt_0].
  - assert (S' : forall a, fold_left (fun s x => s + x) v a = a + fold_right Rplus 0 v) by (clear; induction v as [|x v IH]; intros a; cbn; [ring|rewrite IH; ring]).
    etransitivity; [apply S'|]. cbn. ring.
Qed.
(** In double the squares can overflow and underflow: a vector of length 2^600 has infinite
    norm, one of length 2^-600 has norm 0. *)
Theorem C150_norm_refuted : Norm da [d_of_me 1 600] = dinf /\ Norm da [d_of_me 1 (-600)] = d0.
Proof. split; apply B2SF_inj; vm_compute; reflexivity. Qed.
(** Elements that are numbers give a norm that is a number and not negative. *)
Definition length_like (x : double) : Prop := x = dinf \/ finite x /\ 0 <= B2R x.
Lemma square_like x : is_nan x = false -> length_like (dmul x x).
Proof.
  intros N. destruct (is_finite x) eqn:F; [|left; destruct x as [|[]| |]; try discriminate; reflexivity].
  pose proof (Bmult_correct 53 1024 eq_refl eq_refl mode_NE x x) as C. change (round_mode mode_NE) with ZnearestE in C. fold fexp64 in C.
  destruct (Rlt_bool _ _) in C.
  - right. destruct C as (V & FF & _). rewrite F in FF. split; [exact FF|]. assert (V' : B2R (dmul x x) = rnd64 (B2R x * B2R x)) by exact V. rewrite V', <- rnd64_0. apply rnd64_mono. nra.
  - left. rewrite xorb_nilpotent in C. apply B2SF_inj. exact C.
Qed.
Lemma sign_nonneg (x : double) : finite x -> 0 <= B2R x -> Bsign x = false \/ B2R x = 0.
Proof.
  intros F P. destruct x as [s|s| |s m e B]; try discriminate; [right; reflexivity|]. left. destruct s; [|reflexivity]. exfalso.
  rewrite finite_val in P. cbn [cond_Zopp] in P. pose proof (bpow_gt_0 radix2 e). assert (IZR (- Z.pos m) < 0) by (apply IZR_lt; lia). nra.
Qed.
Lemma sum_like a b : length_like a -> length_like b -> length_like (dadd a b).
Proof.
  intros [->|[Fa Pa]] [->|[Fb Pb]].
  - left. reflexivity.
  - left. destruct b; try discriminate; reflexivity.
  - left. destruct a; try discriminate; reflexivity.
  - pose proof (Bplus_correct 53 1024 eq_refl eq_refl mode_NE a b Fa Fb) as C. change (round_mode mode_NE) with ZnearestE in C. fold fexp64 in C.
    change (round radix2 fexp64 ZnearestE (B2R a + B2R b)) with (rnd64 (B2R a + B2R b)) in C.
    destruct (Rlt_bool_spec (Rabs (rnd64 (B2R a + B2R b))) (bpow radix2 1024)) as [L|L].
    + right. destruct C as (V & F & _). split; [exact F|]. assert (V' : B2R (dadd a b) = rnd64 (B2R a + B2R b)) by exact V. rewrite V', <- rnd64_0. apply rnd64_mono. lra.
    + left. destruct C as [C1 C2]. destruct (sign_nonneg a Fa Pa) as [S|Z].
      * rewrite S in C1. apply B2SF_inj. exact C1.
      * exfalso. rewrite Z, Rplus_0_l, rnd64_fix in L. pose proof (abs_B2R_lt_emax 53 1024 b). lra.
Qed.
Theorem C150_norm_number : forall v : list double, Forall (fun x => is_nan x = false) v -> length_like (SquaredNorm da v) /\ length_like (Norm da v).
Proof.
  intros v H. assert (S : length_like (SquaredNorm da v)).
  { unfold SquaredNorm. assert (G : forall a, length_like a -> length_like (fold_left (fun s x => aadd da s (amul da x x)) v a)).
    { induction H as [|x v Nx _ IH]; intros a L; [exact L|]. cbn [fold_left]. apply IH, sum_like; [exact L|]. apply square_like, Nx. }
    apply G. right. destruct d0_val as [V F]. split; [exact F|]. cbn [a_of da double_arith]. rewrite V. lra. }
  split; [exact S|]. unfold Norm. cbn [asqrt double_arith]. destruct S as [->|[F P]]; [left; reflexivity|]. right.
  destruct (Bsqrt_correct 53 1024 eq_refl eq_refl mode_NE (SquaredNorm da v)) as (V & FF & _). change (round_mode mode_NE) with ZnearestE in V. fold fexp64 in V. split.
  - etransitivity; [exact FF|]. destruct (SquaredNorm da v) as [s|s| |s m e B]; try discriminate; [reflexivity|]. destruct s; [|reflexivity]. exfalso.
    rewrite finite_val in P. cbn [cond_Zopp] in P. pose proof (bpow_gt_0 radix2 e). assert (IZR (- Z.pos m) < 0) by (apply IZR_lt; lia). nra.
  - eapply Rle_trans; [|right; symmetry; exact V]. change (0 <= rnd64 (sqrt (B2R (SquaredNorm da v)))). rewrite <- rnd64_0. apply rnd64_mono, sqrt_pos.
Qed.
Print Assumptions C150_two_vectors. Print Assumptions C150_scalar. Print Assumptions C150_divide_refuted. Print Assumptions C150_divide_extreme_refuted.
Print Assumptions C150_divide_partial. Print Assumptions C150_norm_partial. Print Assumptions C150_norm_refuted. Print Assumptions C150_norm_number.
Example C150_case : (Add da [d_of_Z 1; d_of_Z 2] [d_of_Z 3; d_of_Z 4] = Ok [d_of_Z 4; d_of_Z 6]) /\ (Divide da [d_of_Z 1] [] = Throw InvalidArgument) /\
  (DivideScalar da [d_of_Z 6] (d_of_Z 2) = [d_of_Z 3]) /\ (Norm da [d_of_Z 3; d_of_Z 4] = d_of_Z 5).
Proof.
  split; [unfold Add, zip_checked; cbn [zip_with length Nat.eqb]; do 2 f_equal; [|f_equal]; apply B2SF_inj; vm_compute; reflexivity|]. split; [reflexivity|].
  split; [unfold DivideScalar, MultiplyScalar; cbn [map]; f_equal|]; apply B2SF_inj; vm_compute; reflexivity.
Qed.
