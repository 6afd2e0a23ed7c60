(** Averages of vectors, and double arithmetic in the linear algebra functions. *)
From Coq Require Import Reals Lra Psatz.
From Flocq Require Import Core BinarySingleNaN.
From Verif Require Import Base UtilityModel Double DoubleFacts MathModel MathReal MathSpec MathProof MathVec MathDouble MathLinModel MathLinSpec MathLinProof MathLinProof2.
Local Open Scope R_scope.

(** ** Averages: every component is averaged on its own. *)
Section Avg.
Context {A : Type} (ar : arith A) (d : A).
Hypothesis abs_zero : forall w, aeqb ar (aabs ar w) (a_of ar 0) = aeqb ar w (a_of ar 0).
Definition column (k : nat) (vs : list (list A)) : list A := map (fun v => nth k v d) vs.
Lemma zip_nth (f : A -> A -> A) u v k : length u = length v -> (k < length u)%nat ->
  nth k (zip_with f u v) d = f (nth k u d) (nth k v d).
Proof.
  revert v k. induction u as [|x u IH]; intros [|y v] k E H; try discriminate; cbn in H; [lia|]. destruct k as [|k]; [reflexivity|]. cbn [zip_with nth]. injection E as E. apply IH; [exact E|lia].
Qed.
Lemma zip_len (f : A -> A -> A) u v : length u = length v -> length (zip_with f u v) = length u.
Proof. revert v. induction u as [|x u IH]; intros [|y v] E; try discriminate; [reflexivity|]. injection E as E. cbn. rewrite IH by exact E. reflexivity. Qed.
Lemma average_vector_fold l : forall v w n, length v = n -> Forall (fun p => length (fst p) = n) l ->
  exists r W, fold_left (average_vector_step ar) l (Ok (v, w)) = Ok (r, W) /\ length r = n /\
  forall k, (k < n)%nat -> fold_left (average_step ar) (map (fun p => (nth k (fst p) d, snd p)) l) (nth k v d, w) = (nth k r d, W).
Proof.
  induction l as [|[u x] l IH]; intros v w n L F.
  - exists v, w. auto.
  - apply Forall_cons_iff in F as [Fu F]. cbn [fst] in Fu.
    cbn [fold_left map]. cbn [average_vector_step bind fst snd]. unfold eig_sub, eig_zip.
    replace (length u =? length v)%nat with true by (symmetry; apply Nat.eqb_eq; congruence). cbn [bind]. unfold eig_add, eig_zip. rewrite map_length, zip_len by congruence.
    replace (length v =? length u)%nat with true by (symmetry; apply Nat.eqb_eq; congruence). cbn [bind].
    set (v' := zip_with _ v _). assert (L' : length v' = n) by (unfold v'; rewrite zip_len; [exact L|rewrite map_length, zip_len; congruence]).
    destruct (IH v' (aadd ar w x) n L' F) as (r & W & E & Lr & C). exists r, W. split; [exact E|]. split; [exact Lr|].
    intros k Hk. rewrite <- C by exact Hk. f_equal. unfold average_step. cbn [fst snd]. f_equal. unfold v'. rewrite zip_nth by (rewrite ?map_length, ?zip_len; congruence || lia).
    f_equal. set (g := fun y => amul ar (adiv ar x (aadd ar w x)) y). fold g. rewrite (nth_indep (map g _) d (g d)) by (rewrite map_length, zip_len; [lia|congruence]). rewrite map_nth. unfold g. f_equal. apply eq_sym. apply zip_nth; [congruence|lia].
Qed.
Lemma first_starting ws : first_nonzero ar ws = starting_index ar ws.
Proof. induction ws as [|w ws IH]; [reflexivity|]. cbn [first_nonzero starting_index]. rewrite abs_zero, IH. reflexivity. Qed.
Lemma combine_column k vs (ws : list A) : combine (column k vs) ws = map (fun p => (nth k (fst p) d, snd p)) (combine vs ws).
Proof. revert ws. induction vs as [|v vs IH]; intros [|w ws]; try reflexivity. cbn. unfold column in IH. rewrite IH. reflexivity. Qed.
Lemma average_columns vs ws n : Forall (fun v => length v = n) vs ->
  (exists r, AverageEigenVector ar vs ws = Ok r /\ length r = n /\ forall k, (k < n)%nat -> AverageStdVectorDouble ar (column k vs) ws = Ok (nth k r d)) \/
  (AverageEigenVector ar vs ws = Throw InvalidArgument /\ forall k, AverageStdVectorDouble ar (column k vs) ws = Throw InvalidArgument).
Proof.
  intros F. unfold AverageEigenVector, AverageStdVectorDouble. destruct vs as [|v0 vs']; [right; split; [reflexivity|intros; reflexivity]|].
  remember (v0 :: vs') as vs eqn:Ev. assert (NE : vs <> []) by (subst; discriminate). clear Ev.
  assert (LC : forall k, length (column k vs) = length vs) by (intros; apply map_length).
  assert (G : ((0 <? length ws)%nat && negb (length vs =? length ws)%nat)%bool = (negb (length ws =? length vs)%nat && negb (length ws =? 0)%nat)%bool).
  { rewrite (Nat.eqb_sym (length ws) (length vs)). destruct ws; cbn; destruct (length vs =? _)%nat; reflexivity. }
  rewrite G. 
  assert (D : forall k, exists a l, column k vs = a :: l) by (intros k; destruct vs; [contradiction|eexists; eexists; reflexivity]).
  destruct (negb (length ws =? length vs)%nat && negb (length ws =? 0)%nat)%bool eqn:B.
  { right. split; [reflexivity|]. intros k. rewrite LC, B. destruct (D k) as (a & l & ->). reflexivity. }
  rewrite first_starting. set (s := starting_index ar ws). set (used := if (length ws =? 0)%nat then _ else _).
  destruct (nth_error vs s) as [v|] eqn:Ev.
  2:{ right. split; [destruct vs; [contradiction|reflexivity]|]. intros k. rewrite LC, B. cbv zeta.
      assert (N : nth_error (column k vs) s = None) by (apply nth_error_None; rewrite LC; apply nth_error_None; exact Ev).
      destruct (D k) as (a & l & E). rewrite E in *. rewrite <- E in N. rewrite E in N. rewrite N. reflexivity. }
  destruct (nth_error used s) as [w|] eqn:Ew.
  2:{ right. split; [destruct vs; [contradiction|reflexivity]|]. intros k. rewrite LC, B. cbv zeta. destruct (D k) as (a & l & E). 
      fold used. fold s. rewrite Ew. rewrite E. destruct (nth_error (a :: l) s); reflexivity. }
  left. destruct (average_vector_fold (skipn (S s) (combine vs used)) v w n) as (r & W & E & Lr & C).
  { rewrite Forall_forall in F. apply F. eapply nth_error_In; exact Ev. }
  { apply Forall_forall. intros [u x] Hp. cbn [fst]. rewrite Forall_forall in F. apply F. rewrite combine_skipn in Hp. apply in_combine_l in Hp. rewrite <- (firstn_skipn (S s) vs). apply in_or_app. auto. }
  exists r. split; [destruct vs; [contradiction|]; rewrite E; reflexivity|]. split; [exact Lr|]. intros k Hk. rewrite LC, B. cbv zeta. fold used s. rewrite Ew.
  assert (N : nth_error (column k vs) s = Some (nth k v d)) by (unfold column; rewrite nth_error_map, Ev; reflexivity).
  destruct (D k) as (a & l & Ea). rewrite N. rewrite combine_column, skipn_map, C by exact Hk. rewrite Ea. reflexivity.
Qed.
End Avg.
Lemma abs_zero_real w : aeqb ra (aabs ra w) (a_of ra 0) = aeqb ra w (a_of ra 0).
Proof. change (Req_bool (Rabs w) 0 = Req_bool w 0). destruct (Req_bool_spec w 0) as [-> |H]; [rewrite Rabs_R0; apply Req_bool_true; reflexivity|apply Req_bool_false, Rabs_no_R0, H]. Qed.
Lemma abs_zero_double w : aeqb double_arith (aabs double_arith w) (a_of double_arith 0) = aeqb double_arith w (a_of double_arith 0).
Proof. destruct w as [s|[]| |[] m e B]; reflexivity. Qed.

(** ** Skew and Unskew in double arithmetic *)
Lemma double_half (x : double) : is_finite x = true -> Rabs (B2R x) < bpow radix2 1023 ->
  ddiv (dsub x (Bopp x)) (d_of_Z 2) = x.
Proof.
  intros F H. destruct x as [s|s| |s m e B]; try discriminate.
  { destruct s; apply B2SF_inj; vm_compute; reflexivity. }
  set (x := B754_finite s m e B : double) in *.
  assert (X : rnd64 (2 * B2R x) = 2 * B2R x).
  { unfold x. rewrite finite_val. destruct (finite_bounds m e B) as [B1 B2].
    replace (2 * (IZR (cond_Zopp s (Zpos m)) * bpow radix2 e)) with (IZR (cond_Zopp s (Zpos m)) * bpow radix2 (e + 1)) by (rewrite bpow_plus; change (bpow radix2 1) with 2; ring).
    apply rnd64_exact; [destruct s; cbn [cond_Zopp Z.opp Z.abs]; lia|lia]. }
  assert (S : B2R (dsub x (Bopp x)) = 2 * B2R x /\ is_finite (dsub x (Bopp x)) = true).
  { assert (FO : is_finite (Bopp x) = true) by (rewrite is_finite_Bopp; exact F).
    pose proof (Bminus_correct 53 1024 eq_refl eq_refl mode_NE x (Bopp x) F FO) as C. rewrite B2R_Bopp in C.
    change (round_mode mode_NE) with ZnearestE in C. fold fexp64 in C. fold (rnd64 (B2R x - - B2R x)) in C.
    replace (B2R x - - B2R x) with (2 * B2R x) in C by ring. rewrite X in C. rewrite Rlt_bool_true in C.
    - destruct C as (C1 & C2 & _). split; [exact C1|exact C2].
    - rewrite Rabs_mult, (Rabs_pos_eq 2) by lra. replace (bpow radix2 1024) with (2 * bpow radix2 1023) by (rewrite (bpow_plus radix2 1023 1 : bpow radix2 1024 = _); change (bpow radix2 1) with 2; ring). lra. }
  destruct S as [S1 S2]. set (y := dsub x (Bopp x)) in *. clearbody y.
  assert (D : B2R (d_of_Z 2) = 2) by (apply (d_of_Z_exact 2); lia).
  assert (Q : B2R y / B2R (d_of_Z 2) = B2R x) by (rewrite S1, D; field).
  destruct (ddiv_val y (d_of_Z 2)) as [V1 V2]; [exact S2|rewrite D; lra|rewrite Q; lra|].
  rewrite Q, rnd64_fix in V1. apply B2R_Bsign_inj; [exact V2|exact F|exact V1|].
  assert (NZ : B2R x <> 0).
  { unfold x. rewrite finite_val. apply Rmult_integral_contrapositive. split; [|apply not_eq_sym, Rlt_not_eq, bpow_gt_0]. destruct s; cbn [cond_Zopp]; [apply not_0_IZR; lia|apply not_0_IZR; lia]. }
  assert (SG : forall z : double, is_finite z = true -> B2R z <> 0 -> Bsign z = Rlt_bool (B2R z) 0).
  { intros [sz|sz| |sz mz ez Bz] Fz Hz; try discriminate; [contradiction|]. cbn [Bsign]. rewrite finite_val. destruct sz; cbn [cond_Zopp].
    - symmetry. apply Rlt_bool_true. pose proof (bpow_gt_0 radix2 ez). assert (IZR (- Zpos mz) < 0) by (apply IZR_lt; lia). nra.
    - symmetry. apply Rlt_bool_false. pose proof (bpow_gt_0 radix2 ez). assert (0 < IZR (Zpos mz)) by (apply IZR_lt; lia). nra. }
  rewrite (SG _ V2), (SG _ F), V1; congruence.
Qed.
Lemma unskew_skew_double (x y z : double) : Forall (fun c => is_finite c = true /\ Rabs (B2R c) < bpow radix2 1023) [x; y; z] ->
  Unskew double_arith (Skew double_arith (x, y, z)) = (x, y, z).
Proof.
  intros F. rewrite !Forall_cons_iff in F. destruct F as ([Fx Hx] & [Fy Hy] & [Fz Hz] & _).
  transitivity (ddiv (dsub x (Bopp x)) (d_of_Z 2), ddiv (dsub y (Bopp y)) (d_of_Z 2), ddiv (dsub z (Bopp z)) (d_of_Z 2)); [reflexivity|].
  rewrite !double_half by assumption. reflexivity.
Qed.
Lemma unhat_hat_double (v : double * double * double) (x y z : double) : Forall (fun c => is_finite c = true /\ Rabs (B2R c) < bpow radix2 1023) [x; y; z] ->
  TwistUnhat double_arith (TwistHat double_arith (v, (x, y, z))) = (v, (x, y, z)).
Proof.
  intros F. destruct v as [[a b] c]. unfold TwistUnhat. apply f_equal2; [reflexivity|].
  transitivity (Unskew double_arith (Skew double_arith (x, y, z))); [reflexivity|apply unskew_skew_double, F].
Qed.
Definition d_2_1023 : double := d_of_Z (2 ^ 1023).
Lemma unskew_overflow : exists y z, Unskew double_arith (Skew double_arith (d_2_1023, d0, d0)) = (dinf, y, z).
Proof. eexists. eexists. transitivity (ddiv (dsub d_2_1023 (Bopp d_2_1023)) (d_of_Z 2), ddiv (dsub d0 (Bopp d0)) (d_of_Z 2), ddiv (dsub d0 (Bopp d0)) (d_of_Z 2)); [reflexivity|].
  apply f_equal2; [|reflexivity]. apply f_equal2; [|reflexivity]. apply B2SF_inj. vm_compute. reflexivity. Qed.

(** ** The weighted cosine in double arithmetic *)
Lemma clamp_cos (r : double) : let c := std_max double_arith (Bopp (d_of_Z 1)) (std_min double_arith r (d_of_Z 1)) in
  is_finite c = true /\ -1 <= B2R c <= 1.
Proof.
  destruct (d_of_Z_exact 1 ltac:(lia)) as [O1 O2]. set (one := d_of_Z 1) in *. clearbody one.
  assert (M1 : B2R (Bopp one) = -1) by (rewrite B2R_Bopp, O1; reflexivity). assert (M2 : is_finite (Bopp one) = true) by (rewrite is_finite_Bopp; exact O2).
  set (mone := Bopp one) in *. clearbody mone. cbv zeta. unfold std_max, std_min. cbn [altb double_arith].
  destruct (dlt one r) eqn:L.
  - destruct (dlt mone one); [split; [exact O2|lra]|split; [exact M2|lra]].
  - destruct (dlt mone r) eqn:L2; [|split; [exact M2|lra]].
    assert (F : is_finite r = true).
    { destruct r as [s|s| |s m e B]; try reflexivity; destruct one as [so|so| |so mo eo Bo], mone as [sm|sm| |sm mm em Bm]; try discriminate; destruct s; cbn in L, L2; try discriminate; try (destruct so; discriminate); try (destruct sm; discriminate). }
    split; [exact F|]. apply dlt_R in L2; [|assumption..]. assert (~ B2R one < B2R r) by (intros C; apply dlt_R in C; [congruence|assumption..]). lra.
Qed.
Lemma cosine_double u v w c : WeightedCosineAngleBetweenVectors double_arith u v w = Ok c -> is_finite c = true /\ -1 <= B2R c <= 1.
Proof.
  unfold WeightedCosineAngleBetweenVectors. intros H. destruct (WeightedNorm double_arith u w) as [n| | |]; try discriminate. destruct (WeightedNorm double_arith v w) as [n'| | |]; try discriminate.
  cbn [bind] in H. destruct (_ && _)%bool; [|discriminate]. destruct (WeightedDotProduct double_arith u v w) as [p| | |]; try discriminate. cbn [bind] in H. injection H as <-.
  apply clamp_cos.
Qed.
