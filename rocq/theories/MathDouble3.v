(** Distances of std::vector<double> and averages in IEEE binary64. *)
From Coq Require Import Reals Lra Psatz.
From Flocq Require Import Core BinarySingleNaN.
From Verif Require Import Base UtilityModel Double DoubleFacts MathModel MathReal MathDouble MathDouble2.
Local Open Scope R_scope.

Definition class_opp (a b : double) : Prop :=
  (is_nan a = true /\ is_nan b = true) \/ (is_nan a = false /\ is_finite a = false /\ is_nan b = false /\ is_finite b = false) \/
  (is_finite a = true /\ is_finite b = true /\ B2R a = - B2R b).

Lemma infinite_cases (a : double) : is_nan a = false -> is_finite a = false -> exists s, a = B754_infinity s.
Proof. destruct a; try discriminate; eauto. Qed.
Lemma square_finite (a b : double) : is_finite a = true -> is_finite b = true -> B2R a = - B2R b -> dmul a a = dmul b b.
Proof.
  intros Fa Fb E.
  pose proof (Bmult_correct 53 1024 eq_refl eq_refl mode_NE a a) as Ca. pose proof (Bmult_correct 53 1024 eq_refl eq_refl mode_NE b b) as Cb.
  change (round_mode mode_NE) with ZnearestE in Ca, Cb. fold fexp64 in Ca, Cb.
  replace (B2R a * B2R a) with (B2R b * B2R b) in Ca by (rewrite E; ring).
  unfold dmul. destruct (Rlt_bool (Rabs (round radix2 fexp64 ZnearestE (B2R b * B2R b))) (bpow radix2 1024)) eqn:D.
  - destruct Ca as (Va & FFa & Sa), Cb as (Vb & FFb & Sb). rewrite Fa in FFa. rewrite Fb in FFb.
    assert (FFa' : is_finite (Bmult mode_NE a a) = true) by exact FFa. assert (FFb' : is_finite (Bmult mode_NE b b) = true) by exact FFb.
    assert (NN : forall x : double, is_finite x = true -> is_nan x = false) by (intros [ | | | ]; cbn; congruence).
    apply B2R_Bsign_inj; auto; [etransitivity; [exact Va|symmetry; exact Vb]|].
    pose proof (Sa (NN _ FFa')) as Sa'. pose proof (Sb (NN _ FFb')) as Sb'. rewrite xorb_nilpotent in Sa', Sb'. etransitivity; [exact Sa'|symmetry; exact Sb'].
  - apply B2SF_inj. rewrite xorb_nilpotent in Ca, Cb. etransitivity; [exact Ca|symmetry; exact Cb].
Qed.
Lemma square_opp a b : class_opp a b -> dmul a a = dmul b b.
Proof.
  intros [[H1 H2]|[(H1 & H2 & H3 & H4)|(F1 & F2 & E)]].
  - destruct a; try discriminate. destruct b; try discriminate. reflexivity.
  - destruct (infinite_cases _ H1 H2) as [s ->], (infinite_cases _ H3 H4) as [t ->]. destruct s, t; reflexivity.
  - apply square_finite; assumption.
Qed.
Lemma overflow_class x s : B2SF (x : double) = binary_overflow 53 1024 mode_NE s -> is_nan x = false /\ is_finite x = false.
Proof. intros H. assert (binary_overflow 53 1024 mode_NE s = SpecFloat.S754_infinity s) as E by reflexivity. rewrite E in H. destruct x; try discriminate. auto. Qed.
Lemma sub_opp x y : class_opp (dsub x y) (dsub y x).
Proof.
  destruct (is_finite x) eqn:Fx, (is_finite y) eqn:Fy.
  2-4: destruct x as [sx|sx| |sx mx ex Bx], y as [sy|sy| |sy my ey By]; try discriminate;
    unfold class_opp; try (destruct sx); try (destruct sy); cbn; auto 10.
  pose proof (Bminus_correct 53 1024 eq_refl eq_refl mode_NE x y Fx Fy) as C1. pose proof (Bminus_correct 53 1024 eq_refl eq_refl mode_NE y x Fy Fx) as C2.
  change (round_mode mode_NE) with ZnearestE in C1, C2. fold fexp64 in C1, C2.
  replace (B2R y - B2R x) with (- (B2R x - B2R y)) in C2 by ring.
  rewrite round_NE_opp, Rabs_Ropp in C2.
  destruct (Rlt_bool (Rabs (round radix2 fexp64 ZnearestE (B2R x - B2R y))) (bpow radix2 1024)) eqn:D.
  - right; right. destruct C1 as (V1 & F1 & _), C2 as (V2 & F2 & _). split; [exact F1|]. split; [exact F2|]. etransitivity; [exact V1|]. symmetry. etransitivity; [apply f_equal; exact V2|]. apply Ropp_involutive.
  - right; left. destruct C1 as [C1 _], C2 as [C2 _]. pose proof (overflow_class (dsub x y) _ C1). pose proof (overflow_class (dsub y x) _ C2). tauto.
Qed.

Notation sqd := (SquaredDistance double_arith).
Lemma sqd_sym p q : sqd p q = sqd q p.
Proof.
  unfold SquaredDistance. rewrite (Nat.eqb_sym (length q)). destruct (Nat.eqb_spec (length p) (length q)) as [E|E]; [|reflexivity]. f_equal.
  cbn [aadd amul asub a_of double_arith]. generalize (d_of_Z 0) as a. revert q E.
  induction p as [|x p IH]; intros [|y q] E a; try discriminate; cbn [zip_with fold_left]; [reflexivity|].
  rewrite (square_opp (dsub y x) (dsub x y)) by apply sub_opp. apply IH. cbn in E. lia.
Qed.
Lemma distance_sym p q : Distance double_arith p q = Distance double_arith q p.
Proof. unfold Distance. rewrite (Nat.eqb_sym (length q)), (sqd_sym p q). reflexivity. Qed.

Lemma dsub_self (x : double) : is_finite x = true -> dsub x x = d0.
Proof.
  intros F. pose proof (Bminus_correct 53 1024 eq_refl eq_refl mode_NE x x F F) as C. change (round_mode mode_NE) with ZnearestE in C. fold fexp64 in C.
  rewrite Rminus_diag in C. rewrite round_0 in C by typeclasses eauto. rewrite Rabs_R0, Rlt_bool_true in C by apply bpow_gt_0.
  destruct C as (V & G & S). rewrite Rcompare_Eq in S by reflexivity.
  assert (S' : Bsign (dsub x x) = false).
  { etransitivity; [exact S|]. destruct x as [s|s| |s m e B]; try discriminate; destruct s; reflexivity. }
  apply B2R_Bsign_inj; auto.
Qed.
Lemma distance_self p : Forall (fun x => is_finite x = true) p -> Distance double_arith p p = Ok d0.
Proof.
  intros H. unfold Distance, SquaredDistance. rewrite Nat.eqb_refl. cbn [bind aadd amul asub a_of asqrt double_arith].
  assert (E : fold_left (fun s d => dadd s (dmul d d)) (zip_with (fun x y => dsub y x) p p) (d_of_Z 0) = d_of_Z 0).
  { induction H as [|x p Hx _ IH]; cbn [zip_with fold_left]; [reflexivity|]. rewrite (dsub_self x Hx). exact IH. }
  rewrite E. reflexivity.
Qed.

(** Averages of equal values. *)
Definition acc_ok (c : R) (s : double * double) : Prop :=
  is_finite (fst s) = true /\ B2R (fst s) = c /\ (snd s = dinf \/ is_finite (snd s) = true /\ 0 < B2R (snd s)).
Lemma same_plus_zero (x z : double) : is_finite x = true -> B2R z = 0 -> is_finite z = true -> B2R (dadd x z) = B2R x /\ is_finite (dadd x z) = true.
Proof.
  intros Fx Z Fz. pose proof (Bplus_correct 53 1024 eq_refl eq_refl mode_NE x z Fx Fz) as C. change (round_mode mode_NE) with ZnearestE in C. fold fexp64 in C.
  rewrite Z, Rplus_0_r in C. change (round radix2 fexp64 ZnearestE (B2R x)) with (rnd64 (B2R x)) in C. rewrite rnd64_fix in C.
  rewrite Rlt_bool_true in C by (apply abs_B2R_lt_emax). destruct C as (V & F & _). split; [exact V|exact F].
Qed.
Lemma add_weight (s w : double) : (s = dinf \/ is_finite s = true /\ 0 < B2R s) -> is_finite w = true -> 0 <= B2R w ->
  dadd s w = dinf \/ is_finite (dadd s w) = true /\ 0 < B2R (dadd s w).
Proof.
  intros [->|[Fs Ps]] Fw Pw.
  - left. destruct w as [sw|sw| |sw mw ew Bw]; try discriminate; reflexivity.
  - pose proof (Bplus_correct 53 1024 eq_refl eq_refl mode_NE s w Fs Fw) as C. change (round_mode mode_NE) with ZnearestE in C. fold fexp64 in C.
    destruct (Rlt_bool _ _) eqn:D in C.
    + right. destruct C as (V & F & _). split; [exact F|]. assert (V' : B2R (dadd s w) = rnd64 (B2R s + B2R w)) by exact V. rewrite V'.
      apply Rlt_le_trans with (B2R s); [exact Ps|]. rewrite <- (rnd64_fix s) at 1. apply rnd64_mono. lra.
    + left. destruct C as [C1 C2]. assert (Bsign s = false).
      { destruct s as [ss|ss| |ss ms es Bs]; try discriminate; [cbn in Ps; lra|]. destruct ss; [|reflexivity]. exfalso.
        rewrite finite_val in Ps. cbn [cond_Zopp] in Ps. pose proof (bpow_gt_0 radix2 es). assert (IZR (- Z.pos ms) < 0) by (apply IZR_lt; lia). nra. }
      rewrite H in C1. apply B2SF_inj. exact C1.
Qed.

Lemma weight_share (s w : double) : (s = dinf \/ is_finite s = true /\ 0 < B2R s) -> is_finite w = true -> 0 <= B2R w -> is_finite (ddiv w (dadd s w)) = true.
Proof.
  intros Hs Fw Pw. destruct (add_weight s w Hs Fw Pw) as [->|[F P]].
  - destruct w as [sw|sw| |sw mw ew Bw]; try discriminate; reflexivity.
  - destruct Hs as [->|[Fs Ps]]; [destruct w as [sw|sw| |sw mw ew Bw]; discriminate|].
    assert (V : B2R (dadd s w) = rnd64 (B2R s + B2R w)).
    { pose proof (Bplus_correct 53 1024 eq_refl eq_refl mode_NE s w Fs Fw) as C. change (round_mode mode_NE) with ZnearestE in C. fold fexp64 in C.
      destruct (Rlt_bool _ _) eqn:D in C; [exact (proj1 C)|]. destruct C as [C _]. destruct (overflow_class (dadd s w) _ C). congruence. }
    assert (W : B2R w <= B2R (dadd s w)) by (rewrite V; rewrite <- (rnd64_fix w) at 1; apply rnd64_mono; lra).
    apply ddiv_val; [exact Fw|lra|]. apply Rle_trans with 1; [|change 1 with (bpow radix2 0); apply bpow_le; lia].
    unfold Rdiv. rewrite Rabs_mult, (Rabs_pos_eq (B2R w)), (Rabs_pos_eq (/ _)) by (try (left; apply Rinv_0_lt_compat); assumption).
    apply Rmult_le_reg_r with (B2R (dadd s w)); [exact P|]. rewrite Rmult_assoc, Rinv_l by lra. lra.
Qed.
Lemma average_step_equal c s v w : acc_ok c s -> is_finite v = true -> B2R v = c -> is_finite w = true -> 0 <= B2R w ->
  acc_ok c (average_step double_arith s (v, w)).
Proof.
  intros (Fa & Va & Hs) Fv Vv Fw Pw. unfold average_step, acc_ok. cbn [fst snd aadd adiv amul asub double_arith].
  destruct (dsub_val v (fst s) Fv Fa) as [Ed Fd]; [rewrite Vv, Va, Rminus_diag, Rabs_R0; apply bpow_ge_0|].
  rewrite Vv, Va, Rminus_diag, rnd64_0 in Ed. pose proof (weight_share (snd s) w Hs Fw Pw) as Fe.
  destruct (dmul_val _ _ Fe Fd) as [Em Fm]; [rewrite Ed, Rmult_0_r, Rabs_R0; apply bpow_ge_0|].
  rewrite Ed, Rmult_0_r, rnd64_0 in Em. destruct (same_plus_zero (fst s) _ Fa Em Fm) as [Ep Fp].
  split; [exact Fp|]. split; [rewrite Ep; exact Va|]. apply add_weight; assumption.
Qed.
Lemma average_fold_equal c (l : list (double * double)) s : acc_ok c s ->
  Forall (fun p => is_finite (fst p) = true /\ B2R (fst p) = c /\ is_finite (snd p) = true /\ 0 <= B2R (snd p)) l ->
  acc_ok c (fold_left (average_step double_arith) l s).
Proof.
  intros H F. revert s H. induction F as [|[v w] l (F1 & F2 & F3 & F4) F IH]; intros s H; cbn [fold_left]; [exact H|].
  apply IH. apply average_step_equal; assumption.
Qed.
Lemma abs_nonneg (w : double) : is_finite w = true -> is_finite (Babs w) = true /\ 0 <= B2R (Babs w).
Proof. intros F. rewrite is_finite_Babs, B2R_Babs. split; [exact F|apply Rabs_pos]. Qed.
Lemma starting_double (ws : list double) : Forall (fun w => is_finite w = true) ws -> Exists (fun w => B2R w <> 0) ws ->
  exists w, nth_error ws (starting_index double_arith ws) = Some w /\ B2R w <> 0.
Proof.
  intros F E. induction ws as [|w ws IH]; [inversion E|]. inversion F as [|? ? Fw Fs]; subst. cbn [starting_index aeqb aabs a_of double_arith].
  destruct d0_val as [Z0 FZ].
  rewrite (Beqb_correct 53 1024 (Babs w) (d_of_Z 0)) by (try rewrite is_finite_Babs; assumption). rewrite B2R_Babs, Z0.
  destruct (Req_bool_spec (Rabs (B2R w)) 0) as [H|H].
  - assert (B2R w = 0) by (destruct (Req_dec (B2R w) 0) as [X|X]; [exact X|apply Rabs_no_R0 in X; contradiction]).
    inversion E; subst; [contradiction|]. cbn [nth_error]. apply IH; assumption.
  - exists w. split; [reflexivity|]. intros Z. apply H. rewrite Z. apply Rabs_R0.
Qed.
Lemma average_equal c (values weights : list double) : values <> [] ->
  Forall (fun v => is_finite v = true /\ B2R v = c) values ->
  weights = [] \/ length weights = length values /\ Forall (fun w => is_finite w = true) weights /\ Exists (fun w => B2R w <> 0) weights ->
  exists a, AverageStdVectorDouble double_arith values weights = Ok a /\ is_finite a = true /\ B2R a = c.
Proof.
  intros HV F HW. unfold AverageStdVectorDouble. destruct values as [|v0 vs]; [contradiction|]. set (values := v0 :: vs) in *.
  assert (G : negb (length weights =? length values)%nat && negb (length weights =? 0)%nat = false).
  { destruct HW as [-> | [E _]]; [reflexivity|]. rewrite E, Nat.eqb_refl. reflexivity. }
  rewrite G. clear G. destruct d1_val as [Z1 FO].
  set (used := if (length weights =? 0)%nat then repeat (a_of double_arith 1) (length values) else map (aabs double_arith) weights).
  assert (U : length used = length values /\ Forall (fun w => is_finite w = true /\ 0 <= B2R w) used /\
    exists w, nth_error used (starting_index double_arith weights) = Some w /\ 0 < B2R w).
  { destruct HW as [-> | (E & FW & EW)].
    - unfold used. cbn [length Nat.eqb starting_index a_of double_arith]. split; [apply repeat_length|]. split.
      + apply Forall_forall. intros w Hw. apply repeat_spec in Hw. subst w. rewrite Z1. split; [exact FO|lra].
      + exists (d_of_Z 1). split; [reflexivity|]. rewrite Z1. lra.
    - assert (NE : (length weights =? 0)%nat = false) by (rewrite E; reflexivity). unfold used. rewrite NE. cbn [aabs double_arith].
      split; [rewrite map_length; exact E|]. split.
      + apply Forall_forall. intros w Hw. apply in_map_iff in Hw as (u & <- & Hu). apply abs_nonneg. rewrite Forall_forall in FW. auto.
      + destruct (starting_double weights FW EW) as (w & Hw & Nw). exists (Babs w). split; [rewrite nth_error_map, Hw; reflexivity|].
        rewrite B2R_Babs. apply Rabs_pos_lt, Nw. }
  destruct U as (UL & UF & w & Hw & Pw). clearbody used. set (n := starting_index double_arith weights) in *.
  assert (Hn : (n < length values)%nat) by (rewrite <- UL; apply nth_error_Some; rewrite Hw; discriminate).
  destruct (nth_error values n) as [v|] eqn:Ev; [|apply nth_error_None in Ev; lia]. rewrite Hw.
  assert (Fw : is_finite w = true) by (rewrite Forall_forall in UF; apply (UF w), nth_error_In with n, Hw).
  assert (Fv : is_finite v = true /\ B2R v = c) by (rewrite Forall_forall in F; apply F, nth_error_In with n, Ev).
  assert (A : acc_ok c (fold_left (average_step double_arith) (skipn (S n) (combine values used)) (v, w))).
  { apply average_fold_equal; [unfold acc_ok; cbn [fst snd]; tauto|]. apply Forall_forall. intros [a b] H.
    assert (In (a, b) (combine values used)) as H' by (rewrite <- (firstn_skipn (S n)); apply in_or_app; right; exact H).
    cbn [fst snd]. rewrite Forall_forall in F, UF. pose proof (F a (in_combine_l _ _ _ _ H')). pose proof (UF b (in_combine_r _ _ _ _ H')). tauto. }
  destruct A as (A1 & A2 & _). eauto.
Qed.
