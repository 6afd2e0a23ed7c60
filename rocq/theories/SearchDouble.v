(** Non-negative doubles satisfy the cost laws of SearchSpec. *)
From Coq Require Import ZArith Reals Lra Lia Bool.
From Flocq Require Import Core BinarySingleNaN.
From Verif Require Import Base Double SearchModel SearchSpec.

Definition nonneg (x : double) : bool := dle d0 x.
Definition cost : Type := { x : double | nonneg x = true }.

Lemma nonneg_cases x : nonneg x = true ->
  x = dinf \/ (is_finite x = true /\ (0 <= B2R x)%R).
Proof.
  intros H. destruct (is_finite x) eqn:F.
  - right. split; [reflexivity|]. unfold nonneg, dle in H. rewrite Bleb_correct in H by (exact F || reflexivity).
    simpl in H. revert H. case Rle_bool_spec; [auto|discriminate].
  - left. destruct x as [s|s| |s m e B]; try discriminate. destruct s; [discriminate|reflexivity].
Qed.

(** Sum of two non-negative doubles: infinity, or the rounded sum. *)
Lemma dadd_cases x y : nonneg x = true -> nonneg y = true ->
  (dadd x y = dinf /\ (x = dinf \/ y = dinf \/
     (is_finite x = true /\ is_finite y = true /\ (bpow radix2 1024 <= rnd64 (B2R x + B2R y))%R))) \/
  (is_finite x = true /\ is_finite y = true /\ is_finite (dadd x y) = true /\
   B2R (dadd x y) = rnd64 (B2R x + B2R y) /\ (rnd64 (B2R x + B2R y) < bpow radix2 1024)%R).
Proof.
  intros Hx Hy. destruct (nonneg_cases x Hx) as [->|[Fx Px]].
  { left. split; [|auto]. destruct (nonneg_cases y Hy) as [->|[Fy Py]]; [reflexivity|].
    destruct y; try discriminate; reflexivity. }
  destruct (nonneg_cases y Hy) as [->|[Fy Py]].
  { left. split; [|auto]. destruct x; try discriminate; reflexivity. }
  assert (0 <= rnd64 (B2R x + B2R y))%R as Pr by (rewrite <- rnd64_0; apply rnd64_mono; lra).
  pose proof (Bplus_correct 53 1024 eq_refl eq_refl mode_NE x y Fx Fy) as H.
  change (round_mode mode_NE) with ZnearestE in H. fold fexp64 in H. fold (rnd64 (B2R x + B2R y)) in H.
  rewrite Rabs_pos_eq in H by exact Pr. revert H. case Rlt_bool_spec; intros HB H.
  - right. destruct H as (H1 & H2 & _). repeat split; auto.
  - left. split; [|right; right; auto]. destruct H as [H1 H2].
    assert (Bsign x = Bsign y -> Bsign x = false \/ rnd64 (B2R x + B2R y) = 0%R) as HS.
    { intros E. destruct (Bsign x) eqn:S; [|auto]. right.
      assert (forall z : double, Bsign z = true -> is_finite z = true -> (0 <= B2R z)%R -> B2R z = 0%R) as N.
      { intros z Sz Fz Pz. destruct z as [s|s| |s m e B]; try discriminate; [reflexivity|].
        simpl in Sz. subst s. exfalso. simpl in Pz.
        pose proof (F2R_lt_0 radix2 (Float radix2 (Zneg m) e) eq_refl). simpl in *. lra. }
      rewrite (N x S Fx Px), (N y (eq_sym E) Fy Py), Rplus_0_r. apply rnd64_0. }
    destruct (HS H2) as [S|S].
    + rewrite S in H1. unfold dadd. destruct (Bplus mode_NE x y) as [s|s| |s m e B]; try discriminate H1.
      simpl in H1. injection H1 as ->. reflexivity.
    + rewrite S in HB. pose proof (bpow_gt_0 radix2 1024). lra.
Qed.

Lemma dadd_nonneg x y : nonneg x = true -> nonneg y = true -> nonneg (dadd x y) = true.
Proof.
  intros Hx Hy. destruct (dadd_cases x y Hx Hy) as [[-> _]|(Fx & Fy & F & E & _)]; [reflexivity|].
  unfold nonneg, dle. rewrite Bleb_correct by (exact F || reflexivity). simpl. rewrite E.
  apply Rle_bool_true. destruct (nonneg_cases x Hx) as [->|[_ Px]]; [discriminate|].
  destruct (nonneg_cases y Hy) as [->|[_ Py]]; [discriminate|].
  rewrite <- rnd64_0. apply rnd64_mono. lra.
Qed.

Definition double_cost : cost_ops cost := {|
  czero := exist _ d0 eq_refl;
  cinf := exist _ dinf eq_refl;
  cadd x y := exist _ (dadd (proj1_sig x) (proj1_sig y))
                (dadd_nonneg _ _ (proj2_sig x) (proj2_sig y));
  cltb x y := dlt (proj1_sig x) (proj1_sig y);
  cgeb x y := dle (proj1_sig y) (proj1_sig x);
  cisinf x := match proj1_sig x with B754_infinity _ => true | _ => false end |}.

(** The order on non-negative doubles. *)
Definition dleR (x y : double) : Prop := y = dinf \/ (is_finite x = true /\ is_finite y = true /\ (B2R x <= B2R y)%R).

Lemma dlt_false x y : nonneg x = true -> nonneg y = true -> dlt y x = false <-> dleR x y.
Proof.
  intros Hx Hy. unfold dlt, dleR. destruct (nonneg_cases x Hx) as [->|[Fx Px]], (nonneg_cases y Hy) as [->|[Fy Py]].
  - split; [auto|reflexivity].
  - split.
    + intros H. destruct y as [s|s| |s m e B]; try discriminate; destruct s; discriminate.
    + intros [->|(E & _)]; discriminate.
  - split; [auto|]. intros _. destruct x as [s|s| |s m e B]; try discriminate; destruct s; reflexivity.
  - rewrite Bltb_correct by assumption. case Rlt_bool_spec; intros H; split; auto; try discriminate.
    + intros [->|(_ & _ & H')]; [discriminate|lra].
Qed.

Lemma dle_true x y : nonneg x = true -> nonneg y = true -> dle x y = true <-> dleR x y.
Proof.
  intros Hx Hy. unfold dle, dleR. destruct (nonneg_cases x Hx) as [->|[Fx Px]], (nonneg_cases y Hy) as [->|[Fy Py]].
  - split; [auto|reflexivity].
  - split.
    + intros H. destruct y as [s|s| |s m e B]; try discriminate; destruct s; discriminate.
    + intros [->|(E & _)]; discriminate.
  - split; [auto|]. intros _. destruct x as [s|s| |s m e B]; try discriminate; destruct s; reflexivity.
  - rewrite Bleb_correct by assumption. case Rle_bool_spec; intros H; split; auto; try discriminate.
    intros [->|(_ & _ & H')]; [discriminate|lra].
Qed.

Lemma fin_nonneg x : nonneg x = true -> is_finite x = true -> (0 <= B2R x)%R.
Proof. intros H F. destruct (nonneg_cases x H) as [->|[_ P]]; [discriminate|exact P]. Qed.

Lemma dadd_comm_val x y : nonneg x = true -> nonneg y = true -> dleR (dadd x y) (dadd y x).
Proof.
  intros Hx Hy. destruct (dadd_cases y x Hy Hx) as [[-> _]|(Fy & Fx & F & E & B)]; [left; reflexivity|].
  right. destruct (dadd_cases x y Hx Hy) as [[E' [->|[->|(_ & _ & B')]]]|(_ & _ & F' & E' & _)]; try discriminate.
  - rewrite Rplus_comm in B'. lra.
  - repeat split; auto. rewrite E, E', Rplus_comm. lra.
Qed.

Lemma dadd_mono a b w : nonneg a = true -> nonneg b = true -> nonneg w = true -> dleR a b -> dleR (dadd a w) (dadd b w).
Proof.
  intros Ha Hb Hw [->|(Fa & Fb & Hle)].
  - left. destruct (nonneg_cases w Hw) as [->|[Fw _]]; [reflexivity|]. destruct w; try discriminate; reflexivity.
  - destruct (dadd_cases b w Hb Hw) as [[-> _]|(_ & Fw & F & E & B)]; [left; reflexivity|]. right.
    assert (rnd64 (B2R a + B2R w) <= rnd64 (B2R b + B2R w))%R as M by (apply rnd64_mono; lra).
    destruct (dadd_cases a w Ha Hw) as [[E' [->|[->|(_ & _ & B')]]]|(_ & _ & F' & E' & _)]; try discriminate; [lra|].
    repeat split; auto. rewrite E, E'. exact M.
Qed.

Lemma dleR_trans a b c : dleR a b -> dleR b c -> dleR a c.
Proof.
  intros [->|(F1 & F2 & H1)] [->|(F3 & F4 & H2)]; try (left; reflexivity); try discriminate.
  right. repeat split; auto. lra.
Qed.

Lemma double_laws : cost_laws double_cost.
Proof.
  assert (forall x y : cost, cle double_cost x y <-> dleR (proj1_sig x) (proj1_sig y)) as LE.
  { intros [x Hx] [y Hy]. apply dlt_false; assumption. }
  assert (forall a w, nonneg a = true -> nonneg w = true -> dleR a (dadd a w)) as INF.
  { intros a w Ha Hw. destruct (dadd_cases a w Ha Hw) as [[-> _]|(Fa & Fw & F & E & _)]; [left; reflexivity|].
    right. repeat split; auto. rewrite E, <- (rnd64_fix a) at 1. apply rnd64_mono. pose proof (fin_nonneg w Hw Fw). lra. }
  constructor.
  - intros [a Ha]. apply LE. simpl. destruct (nonneg_cases a Ha) as [->|[F _]]; [left; reflexivity|right; repeat split; auto; lra].
  - intros a b c H1 H2. apply LE in H1, H2. apply LE. eapply dleR_trans; eauto.
  - intros [a Ha] [b Hb]. rewrite !LE. simpl.
    destruct (nonneg_cases a Ha) as [->|[Fa _]]; [right; left; reflexivity|].
    destruct (nonneg_cases b Hb) as [->|[Fb _]]; [left; left; reflexivity|].
    destruct (Rle_dec (B2R a) (B2R b)); [left; right; auto|right; right; repeat split; auto; lra].
  - intros [a Ha] [b Hb]. rewrite LE. apply dle_true; assumption.
  - intros [a Ha] [b Hb] [w Hw] H. apply LE in H. apply LE. simpl in *. apply dadd_mono; assumption.
  - intros [a Ha] [w Hw] [v Hv] H. apply LE in H. apply LE. simpl in *.
    eapply dleR_trans; [apply dadd_comm_val; assumption|].
    eapply dleR_trans; [|apply dadd_comm_val; assumption]. apply dadd_mono; assumption.
  - intros [a Ha] [w Hw] _. apply LE. simpl. apply INF; assumption.
  - intros [a Ha] [w Hw] _. apply LE. simpl.
    eapply dleR_trans; [apply INF; [exact Ha|exact Hw]|apply dadd_comm_val; assumption].
  - intros [a Ha]. apply LE. left. reflexivity.
  - reflexivity.
  - intros [a Ha]. rewrite LE. simpl. destruct (nonneg_cases a Ha) as [->|[F _]].
    + split; [left; reflexivity|reflexivity].
    + split; [destruct a; discriminate|]. intros [->|(E & _)]; discriminate.
Qed.
