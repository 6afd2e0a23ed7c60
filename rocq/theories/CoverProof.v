(** Proofs for C174 and C175. *)
From Coq Require Import ZArith Reals Lra Lia Bool.
From Flocq Require Import Core BinarySingleNaN Relative.
From Verif Require Import Base ParallelismModel ParallelismProof Double DoubleFacts VoxelModel VoxelSpec VoxelProof VoxelFloat
  CoverSpec.
Local Open Scope R_scope.

Lemma positive_checked x : CheckPositiveValidD x = true <-> positive_length x.
Proof.
  unfold CheckPositiveValidD, positive_length. rewrite andb_true_iff. split; intros [F H]; split; auto.
  - apply (dlt_R d0 x) in H; auto.
  - apply (dlt_R d0 x); auto.
Qed.

Lemma i64_inv z r : i64 z = Ok r -> r = z /\ (int64_min <= z <= int64_max)%Z.
Proof.
  unfold i64. destruct (_ && _)%bool eqn:E; [|discriminate]. intros H. injection H as <-.
  apply andb_true_iff in E. destruct E. split; auto. lia.
Qed.

Lemma ceil_is x : ceil_to_int64 x <> UB -> is_finite x = true /\ ceil_to_int64 x = i64 (Zceil (B2R x)).
Proof.
  unfold ceil_to_int64. destruct (is_finite x) eqn:F; [|congruence]. intros _. split; auto.
  rewrite dfloor_Zfloor, B2R_Bopp. reflexivity.
Qed.

(** One axis. *)
Lemma axis x c n : positive_length x -> positive_length c -> sensible c x ->
  ceil_to_int64 (ddiv x c) = Ok n -> nearly_covers n c x /\ none_spare n c x /\ (0 < n)%Z.
Proof.
  intros [Fx Px] [Fc Pc] [S1 S2] H.
  destruct (ceil_is (ddiv x c)) as [Fq Eq]; [congruence|]. rewrite Eq in H.
  apply i64_inv in H. destruct H as [-> _].
  destruct (ddiv_val x c Fx) as [Ev _]; [lra| |].
  { rewrite Rabs_pos_eq; [|apply Rlt_le, Rlt_le_trans with (2 := S1), bpow_gt_0].
    apply Rle_trans with (1 := S2). apply bpow_le; lia. }
  rewrite Ev. set (t := B2R x / B2R c) in *.
  assert (Et : B2R x = t * B2R c) by (unfold t; field; lra).
  assert (Q1 : bpow radix2 (-1022) <= rnd64 t) by (apply rnd64_ge_bpow; [lia|exact S1]).
  assert (Q2 : rnd64 t <= bpow radix2 53) by (apply rnd64_le_bpow; [lia|exact S2]).
  pose proof (bpow_gt_0 radix2 (-1022)) as P.
  set (q := rnd64 t) in *. set (n := Zceil q).
  assert (U : q <= IZR n) by apply Zceil_ub.
  assert (L : IZR n < q + 1) by apply Zceil_lb.
  assert (Hn : (0 < n)%Z) by (apply lt_IZR; lra).
  assert (Hn2 : (n <= 2 ^ 53)%Z).
  { apply Zceil_glb. rewrite IZR_pow2 by lia. exact Q2. }
  split; [|split].
  - unfold nearly_covers. rewrite Et.
    assert (t <= IZR n * (1 + bpow radix2 (-53))); [|rewrite Rmult_assoc, (Rmult_comm (B2R c)), <- Rmult_assoc;
      apply Rmult_le_compat_r; lra].
    destruct (Rle_or_lt t (IZR n)) as [A|A].
    + apply Rle_trans with (1 := A). rewrite <- (Rmult_1_r (IZR n)) at 1. apply Rmult_le_compat_l; [lra|].
      pose proof (bpow_gt_0 radix2 (-53)). lra.
    + assert (G : q = IZR n).
      { apply Rle_antisym; [exact U|]. unfold q. rewrite <- (rnd64_IZR n) by lia. apply rnd64_mono. lra. }
      pose proof (relative_error_N_FLT_round radix2 (-1074) 53 eq_refl (fun x => negb (Z.even x)) t) as R.
      change (round radix2 (FLT_exp (-1074) 53) (Znearest (fun x : Z => negb (Z.even x))) t) with q in R.
      rewrite (Rabs_pos_eq q) in R by lra. rewrite G in R.
      specialize (R ltac:(rewrite Rabs_pos_eq by lra; apply Rle_trans with (2 := S1); apply bpow_le; lia)).
      rewrite Rabs_left1 in R by lra. change (/ 2 * bpow radix2 (- (53) + 1)) with (/2 * bpow radix2 (-52)) in R.
      replace (/2 * bpow radix2 (-52)) with (bpow radix2 (-53)) in R; [lra|].
      change (-52)%Z with (1 + -53)%Z. rewrite bpow_plus. simpl (bpow radix2 1). lra.
  - unfold none_spare. rewrite Et. apply Rmult_lt_compat_r; [exact Pc|].
    apply Rnot_le_lt. intros A.
    assert (q <= IZR (n - 1)).
    { unfold q. rewrite <- (rnd64_IZR (n - 1)) by lia. apply rnd64_mono. rewrite minus_IZR. exact A. }
    rewrite minus_IZR in H. lra.
  - exact Hn.
Qed.

Lemma bind3 {A B} (x : outcome A) (f : A -> outcome B) r :
  bind x f = Ok r -> exists a, x = Ok a /\ f a = Ok r.
Proof. apply bind_ok. Qed.

Definition filled (s : GridSizes) (cx cy cz : double) (nx ny nz : Z) : Prop :=
  cell_x_size s = cx /\ cell_y_size s = cy /\ cell_z_size s = cz /\
  num_x_cells s = nx /\ num_y_cells s = ny /\ num_z_cells s = nz /\
  x_size s = dmul (d_of_Z nx) cx /\ y_size s = dmul (d_of_Z ny) cy /\ z_size s = dmul (d_of_Z nz) cz /\
  inv_cell_x_size s = ddiv d1 cx /\ inv_cell_y_size s = ddiv d1 cy /\ inv_cell_z_size s = ddiv d1 cz /\
  sizes_valid s = true.
Lemma set_filled cx cy cz nx ny nz s : set_sizes cx cy cz nx ny nz = Ok s -> filled s cx cy cz nx ny nz.
Proof.
  unfold set_sizes. intros H. apply bind_ok in H. destruct H as (s1 & _ & H). injection H as <-.
  repeat split.
Qed.

Lemma by_size_inv cx cy cz xs ys zs s : GridSizesBySize cx cy cz xs ys zs = Ok s ->
  all_positive cx cy cz xs ys zs /\ exists nx ny nz,
  ceil_to_int64 (ddiv xs cx) = Ok nx /\ ceil_to_int64 (ddiv ys cy) = Ok ny /\ ceil_to_int64 (ddiv zs cz) = Ok nz /\
  filled s cx cy cz nx ny nz.
Proof.
  unfold GridSizesBySize, InitializeBySize.
  destruct (_ && _)%bool eqn:C; [|discriminate]. rewrite !andb_true_iff, !positive_checked in C.
  intros H. apply bind_ok in H. destruct H as (o & H & E).
  apply bind_ok in H. destruct H as (nx & N1 & H). apply bind_ok in H. destruct H as (ny & N2 & H).
  apply bind_ok in H. destruct H as (nz & N3 & H). apply bind_ok in H. destruct H as (s' & H & E').
  injection E' as <-. injection E as <-. split; [unfold all_positive; tauto|].
  exists nx, ny, nz. repeat split; auto; apply set_filled in H; destruct H; tauto.
Qed.

Lemma by_cells_inv cx cy cz nx ny nz s : GridSizesByCells cx cy cz nx ny nz = Ok s ->
  positive_length cx /\ positive_length cy /\ positive_length cz /\ (0 < nx)%Z /\ (0 < ny)%Z /\ (0 < nz)%Z /\
  filled s cx cy cz nx ny nz.
Proof.
  unfold GridSizesByCells, InitializeByCells.
  destruct (_ && _)%bool eqn:C; [|discriminate]. unfold CheckPositiveValidI in C.
  rewrite !andb_true_iff, !positive_checked, !Z.ltb_lt in C.
  intros H. apply bind_ok in H. destruct H as (o & H & E).
  apply bind_ok in H. destruct H as (s' & H & E'). injection E' as <-. injection E as <-.
  apply set_filled in H. tauto.
Qed.

Lemma ceil_no_throw x e : ceil_to_int64 x <> Throw e.
Proof. unfold ceil_to_int64, i64. destruct (is_finite x); [|discriminate]. destruct (_ && _)%bool; discriminate. Qed.

Lemma refused_iff cx cy cz xs ys zs :
  GridSizesBySize cx cy cz xs ys zs = Throw InvalidArgument <-> ~ all_positive cx cy cz xs ys zs.
Proof.
  unfold GridSizesBySize, InitializeBySize. destruct (_ && _)%bool eqn:C.
  - rewrite !andb_true_iff, !positive_checked in C.
    assert (all_positive cx cy cz xs ys zs) by (unfold all_positive; tauto).
    split; [|tauto]. intros H1. exfalso.
    destruct (ceil_to_int64 (ddiv xs cx)) eqn:E1; [|apply ceil_no_throw in E1; contradiction|discriminate..]. cbn [bind] in H1.
    destruct (ceil_to_int64 (ddiv ys cy)) eqn:E2; [|apply ceil_no_throw in E2; contradiction|discriminate..]. cbn [bind] in H1.
    destruct (ceil_to_int64 (ddiv zs cz)) eqn:E3; [|apply ceil_no_throw in E3; contradiction|discriminate..]. cbn [bind] in H1.
    unfold set_sizes, i64 in H1. destruct (_ && _)%bool; discriminate.
  - split; [|reflexivity]. intros _ (A1 & A2 & A3 & A4 & A5 & A6).
    apply positive_checked in A1, A2, A3, A4, A5, A6. rewrite A1, A2, A3, A4, A5, A6 in C. discriminate.
Qed.

Lemma ceil_ok x c : positive_length x -> positive_length c -> B2R x / B2R c <= bpow radix2 31 ->
  exists n, ceil_to_int64 (ddiv x c) = Ok n /\ (0 <= n <= 2 ^ 31)%Z.
Proof.
  intros [Fx Px] [Fc Pc] S.
  assert (T : 0 <= B2R x / B2R c) by (apply Rmult_le_pos; [lra|apply Rlt_le, Rinv_0_lt_compat; exact Pc]).
  destruct (ddiv_val x c Fx) as [Ev Fv]; [lra| |].
  { rewrite Rabs_pos_eq by exact T. apply Rle_trans with (1 := S). apply bpow_le; lia. }
  unfold ceil_to_int64. rewrite Fv, dfloor_Zfloor, B2R_Bopp.
  change (- Zfloor (- B2R (ddiv x c)))%Z with (Zceil (B2R (ddiv x c))). rewrite Ev.
  assert (Q1 : 0 <= rnd64 (B2R x / B2R c)) by (rewrite <- rnd64_0; apply rnd64_mono; exact T).
  assert (Q2 : rnd64 (B2R x / B2R c) <= bpow radix2 31) by (apply rnd64_le_bpow; [lia|exact S]).
  assert (B : (0 <= Zceil (rnd64 (B2R x / B2R c)) <= 2 ^ 31)%Z).
  { split.
    - apply le_IZR. apply Rle_trans with (1 := Q1). apply Zceil_ub.
    - apply Zceil_glb. rewrite IZR_pow2 by lia. exact Q2. }
  exists (Zceil (rnd64 (B2R x / B2R c))). split; [|exact B]. apply i64_ok. unfold int64_min, int64_max. lia.
Qed.

Lemma accepted cx cy cz xs ys zs : all_positive cx cy cz xs ys zs ->
  B2R xs / B2R cx <= bpow radix2 31 -> B2R ys / B2R cy <= bpow radix2 31 -> B2R zs / B2R cz <= bpow radix2 31 ->
  exists s, GridSizesBySize cx cy cz xs ys zs = Ok s.
Proof.
  intros (A1 & A2 & A3 & A4 & A5 & A6) X Y Z.
  destruct (ceil_ok xs cx A4 A1 X) as (nx & Ex & Bx). destruct (ceil_ok ys cy A5 A2 Y) as (ny & Ey & By).
  destruct (ceil_ok zs cz A6 A3 Z) as (nz & Ez & Bz).
  apply positive_checked in A1, A2, A3, A4, A5, A6.
  unfold GridSizesBySize, InitializeBySize. rewrite A1, A2, A3, A4, A5, A6, Ex, Ey, Ez. cbn [andb bind].
  unfold set_sizes. rewrite i64_ok by (unfold int64_min, int64_max; nia). cbn [bind]. eauto.
Qed.

(** C175: one axis. *)
Lemma product_val x y : is_finite (dmul x y) = true ->
  is_finite x = true /\ is_finite y = true /\ B2R (dmul x y) = rnd64 (B2R x * B2R y).
Proof.
  intros F. assert (is_finite x = true /\ is_finite y = true) as [Fx Fy].
  { destruct x, y; try discriminate F; auto. }
  split; [exact Fx|]. split; [exact Fy|].
  pose proof (Bmult_correct 53 1024 eq_refl eq_refl mode_NE x y) as C.
  change (Bmult mode_NE x y) with (dmul x y) in C.
  destruct (Rlt_bool _ _); [apply C|].
  rewrite <- is_finite_SF_B2SF in F. rewrite C in F. cbn in F. discriminate F.
Qed.

Lemma axis_monotone inv x x' i i' : 0 <= B2R inv -> B2R x <= B2R x' ->
  floor_to_int64 (dmul x inv) = Ok i -> floor_to_int64 (dmul x' inv) = Ok i' -> (i <= i')%Z.
Proof.
  unfold floor_to_int64. intros P L H H'.
  destruct (is_finite (dmul x inv)) eqn:F; [|discriminate].
  destruct (is_finite (dmul x' inv)) eqn:F'; [|discriminate].
  apply i64_inv in H. apply i64_inv in H'. destruct H as [-> _], H' as [-> _].
  rewrite !dfloor_Zfloor. apply Zfloor_le.
  apply product_val in F. apply product_val in F'. destruct F as (_ & _ & ->), F' as (_ & _ & ->).
  apply rnd64_mono. apply Rmult_le_compat_r; assumption.
Qed.

Lemma inverse_val c : ordinary_cell c -> is_finite (ddiv d1 c) = true /\
  exists e, Rabs e <= bpow radix2 (-53) /\ B2R (ddiv d1 c) = (1 / B2R c) * (1 + e).
Proof.
  intros (Fc & L & U). pose proof (bpow_gt_0 radix2 (-1020)) as P1. assert (Pc : 0 < B2R c) by lra.
  destruct d1_val as [E1 F1].
  assert (I1 : bpow radix2 (-970) <= 1 / B2R c).
  { unfold Rdiv. rewrite Rmult_1_l. change (-970)%Z with (- (970))%Z. rewrite bpow_opp.
    apply Rinv_le_contravar; assumption. }
  assert (I2 : 1 / B2R c <= bpow radix2 1020).
  { unfold Rdiv. rewrite Rmult_1_l. change 1020%Z with (- (-1020))%Z. rewrite bpow_opp.
    apply Rinv_le_contravar; assumption. }
  assert (P3 : 0 < 1 / B2R c) by (apply Rlt_le_trans with (2 := I1); apply bpow_gt_0).
  destruct (ddiv_val d1 c F1) as [Ed Fd]; [lra| |].
  { rewrite E1, Rabs_pos_eq by lra. apply Rle_trans with (1 := I2). apply bpow_le; lia. }
  rewrite E1 in Ed. split; [exact Fd|].
  destruct (rnd64_rel (1 / B2R c)) as (e1 & B1 & R1).
  { rewrite Rabs_pos_eq by lra. apply Rle_trans with (2 := I1). apply bpow_le. lia. }
  exists e1. split; auto. congruence.
Qed.

(** The scaled coordinate is within 2^-51 (1 + |t|)/1.9... of the true one. *)
Lemma scaled c x : ordinary_cell c -> is_finite x = true -> Rabs (B2R x / B2R c) <= bpow radix2 60 ->
  exists p, dmul x (ddiv d1 c) = p /\ is_finite p = true /\
  Rabs (B2R p - B2R x / B2R c) <= Rabs (B2R x / B2R c) * (3 * bpow radix2 (-53)) + bpow radix2 (-1000).
Proof.
  intros O Fx B. destruct (inverse_val c O) as (Fd & e1 & B1 & Ed).
  pose proof (bpow_gt_0 radix2 (-1020)) as P1.
  assert (Pc : 0 < B2R c) by (destruct O as (_ & ? & _); lra).
  set (t := B2R x / B2R c) in *.
  assert (Ep : B2R x * B2R (ddiv d1 c) = t * (1 + e1)) by (rewrite Ed; unfold t; field; lra).
  set (u := bpow radix2 (-53)) in *. assert (Pu : 0 < u) by apply bpow_gt_0.
  assert (Su : u <= / 9007199254740992) by (unfold u; simpl; lra).
  assert (A1 : Rabs (1 + e1) <= 1 + u).
  { apply Rle_trans with (1 := Rabs_triang _ _). rewrite Rabs_R1. lra. }
  assert (A2 : Rabs (t * (1 + e1)) <= Rabs t * (1 + u)).
  { rewrite Rabs_mult. apply Rmult_le_compat_l; [apply Rabs_pos|exact A1]. }
  destruct (dmul_val x (ddiv d1 c) Fx Fd) as [Em Fm].
  { rewrite Ep. apply Rle_trans with (1 := A2).
    apply Rle_trans with (bpow radix2 60 * 2).
    - apply Rmult_le_compat; try apply Rabs_pos; lra.
    - change 2 with (bpow radix2 1). rewrite <- bpow_plus. apply bpow_le. lia. }
  rewrite Ep in Em. exists (dmul x (ddiv d1 c)). split; [reflexivity|]. split; [exact Fm|]. rewrite Em.
  pose proof (error_N_FLT radix2 (-1074) 53 eq_refl (fun x => negb (Z.even x)) (t * (1 + e1))) as (e & d & He & Hd & _ & R).
  change (round radix2 (FLT_exp (-1074) 53) (Znearest (fun x : Z => negb (Z.even x))) (t * (1 + e1))) with (rnd64 (t * (1 + e1))) in R.
  rewrite R.
  assert (He' : Rabs e <= u).
  { apply Rle_trans with (1 := He). unfold u. change (/2 * bpow radix2 (-52) <= bpow radix2 (-53)).
    change (-52)%Z with (1 + -53)%Z. rewrite bpow_plus. simpl (bpow radix2 1). pose proof (bpow_gt_0 radix2 (-53)). lra. }
  assert (Hd' : Rabs d <= bpow radix2 (-1000)).
  { apply Rle_trans with (1 := Hd). apply Rle_trans with (bpow radix2 (-1074)); [|apply bpow_le; lia].
    pose proof (bpow_gt_0 radix2 (-1074)). lra. }
  replace (t * (1 + e1) * (1 + e) + d - t) with (t * (e1 + e + e1 * e) + d) by ring.
  apply Rle_trans with (1 := Rabs_triang _ _). apply Rplus_le_compat; [|exact Hd'].
  rewrite Rabs_mult. apply Rmult_le_compat_l; [apply Rabs_pos|].
  apply Rle_trans with (1 := Rabs_triang _ _). rewrite Rabs_mult.
  apply Rle_trans with (2 * u + u * u).
  - apply Rplus_le_compat; [apply Rle_trans with (1 := Rabs_triang _ _); lra|].
    apply Rmult_le_compat; try apply Rabs_pos; assumption.
  - nra.
Qed.

Lemma small_1000 : 0 < bpow radix2 (-1000) <= bpow radix2 (-60).
Proof. split; [apply bpow_gt_0|apply bpow_le; lia]. Qed.

Lemma axis_inside c x i : ordinary_cell c -> (Z.abs i <= 2 ^ 49)%Z -> well_inside c x i ->
  floor_to_int64 (dmul x (ddiv d1 c)) = Ok i.
Proof.
  intros O Hi (Fx & L & U). pose proof (bpow_gt_0 radix2 (-1020)) as P1.
  assert (Pc : 0 < B2R c) by (destruct O as (_ & ? & _); lra).
  set (t := B2R x / B2R c).
  assert (Et : B2R x = t * B2R c) by (unfold t; field; lra).
  rewrite Et in L, U. apply Rmult_le_reg_r in L; [|exact Pc]. apply Rmult_le_reg_r in U; [|exact Pc].
  unfold margin in L, U. set (a := Rabs (IZR i)) in *.
  assert (Ha : 0 <= a <= bpow radix2 49).
  { split; [apply Rabs_pos|]. unfold a. rewrite <- abs_IZR, <- IZR_pow2 by lia. apply IZR_le. exact Hi. }
  assert (Hai : - a <= IZR i <= a).
  { apply Rabs_le_inv. apply Rle_refl. }
  assert (S50 : bpow radix2 (-50) = / 1125899906842624) by (simpl; lra).
  assert (S53 : bpow radix2 (-53) = / 9007199254740992) by (simpl; lra).
  assert (B49 : bpow radix2 49 = 562949953421312) by (simpl; lra).
  assert (B60 : bpow radix2 (-60) = / 1152921504606846976) by (simpl; lra).
  rewrite S50 in *. rewrite B49 in Ha.
  assert (T : Rabs t <= a + 1).
  { apply Rabs_le. assert (0 <= (a + 1) * / 1125899906842624) by (apply Rmult_le_pos; lra). lra. }
  destruct (scaled c x O Fx) as (p & Ep & Fp & D).
  { fold t. apply Rle_trans with (1 := T). apply Rle_trans with (bpow radix2 50); [simpl; lra|apply bpow_le; lia]. }
  fold t in D. rewrite Ep. unfold floor_to_int64. rewrite Fp, dfloor_Zfloor.
  pose proof small_1000 as S1. rewrite B60 in S1. rewrite S53 in D.
  assert (D' : Rabs (B2R p - t) < (a + 1) * / 1125899906842624).
  { apply Rle_lt_trans with (1 := D).
    assert (Rabs t * (3 * / 9007199254740992) <= (a + 1) * (3 * / 9007199254740992)) by (apply Rmult_le_compat_r; lra).
    lra. }
  apply Rabs_def2 in D'.
  assert (E : Zfloor (B2R p) = i).
  { apply Zfloor_imp. rewrite plus_IZR. split; lra. }
  rewrite E. apply i64_ok. unfold int64_min, int64_max. lia.
Qed.

Lemma axis_off_by_one c x i j : ordinary_cell c -> (Z.abs i <= 2 ^ 50)%Z -> inside c x i ->
  floor_to_int64 (dmul x (ddiv d1 c)) = Ok j -> (i - 1 <= j <= i + 1)%Z.
Proof.
  intros O Hi (Fx & L & U) H. pose proof (bpow_gt_0 radix2 (-1020)) as P1.
  assert (Pc : 0 < B2R c) by (destruct O as (_ & ? & _); lra).
  set (t := B2R x / B2R c).
  assert (Et : B2R x = t * B2R c) by (unfold t; field; lra).
  rewrite Et in L, U. apply Rmult_le_reg_r in L; [|exact Pc]. apply Rmult_lt_reg_r in U; [|exact Pc].
  set (a := Rabs (IZR i)) in *.
  assert (B50 : bpow radix2 50 = 1125899906842624) by (simpl; lra).
  assert (Ha : 0 <= a <= 1125899906842624).
  { split; [apply Rabs_pos|]. rewrite <- B50. unfold a. rewrite <- abs_IZR, <- IZR_pow2 by lia. apply IZR_le. exact Hi. }
  assert (Hai : - a <= IZR i <= a).
  { apply Rabs_le_inv. apply Rle_refl. }
  assert (S53 : bpow radix2 (-53) = / 9007199254740992) by (simpl; lra).
  assert (B60 : bpow radix2 (-60) = / 1152921504606846976) by (simpl; lra).
  assert (T : Rabs t <= a + 1) by (apply Rabs_le; lra).
  destruct (scaled c x O Fx) as (p & Ep & Fp & D).
  { fold t. apply Rle_trans with (1 := T). apply Rle_trans with (bpow radix2 51); [simpl; lra|apply bpow_le; lia]. }
  fold t in D. rewrite Ep in H. unfold floor_to_int64 in H. rewrite Fp, dfloor_Zfloor in H.
  apply i64_inv in H. destruct H as [-> _].
  pose proof small_1000 as S1. rewrite B60 in S1. rewrite S53 in D.
  assert (D' : Rabs (B2R p - t) < 1).
  { apply Rle_lt_trans with (1 := D).
    assert (Rabs t * (3 * / 9007199254740992) <= (a + 1) * (3 * / 9007199254740992)) by (apply Rmult_le_compat_r; lra).
    lra. }
  apply Rabs_def2 in D'.
  split.
  - apply Zfloor_lub. rewrite minus_IZR. lra.
  - assert (Zfloor (B2R p) < i + 2)%Z; [|lia]. apply lt_IZR. apply Rle_lt_trans with (1 := Zfloor_lb _).
    rewrite plus_IZR. lra.
Qed.

Lemma made_filled s : made_sizes s -> inv_cell_x_size s = ddiv d1 (cell_x_size s) /\
  inv_cell_y_size s = ddiv d1 (cell_y_size s) /\ inv_cell_z_size s = ddiv d1 (cell_z_size s) /\
  positive_length (cell_x_size s) /\ positive_length (cell_y_size s) /\ positive_length (cell_z_size s).
Proof.
  intros [[(cx & cy & cz & xs & ys & zs & H)|(cx & cy & cz & nx & ny & nz & H)] _].
  - apply by_size_inv in H. destruct H as ((A1 & A2 & A3 & _) & nx & ny & nz & _ & _ & _ & F).
    destruct F as (-> & -> & -> & _ & _ & _ & _ & _ & _ & -> & -> & -> & _). auto 10.
  - apply by_cells_inv in H. destruct H as (A1 & A2 & A3 & _ & _ & _ & F).
    destruct F as (-> & -> & -> & _ & _ & _ & _ & _ & _ & -> & -> & -> & _). auto 10.
Qed.

Lemma locate_ok s x y z i : LocationInGridFrameToGridIndex4d s (x, y, z, d1) = Ok i <->
  exists a b c, i = (a, b, c) /\ floor_to_int64 (dmul x (inv_cell_x_size s)) = Ok a /\
    floor_to_int64 (dmul y (inv_cell_y_size s)) = Ok b /\ floor_to_int64 (dmul z (inv_cell_z_size s)) = Ok c.
Proof.
  unfold LocationInGridFrameToGridIndex4d. change (Beqb d1 d1) with true. cbv iota. split.
  - intros H. apply bind_ok in H. destruct H as (a & A & H). apply bind_ok in H. destruct H as (b & B & H).
    apply bind_ok in H. destruct H as (c & C & H). injection H as <-. exists a, b, c. auto.
  - intros (a & b & c & -> & -> & -> & ->). reflexivity.
Qed.

Lemma inv_nonneg c : positive_length c -> 0 <= B2R (ddiv d1 c).
Proof.
  intros [F P]. destruct d1_val as [E1 F1].
  pose proof (Bdiv_correct 53 1024 eq_refl eq_refl mode_NE d1 c ltac:(lra)) as C.
  change (Bdiv mode_NE d1 c) with (ddiv d1 c) in C. destruct (Rlt_bool _ _).
  - destruct C as (-> & _). rewrite <- rnd64_0. apply rnd64_mono.
    rewrite E1. apply Rmult_le_pos; [lra|apply Rlt_le, Rinv_0_lt_compat; exact P].
  - assert (is_finite (ddiv d1 c) = false).
    { rewrite <- is_finite_SF_B2SF, C. reflexivity. }
    destruct (ddiv d1 c); try discriminate; simpl; lra.
Qed.
