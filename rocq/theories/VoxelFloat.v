(** Proofs for C30 and C75: locations in binary64. *)
From Coq Require Import ZArith Reals Lra Lia Bool.
From Flocq Require Import Core BinarySingleNaN.
From Verif Require Import Base ParallelismModel ParallelismProof Double DoubleFacts VoxelModel VoxelSpec VoxelProof.
Local Open Scope R_scope.

Lemma dfloor_Zfloor x : dfloor_Z x = Zfloor (B2R x).
Proof.
  assert (Zfloor 0 = 0%Z) as F0 by (apply (Zfloor_IZR 0)).
  destruct x as [s|s| |s m e B]; simpl; auto.
  set (v := if s then Z.neg m else Z.pos m).
  assert (Hv : cond_Zopp s (Z.pos m) = v) by (unfold v; destruct s; reflexivity).
  unfold F2R. cbn [Fnum Fexp]. rewrite Hv. destruct (Z.leb_spec 0 e).
  - rewrite <- IZR_pow2 by assumption. rewrite <- mult_IZR. symmetry. apply Zfloor_IZR.
  - rewrite <- Zfloor_div by (apply Z.pow_nonzero; lia). f_equal. unfold Rdiv. f_equal.
    rewrite IZR_pow2 by lia. rewrite <- bpow_opp. f_equal. lia.
Qed.

Lemma near_one a b lo hi u : 0 < u <= / 1000 -> - u <= b <= u -> 0 <= lo -> 0 <= hi ->
  lo <= 100 -> hi <= 100 -> 1 - lo * u <= a <= 1 + hi * u ->
  1 - (lo + 2) * u <= a * (1 + b) <= 1 + (hi + 2) * u.
Proof.
  intros Hu Hb Hlo Hhi L1 L2 [A1 A2].
  assert (0 <= a) by nra. assert (a <= 2) by nra. split; nra.
Qed.

Lemma dhalf_val : B2R dhalf = / 2 /\ is_finite dhalf = true.
Proof. split; [|reflexivity]. vm_compute. lra. Qed.

Lemma d1_val : B2R d1 = 1 /\ is_finite d1 = true.
Proof. apply (d_of_Z_exact 1). lia. Qed.

Lemma centre_index c i : ordinary_cell c -> (0 <= i < 2 ^ 49)%Z ->
  floor_to_int64 (dmul (centre c i) (ddiv d1 c)) = Ok i.
Proof.
  intros (Fc & L & U) Hi.
  pose proof (bpow_gt_0 radix2 (-1020)) as P1.
  assert (Pc : 0 < B2R c) by lra.
  assert (Hi' : 0 <= IZR i) by (apply IZR_le; lia).
  assert (Hi2 : IZR i + / 2 <= bpow radix2 49).
  { rewrite <- IZR_pow2 by lia. assert (IZR i <= IZR (2 ^ 49 - 1)) by (apply IZR_le; lia).
    rewrite minus_IZR in H. lra. }
  (* i + 0.5 *)
  destruct (d_of_Z_exact i) as [Ei Fi]; [lia|]. destruct dhalf_val as [Eh Fh].
  assert (Eq : IZR i + / 2 = IZR (2 * i + 1) * bpow radix2 (-1)).
  { rewrite plus_IZR, mult_IZR. simpl bpow. lra. }
  assert (As : forall a b, 0 <= a -> a <= b -> Rabs a <= b) by (intros; rewrite Rabs_pos_eq; lra).
  destruct (dadd_val (d_of_Z i) dhalf Fi Fh) as [Es Fs].
  { rewrite Ei, Eh. apply As; [lra|]. apply Rle_trans with (1 := Hi2). apply bpow_le. lia. }
  rewrite Ei, Eh, Eq in Es. rewrite rnd64_exact, <- Eq in Es by lia.
  set (h := IZR i + / 2) in *. assert (Ph : / 2 <= h) by (unfold h; lra).
  change (/ 2) with (bpow radix2 (-1)) in Ph.
  (* the centre *)
  assert (C1 : bpow radix2 (-1021) <= B2R c * h).
  { change (-1021)%Z with (-1020 + -1)%Z. rewrite bpow_plus.
    apply Rmult_le_compat; try apply bpow_ge_0; assumption. }
  assert (C2 : B2R c * h <= bpow radix2 1019).
  { change 1019%Z with (970 + 49)%Z. rewrite bpow_plus.
    apply Rmult_le_compat; try assumption; try lra. unfold h; lra. }
  assert (P2 : 0 < B2R c * h) by (apply Rlt_le_trans with (2 := C1); apply bpow_gt_0).
  destruct (dmul_val c (dadd (d_of_Z i) dhalf) Fc Fs) as [Em Fm].
  { rewrite Es. apply As; [lra|]. apply Rle_trans with (1 := C2). apply bpow_le. lia. }
  fold (centre c i) in Em, Fm. rewrite Es in Em.
  destruct (rnd64_rel (B2R c * h)) as (e2 & B2 & R2).
  { rewrite Rabs_pos_eq by lra. apply Rle_trans with (2 := C1). apply bpow_le. lia. }
  rewrite R2 in Em.
  (* the inverse *)
  destruct d1_val as [E1 F1].
  assert (I1 : bpow radix2 (-970) <= 1 / B2R c).
  { unfold Rdiv. rewrite Rmult_1_l. change (-970)%Z with (- (970))%Z. rewrite bpow_opp.
    apply Rinv_le_contravar; assumption. }
  assert (I2 : 1 / B2R c <= bpow radix2 1020).
  { unfold Rdiv. rewrite Rmult_1_l. change 1020%Z with (- (-1020))%Z. rewrite bpow_opp.
    apply Rinv_le_contravar; assumption. }
  assert (P3 : 0 < 1 / B2R c) by (apply Rlt_le_trans with (2 := I1); apply bpow_gt_0).
  destruct (ddiv_val d1 c F1) as [Ed Fd]; [lra|rewrite E1; apply As; [lra|apply Rle_trans with (1 := I2); apply bpow_le; lia]|].
  rewrite E1 in Ed.
  destruct (rnd64_rel (1 / B2R c)) as (e1 & B1 & R1).
  { rewrite Rabs_pos_eq by lra. apply Rle_trans with (2 := I1). apply bpow_le. lia. }
  rewrite R1 in Ed.
  (* the product *)
  assert (Sm : bpow radix2 (-53) <= / 9007199254740992) by (simpl; lra).
  apply Rabs_le_inv in B1. apply Rabs_le_inv in B2.
  assert (Ep : B2R (centre c i) * B2R (ddiv d1 c) = h * ((1 + e2) * (1 + e1))).
  { rewrite Em, Ed. field. lra. }
  set (k := (1 + e2) * (1 + e1)) in *.
  set (u := / 9007199254740992) in *.
  assert (Hu : 0 < u <= / 1000) by (unfold u; lra).
  assert (K : 1 - (2 + 2) * u <= k <= 1 + (2 + 2) * u).
  { unfold k. apply (near_one (1 + e2) e1 2 2); lra. }
  assert (Hk1 : bpow radix2 (-2) <= h * k).
  { change (-2)%Z with (-1 + -1)%Z. rewrite bpow_plus.
    apply Rmult_le_compat; try apply bpow_ge_0; [exact Ph|]. simpl bpow. lra. }
  assert (Hk2 : h * k <= bpow radix2 50).
  { change 50%Z with (49 + 1)%Z. rewrite bpow_plus.
    apply Rmult_le_compat; [unfold h; lra|lra|exact Hi2|]. simpl bpow. lra. }
  destruct (dmul_val (centre c i) (ddiv d1 c) Fm Fd) as [Ef Ff].
  { rewrite Ep. apply As; [apply Rle_trans with (2 := Hk1); apply bpow_ge_0|].
    apply Rle_trans with (1 := Hk2). apply bpow_le. lia. }
  rewrite Ep in Ef.
  destruct (rnd64_rel (h * k)) as (e3 & B3 & R3).
  { rewrite Rabs_pos_eq by (apply Rle_trans with (2 := Hk1); apply bpow_ge_0).
    apply Rle_trans with (2 := Hk1). apply bpow_le. lia. }
  rewrite R3 in Ef. apply Rabs_le_inv in B3.
  unfold floor_to_int64. rewrite Ff. rewrite dfloor_Zfloor, Ef.
  assert (Z : Zfloor (h * k * (1 + e3)) = i).
  { apply Zfloor_imp. rewrite plus_IZR.
    assert (K' : 1 - ((2 + 2) + 2) * u <= k * (1 + e3) <= 1 + ((2 + 2) + 2) * u) by
      (apply (near_one k e3 (2 + 2) (2 + 2)); lra).
    rewrite Rmult_assoc. set (q := k * (1 + e3)) in *.
    assert (h <= 562949953421312) by (simpl bpow in Hi2; lra).
    assert (0 <= h) by (unfold h; lra).
    assert (h * (q - 1) <= h * (6 * u)) by (apply Rmult_le_compat_l; lra).
    assert (h * (1 - q) <= h * (6 * u)) by (apply Rmult_le_compat_l; lra).
    assert (h * (6 * u) < / 2) by (unfold u; lra).
    rewrite Rmult_minus_distr_l in *.
    unfold h in *. split; lra. }
  rewrite Z. apply i64_ok. unfold int64_min, int64_max. lia.
Qed.

(** The grid of the statement. *)
Lemma centre_round_trip s i : made_sizes s -> in_grid (dims_of s) i ->
  ordinary_cell (cell_x_size s) -> ordinary_cell (cell_y_size s) -> ordinary_cell (cell_z_size s) ->
  (num_x_cells s <= 2 ^ 49)%Z -> (num_y_cells s <= 2 ^ 49)%Z -> (num_z_cells s <= 2 ^ 49)%Z ->
  LocationInGridFrameToGridIndex4d s (IndexToLocationInGridFrame s i) = Ok i.
Proof.
  intros [M _] I Cx Cy Cz Nx Ny Nz. destruct i as [[x y] z]. unfold in_grid, dims_of in I.
  assert (inv_cell_x_size s = ddiv d1 (cell_x_size s) /\ inv_cell_y_size s = ddiv d1 (cell_y_size s) /\
          inv_cell_z_size s = ddiv d1 (cell_z_size s)) as (Ix & Iy & Iz).
  { assert (forall cx cy cz nx ny nz s', set_sizes cx cy cz nx ny nz = Ok s' ->
      inv_cell_x_size s' = ddiv d1 (cell_x_size s') /\ inv_cell_y_size s' = ddiv d1 (cell_y_size s') /\
      inv_cell_z_size s' = ddiv d1 (cell_z_size s')) as A.
    { intros *. unfold set_sizes. destruct (i64 _); simpl; try discriminate. intros H.
      injection H as <-. cbn. auto. }
    destruct M as [(cx & cy & cz & xs & ys & zs & H)|(cx & cy & cz & nx & ny & nz & H)].
    - unfold GridSizesBySize, InitializeBySize in H. destruct (_ && _)%bool; [|discriminate].
      destruct (ceil_to_int64 _); try discriminate. cbn [bind] in H.
      destruct (ceil_to_int64 _); try discriminate. cbn [bind] in H.
      destruct (ceil_to_int64 _); try discriminate. cbn [bind] in H.
      destruct (set_sizes _ _ _ _ _ _) eqn:E; try discriminate. cbn [bind] in H. injection H as <-. eapply A; eauto.
    - unfold GridSizesByCells, InitializeByCells in H. destruct (_ && _)%bool; [|discriminate].
      destruct (set_sizes _ _ _ _ _ _) eqn:E; try discriminate. cbn [bind] in H. injection H as <-. eapply A; eauto. }
  unfold LocationInGridFrameToGridIndex4d, IndexToLocationInGridFrame.
  change (Beqb d1 d1) with true. cbv iota. rewrite Ix, Iy, Iz.
  rewrite !centre_index by (assumption || lia). reflexivity.
Qed.

Lemma floor_defined c x : near c x -> exists k, floor_to_int64 (dmul x c) = Ok k.
Proof.
  intros (Fx & Fc & H). destruct (dmul_val x c Fx Fc) as [E F].
  { apply Rle_trans with (1 := H). apply bpow_le. lia. }
  unfold floor_to_int64. rewrite F, dfloor_Zfloor, E.
  assert (A : Rabs (rnd64 (B2R x * B2R c)) <= bpow radix2 62).
  { apply abs_round_le_generic; try typeclasses eauto; [|exact H].
    apply generic_format_bpow. unfold fexp64, SpecFloat.fexp, SpecFloat.emin. lia. }
  rewrite <- IZR_pow2 in A by lia. apply Rabs_le_inv in A.
  set (r := rnd64 _) in *. eexists. apply i64_ok.
  pose proof (Zfloor_lb r). pose proof (Zfloor_ub r).
  assert (Zfloor r <= 2 ^ 62)%Z by (apply le_IZR; lra).
  assert (- (2 ^ 62) < Zfloor r + 1)%Z by (apply lt_IZR; rewrite plus_IZR, opp_IZR; lra).
  unfold int64_min, int64_max. lia.
Qed.

Lemma location_defined s x y z :
  near (inv_cell_x_size s) x -> near (inv_cell_y_size s) y ->
  near (inv_cell_z_size s) z ->
  exists i, LocationInGridFrameToGridIndex4d s (x, y, z, d1) = Ok i.
Proof.
  intros Nx Ny Nz. unfold LocationInGridFrameToGridIndex4d. change (Beqb d1 d1) with true. cbv iota.
  destruct (floor_defined _ _ Nx) as [i ->]. destruct (floor_defined _ _ Ny) as [j ->].
  destruct (floor_defined _ _ Nz) as [k ->]. cbn [bind]. eauto.
Qed.
