(** C31/C32: where the cells of the hashed grid are, with binary64 rounding. *)
From Coq Require Import Reals Lra.
From Flocq Require Import Core BinarySingleNaN.
From Verif Require Import Base ParallelismModel ParallelismProof Double DoubleFacts
  VoxelModel VoxelSpec VoxelProof VoxelFloat HashedModel HashedSpec HashedProof.
Local Open Scope R_scope.

Definition u53 : R := / 9007199254740992.
Lemma u53_bpow : bpow radix2 (-53) = u53. Proof. reflexivity. Qed.

Lemma rnd_abs x M : bpow radix2 (-1022) <= Rabs x -> Rabs x <= M -> Rabs (rnd64 x - x) <= M * u53.
Proof.
  intros H1 H2. destruct (rnd64_rel x H1) as (e & He & ->). rewrite u53_bpow in He.
  replace (x * (1 + e) - x) with (x * e) by ring. rewrite Rabs_mult.
  apply Rmult_le_compat; auto using Rabs_pos.
Qed.

Lemma Zfloor_between (r : R) (k : Z) : IZR k <= r < IZR k + 1 -> Zfloor r = k.
Proof. intros H. apply Zfloor_imp. rewrite plus_IZR. exact H. Qed.

Lemma bp a b : (a <= b)%Z -> bpow radix2 a <= bpow radix2 b. Proof. apply bpow_le. Qed.
Lemma bp20 : bpow radix2 20 = 1048576. Proof. reflexivity. Qed.

(** What the code computes on one axis. *)
Lemma axis x c size n k j : inside_cell x c size n k j ->
  is_finite (region_base x size) = true /\
  B2R (region_base x size) = rnd64 (IZR k * B2R size) /\
  dlt (dsub x (region_base x size)) d0 = false /\
  dle size (dsub x (region_base x size)) = false /\
  floor_to_int64 (ddiv (dsub x (region_base x size)) c) = Ok j.
Proof.
  intros (Fx & Fc & Es & [C1 C2] & Hn & Hk & Hj & X1 & X2).
  set (C := B2R c) in *. set (X := B2R x) in *.
  assert (N1 : 1 <= IZR n <= 1048576) by (split; apply IZR_le; lia).
  assert (K1 : -1048576 <= IZR k <= 1048576) by (split; apply IZR_le; lia).
  assert (J1 : 0 <= IZR j <= IZR n - 1) by (rewrite <- minus_IZR; split; apply IZR_le; lia).
  assert (P500 : 0 < bpow radix2 (-500)) by apply bpow_gt_0.
  assert (Cp : 0 < C) by lra.
  assert (T : bpow radix2 (-1022) <= bpow radix2 (-500) * u53).
  { rewrite <- u53_bpow, <- bpow_plus. apply bp. discriminate. }
  assert (B0 : bpow radix2 500 * 1048576 * 1048576 * 16 <= bpow radix2 1023).
  { rewrite <- bp20. change 16 with (bpow radix2 4). rewrite <- !bpow_plus. apply bp. discriminate. }
  assert (U : 0 < u53 < / 4503599627370496) by (unfold u53; lra).
  (* the chunk size *)
  destruct (d_of_Z_exact n) as [En Fn]; [lia|].
  assert (NC : C <= IZR n * C <= 1048576 * C) by nra.
  destruct (dmul_val (d_of_Z n) c Fn Fc) as [ES FS].
  { fold C. rewrite En, Rabs_pos_eq by lra. apply Rle_trans with (2 := B0). nra. }
  fold C in ES. rewrite En in ES. rewrite <- Es in ES, FS. set (S := B2R size) in *.
  assert (D1 : Rabs (S - IZR n * C) <= IZR n * C * u53).
  { rewrite ES. apply rnd_abs; rewrite Rabs_pos_eq by lra; [|lra]. unfold u53 in *. lra. }
  apply Rabs_le_inv in D1.
  assert (S1 : IZR n * C * (1 - u53) <= S <= IZR n * C * (1 + u53)) by lra.
  assert (Sp : C / 2 <= S) by (unfold u53 in *; nra).
  assert (Sm : S <= 2097152 * C) by (unfold u53 in *; nra).
  (* the chunk number *)
  set (q := X / S). assert (Xq : X = q * S) by (unfold q; field; lra).
  assert (Q1 : IZR k + / 2147483648 <= q).
  { apply Rmult_le_reg_r with S; [lra|]. rewrite <- Xq. apply Rle_trans with (2 := X1).
    rewrite Rmult_plus_distr_r. apply Rplus_le_compat_l.
    assert (/ 2147483648 * S <= / 1024 * C) by (unfold u53 in *; nra). nra. }
  assert (Q2 : q <= IZR k + 1 - / 2147483648).
  { apply Rmult_le_reg_r with S; [lra|]. rewrite <- Xq. apply Rle_trans with (1 := X2).
    replace ((IZR k + 1 - / 2147483648) * S) with (IZR k * S + (1 - / 2147483648) * S) by ring.
    apply Rplus_le_compat_l.
    apply Rle_trans with ((IZR n - / 1024) * C); [nra|].
    apply Rle_trans with ((1 - / 2147483648) * (IZR n * C * (1 - u53))); [|unfold u53 in *; nra].
    assert (IZR n * C * (/ 2147483648 + u53) <= / 1024 * C).
    { apply Rle_trans with (1048576 * C * (/ 2147483648 + u53)); [|unfold u53 in *; nra].
      apply Rmult_le_compat_r; unfold u53 in *; lra. }
    replace ((1 - / 2147483648) * (IZR n * C * (1 - u53))) with
      (IZR n * C - IZR n * C * (/ 2147483648 + u53) + IZR n * C * u53 * / 2147483648) by ring.
    assert (0 <= IZR n * C * u53 * / 2147483648) by (unfold u53; nra). nra. }
  assert (Qa : / 2147483648 <= Rabs q <= 2097152).
  { split.
    - destruct (Z_lt_le_dec k 0) as [L|L].
      + assert (IZR k <= -1) by (apply IZR_le; lia). rewrite Rabs_left by lra. lra.
      + assert (0 <= IZR k) by (apply IZR_le; lia). rewrite Rabs_pos_eq by lra. lra.
    - apply Rabs_le. lra. }
  assert (Bq : bpow radix2 (-1022) <= Rabs q).
  { apply Rle_trans with (2 := proj1 Qa). change (/ 2147483648) with (bpow radix2 (-31)). apply bp. discriminate. }
  destruct (ddiv_val x size Fx) as [EQ FQ]; [fold S; lra| |].
  { fold S X. fold q. apply Rle_trans with (1 := proj2 Qa). change 2097152 with (bpow radix2 21). apply bp. discriminate. }
  fold S X in EQ. fold q in EQ.
  pose proof (rnd_abs q _ Bq (proj2 Qa)) as DQ. rewrite <- EQ in DQ. apply Rabs_le_inv in DQ.
  assert (FL : dfloor_Z (ddiv x size) = k).
  { rewrite dfloor_Zfloor. apply Zfloor_between. unfold u53 in *. lra. }
  assert (DF : dfloor (ddiv x size) = d_of_Z k).
  { unfold dfloor. rewrite FL. destruct (ddiv x size) as [sg|sg| |sg m e Bd]; try reflexivity; try discriminate FQ.
    exfalso. simpl B2R in *. assert (Rabs (IZR k) < 1) as KK by (apply Rabs_lt; unfold u53 in *; lra).
    rewrite <- abs_IZR in KK. apply lt_IZR in KK. assert (k = 0%Z) as -> by lia. unfold u53 in *. lra. }
  (* the base *)
  destruct (d_of_Z_exact k) as [Ek Fk]; [lia|].
  destruct (dmul_val (d_of_Z k) size Fk FS) as [EB FB].
  { fold S. rewrite Ek. apply Rle_trans with (2 := B0). apply Rabs_le.
    assert (0 <= S <= 2097152 * bpow radix2 500) by nra. split; nra. }
  rewrite Ek in EB. fold S in EB.
  assert (RB : region_base x size = dmul (d_of_Z k) size) by (unfold region_base; now rewrite DF).
  rewrite RB. split; [exact FB|]. split; [exact EB|].
  set (b := dmul (d_of_Z k) size) in *. set (B := B2R b) in *.
  assert (DB : - (/ 2048 * C) <= B - IZR k * S <= / 2048 * C).
  { apply Rabs_le_inv. rewrite EB. destruct (Z.eq_dec k 0) as [Z0|Z0].
    - rewrite Z0, Rmult_0_l, rnd64_0, Rminus_0_r, Rabs_R0. lra.
    - assert (1 <= Rabs (IZR k)) as AK by (rewrite <- abs_IZR; apply IZR_le; clear -Z0; lia).
      assert (Rabs (IZR k) <= 1048576) as AK2 by (apply Rabs_le; lra).
      apply Rle_trans with (1048576 * (2097152 * C) * u53); [|unfold u53 in *; nra].
      apply rnd_abs; rewrite Rabs_mult, (Rabs_pos_eq S) by lra; [|nra].
      apply Rle_trans with (1 * S); [|nra]. unfold u53 in *. lra. }
  (* the offset *)
  assert (O1 : (IZR j + / 2048) * C <= X - B <= (IZR j + 1 - / 2048) * C) by nra.
  assert (O2 : / 2048 * C <= X - B <= 1048576 * C) by nra.
  destruct (dsub_val x b Fx FB) as [EO FO].
  { fold X B. rewrite Rabs_pos_eq by nra. apply Rle_trans with (2 := B0). nra. }
  fold X B in EO. set (o := dsub x b) in *.
  assert (DO : - (1048576 * C * u53) <= B2R o - (X - B) <= 1048576 * C * u53).
  { apply Rabs_le_inv. rewrite EO. apply rnd_abs; rewrite Rabs_pos_eq by nra; [|lra].
    apply Rle_trans with (1 := T). unfold u53 in *. nra. }
  assert (DO' : - (/ 8589934592 * C) <= B2R o - (X - B) <= / 8589934592 * C) by (unfold u53 in *; lra).
  assert (O3 : (IZR j + / 4096) * C <= B2R o <= (IZR j + 1 - / 4096) * C) by nra.
  assert (Z0 : B2R d0 = 0) by reflexivity.
  split; [|split].
  - apply Bool.not_true_is_false. intros L. apply dlt_R in L; [|exact FO|reflexivity]. rewrite Z0 in L. nra.
  - apply Bool.not_true_is_false. intros L. apply dle_R in L; [|exact FS|exact FO]. fold S in L.
    assert ((IZR n - / 4096) * C < IZR n * C * (1 - u53)).
    { assert (IZR n * C * u53 <= 1048576 * C * u53) by (unfold u53 in *; nra). unfold u53 in *. nra. }
    nra.
  - set (p := B2R o / C). assert (Ep : B2R o = p * C) by (unfold p; field; lra).
    assert (P1 : IZR j + / 4096 <= p) by (apply Rmult_le_reg_r with C; [lra|]; rewrite <- Ep; lra).
    assert (P2 : p <= IZR j + 1 - / 4096) by (apply Rmult_le_reg_r with C; [lra|]; rewrite <- Ep; lra).
    assert (Pa : Rabs p <= 1048576) by (rewrite Rabs_pos_eq; lra).
    destruct (ddiv_val o c FO) as [EP FP]; [fold C; lra| |].
    { fold C p. apply Rle_trans with (1 := Pa). rewrite <- bp20. apply bp. discriminate. }
    fold C p in EP.
    assert (DP : - (1048576 * u53) <= B2R (ddiv o c) - p <= 1048576 * u53).
    { apply Rabs_le_inv. rewrite EP. apply rnd_abs; [|exact Pa]. rewrite Rabs_pos_eq by lra.
      apply Rle_trans with (/ 4096); [|lra]. change (/ 4096) with (bpow radix2 (-12)). apply bp. discriminate. }
    unfold floor_to_int64. rewrite FP, dfloor_Zfloor.
    rewrite (Zfloor_between _ j) by (unfold u53 in *; lra). apply i64_ok. unfold int64_min, int64_max. clear -Hj Hn. lia.
Qed.

Lemma base_inj S k k' : 0 < S -> bpow radix2 (-500) <= S -> (- 2 ^ 20 <= k <= 2 ^ 20)%Z -> (- 2 ^ 20 <= k' <= 2 ^ 20)%Z ->
  rnd64 (IZR k * S) = rnd64 (IZR k' * S) -> k = k'.
Proof.
  intros P L Hk Hk' E.
  assert (T : bpow radix2 (-1022) <= bpow radix2 (-500)) by (apply bp; discriminate).
  assert (A : forall m, (- 2 ^ 20 <= m <= 2 ^ 20)%Z -> Rabs (rnd64 (IZR m * S) - IZR m * S) <= 1048576 * S * u53).
  { intros m Hm. destruct (Z.eq_dec m 0) as [->|N].
    - rewrite Rmult_0_l, rnd64_0, Rminus_0_r, Rabs_R0. unfold u53. nra.
    - assert (1 <= Rabs (IZR m)) as AK by (rewrite <- abs_IZR; apply IZR_le; clear -N; lia).
      assert (Rabs (IZR m) <= 1048576) as AK2 by (rewrite <- abs_IZR; apply IZR_le; clear -Hm; lia).
      apply rnd_abs; rewrite Rabs_mult, (Rabs_pos_eq S) by lra; nra. }
  pose proof (A k Hk) as H1. pose proof (A k' Hk') as H2. rewrite E in H1.
  apply Rabs_le_inv in H1. apply Rabs_le_inv in H2.
  assert (Rabs (IZR (k - k')) < 1) as D.
  { rewrite minus_IZR. apply Rabs_lt. unfold u53 in *. split; nra. }
  rewrite <- abs_IZR in D. apply lt_IZR in D. clear -D. lia.
Qed.

Lemma axis_same x x' c size n k k' j j' : inside_cell x c size n k j -> inside_cell x' c size n k' j' ->
  Beqb (region_base x size) (region_base x' size) = true <-> k = k'.
Proof.
  intros H H'. destruct (axis _ _ _ _ _ _ H) as (F & E & _). destruct (axis _ _ _ _ _ _ H') as (F' & E' & _).
  rewrite (Beqb_correct 53 1024) by assumption. rewrite E, E'. split.
  - case Req_bool_spec; [intros R _|discriminate].
    destruct H as (Fx & Fc & Es & [C1 C2] & Hn & Hk & Hj & _). destruct H' as (_ & _ & _ & _ & _ & Hk' & _).
    assert (P500 : 0 < bpow radix2 (-500)) by apply bpow_gt_0.
    assert (L : bpow radix2 (-500) <= B2R size).
    { destruct (d_of_Z_exact n) as [En Fn]; [clear -Hn; lia|]. assert (1 <= IZR n <= 1048576) by (split; apply IZR_le; clear -Hn; lia).
      destruct (dmul_val (d_of_Z n) c Fn Fc) as [ES _].
      - rewrite En, Rabs_pos_eq by nra. apply Rle_trans with (bpow radix2 20 * bpow radix2 500).
        + apply Rmult_le_compat; try lra; rewrite bp20; lra.
        + rewrite <- bpow_plus. apply bp. discriminate.
      - rewrite Es, ES, En. apply rnd64_ge_bpow; [clear; lia|]. nra. }
    apply (base_inj (B2R size)); try assumption. lra.
  - intros ->. case Req_bool_spec; congruence.
Qed.

Lemma cell_index s l k j : good s -> inside_location s l k j ->
  GetLocationDataIndex (chunk_of s l) s l = Ok (position (dims_of s) j) /\ in_grid (dims_of s) j.
Proof.
  intros G. destruct l as [[[x y] z] w], k as [[kx ky] kz], j as [[jx jy] jz]. intros (Hx & Hy & Hz).
  destruct (axis _ _ _ _ _ _ Hx) as (_ & _ & A1 & A2 & A3). destruct (axis _ _ _ _ _ _ Hy) as (_ & _ & B1 & B2 & B3).
  destruct (axis _ _ _ _ _ _ Hz) as (_ & _ & C1 & C2 & C3).
  assert (I : in_grid (dims_of s) (jx, jy, jz)).
  { destruct Hx as (_ & _ & _ & _ & _ & _ & Hx & _). destruct Hy as (_ & _ & _ & _ & _ & _ & Hy & _).
    destruct Hz as (_ & _ & _ & _ & _ & _ & Hz & _). unfold in_grid, dims_of. auto. }
  split; [|exact I]. unfold GetLocationDataIndex, chunk_of. rewrite A1, A2, A3, B1, B2, B3, C1, C2, C3.
  cbn [orb bind]. unfold in_grid, dims_of in I.
  destruct (Z.ltb_spec jx 0); [lia|]. destruct (Z.ltb_spec jy 0); [lia|]. destruct (Z.ltb_spec jz 0); [lia|].
  destruct (Z.leb_spec (num_x_cells s) jx); [lia|]. destruct (Z.leb_spec (num_y_cells s) jy); [lia|].
  destruct (Z.leb_spec (num_z_cells s) jz); [lia|]. cbn [orb]. apply data_index_position; [exact G|].
  unfold in_grid, dims_of. auto.
Qed.

Lemma ordinary_locations s l l' k k' j j' : made_sizes s -> inside_location s l k j -> inside_location s l' k' j' ->
  (region_eqb (chunk_of s l) (chunk_of s l') = true <-> k = k') /\
  cell_of s l = Some (position (dims_of s) j) /\
  (cell_of s l = cell_of s l' <-> j = j').
Proof.
  intros M H H'. apply made_good in M. destruct (cell_index s l k j M H) as [E I]. destruct (cell_index s l' k' j' M H') as [E' I'].
  pose proof (good_position s j M I) as P. pose proof (good_position s j' M I') as P'.
  assert (CE : cell_of s l = Some (position (dims_of s) j)).
  { unfold cell_of. rewrite E. destruct (Z.leb_spec 0 (position (dims_of s) j)); [reflexivity|lia]. }
  assert (CE' : cell_of s l' = Some (position (dims_of s) j')).
  { unfold cell_of. rewrite E'. destruct (Z.leb_spec 0 (position (dims_of s) j')); [reflexivity|lia]. }
  split; [|split; [exact CE|]].
  - clear E E' CE CE' P P' I I'. destruct l as [[[x y] z] w], l' as [[[x' y'] z'] w'], k as [[kx ky] kz], k' as [[kx' ky'] kz'], j as [[jx jy] jz], j' as [[jx' jy'] jz'].
    destruct H as (Hx & Hy & Hz), H' as (Hx' & Hy' & Hz'). unfold region_eqb, chunk_of.
    rewrite !andb_true_iff, (axis_same _ _ _ _ _ _ _ _ _ Hx Hx'), (axis_same _ _ _ _ _ _ _ _ _ Hy Hy'), (axis_same _ _ _ _ _ _ _ _ _ Hz Hz').
    split; [intros [[-> ->] ->]; reflexivity|intros X; injection X as -> -> ->; auto].
  - rewrite CE, CE'. split; [|intros ->; reflexivity]. intros X. injection X as X. eapply position_inj; eauto.
Qed.

Section H.
Context {T User Iso : Type}.
Variable iso_inverse : Iso -> Iso.
Variable iso_apply : Iso -> vec4 -> vec4.
Variable on_access : User -> vec4 -> User * bool.

Lemma reach_shows s g : made_sizes s -> steady on_access ->
  reachable_hgrid (T := T) iso_inverse iso_apply s on_access g -> exists w, shows iso_inverse iso_apply s w g.
Proof.
  intros M St (u & o & def & cs & g0 & h & E & R). apply made_good in M.
  eexists. eapply all_shows; [exact M| |exact St|exact R]. eapply new_shows; [exact M|exact E].
Qed.

Lemma history_reads (s : GridSizes) u o (def : T) cs g0 g h : made_sizes s -> steady on_access ->
  new_hgrid iso_inverse u o s def = Ok g0 -> hperform_all iso_inverse iso_apply on_access g0 cs = (g, h) ->
  let w := hlearn_all iso_inverse iso_apply s (first_hview iso_inverse iso_apply o def) h in
  forall l, let r := chunk_of s (w_frame w l) in
  HGetLocationImmutable4d iso_apply g l =
  match w_presence w r with
  | Absent => Ok (NOT_FOUND, None)
  | Whole => Ok (FOUND_IN_CHUNK, Some (w_value w r 0))
  | PerCell => do i <- GetLocationDataIndex r s (w_frame w l);
               if (0 <=? i)%Z then Ok (FOUND_IN_CELL, Some (w_value w r i)) else Throw RuntimeError
  end.
Proof.
  intros M St E R w l. apply made_good in M. apply (read_agrees iso_inverse iso_apply s M).
  eapply all_shows; [exact M| |exact St|exact R]. eapply new_shows; [exact M|exact E].
Qed.

Lemma ordinary_set s g l (v : T) k j : made_sizes s -> steady on_access ->
  reachable_hgrid iso_inverse iso_apply s on_access g ->
  inside_location s (iso_apply (iso_inverse (h_origin g)) l) k j ->
  snd (on_access (h_user g) (iso_apply (iso_inverse (h_origin g)) l)) = true ->
  snd (hperform iso_inverse iso_apply on_access g (HSet l SET_CELL v)) = HStatus DID_SET_CELL /\
  HGetLocationImmutable4d iso_apply (fst (hperform iso_inverse iso_apply on_access g (HSet l SET_CELL v))) l
    = Ok (FOUND_IN_CELL, Some v).
Proof.
  intros M St R I Al. destruct (reach_shows s g M St R) as (w & S). assert (G := made_good s M).
  assert (FR : w_frame w l = iso_apply (iso_inverse (h_origin g)) l).
  { rewrite <- (sh_frame _ _ _ _ _ S), (sh_inv _ _ _ _ _ S). reflexivity. }
  rewrite <- FR in I, Al. destruct (cell_index s _ k j G I) as [E IN].
  pose proof (good_position s j G IN) as P.
  unfold hperform. change depth with (Datatypes.S (Datatypes.S 998)).
  destruct (set_outcome iso_inverse iso_apply on_access s G 998 w g l SET_CELL v S St) as (g1 & res & EQ & H).
  rewrite Al in H. rewrite EQ. unfold settle. cbn [fst snd].
  (* the result is success *)
  assert (RF : region_eqb (chunk_of s (w_frame w l)) (chunk_of s (w_frame w l)) = true).
  { destruct (ordinary_locations s _ _ _ _ _ _ M I I) as [X _]. apply X. reflexivity. }
  destruct H as [H|[H _]]; [|congruence]. simpl in H. rewrite E in H.
  destruct (Z.leb_spec 0 (position (dims_of s) j)); [|lia]. destruct H as [-> H]. split; [reflexivity|]. cbn [fst].
  rewrite (read_agrees iso_inverse iso_apply s G _ _ l H). cbv zeta. unfold knows_cell. simpl. rewrite RF, E. cbn [bind].
  destruct (Z.leb_spec 0 (position (dims_of s) j)); [|lia]. unfold cell_of. rewrite E.
  destruct (Z.leb_spec 0 (position (dims_of s) j)); [|lia]. now rewrite Z.eqb_refl.
Qed.
End H.
