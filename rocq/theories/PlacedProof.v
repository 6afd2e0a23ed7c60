(** Proofs for C180. *)
From Coq Require Import ZArith Reals Lra Psatz Lia.
From Flocq Require Import Core Relative BinarySingleNaN.
From Verif Require Import Base Double DoubleFacts MathModel MathReal MathLinModel MathLinSpec RotationModel ParallelismModel VoxelModel VoxelSpec VoxelProof VoxelFloat CoverSpec CoverProof PlacedModel PlacedSpec.
Local Open Scope R_scope.

(** * Rounding errors relative to a scale [M] *)
Definition u : R := / 9007199254740992.
Lemma u_val : bpow radix2 (-53) = u. Proof. reflexivity. Qed.
Lemma u_pos : 0 < u. Proof. unfold u. lra. Qed.

Section Scale.
Variable M : R.
Hypothesis M_low : bpow radix2 (-900) <= M.
Hypothesis M_high : M <= bpow radix2 910.
Lemma M_pos : 0 < M. Proof. pose proof (bpow_gt_0 radix2 (-900)). lra. Qed.
Lemma tiny_small : / 2 * bpow radix2 (-1074) <= u * u * M.
Proof.
  rewrite <- u_val, <- bpow_plus. change (-53 + -53)%Z with (-106)%Z.
  apply Rle_trans with (bpow radix2 (-106) * bpow radix2 (-900)); [|apply Rmult_le_compat_l; [apply bpow_ge_0|exact M_low]].
  rewrite <- bpow_plus. apply Rle_trans with (bpow radix2 (-1074)); [pose proof (bpow_ge_0 radix2 (-1074)); lra|apply bpow_le; lia].
Qed.
Lemma rnd_err v b : Rabs v <= b * M -> Rabs (rnd64 v - v) <= (b * u + u * u) * M.
Proof.
  intros H. destruct (error_N_FLT radix2 (-1074) 53 eq_refl (fun x => negb (Z.even x)) v) as (eps & eta & E1 & E2 & _ & E).
  unfold rnd64. rewrite fexp64_FLT. rewrite E. replace (v * (1 + eps) + eta - v) with (v * eps + eta) by ring.
  eapply Rle_trans; [apply Rabs_triang|]. rewrite Rabs_mult. rewrite Rmult_plus_distr_r.
  pose proof tiny_small. apply Rplus_le_compat; [|lra].
  replace (b * u * M) with (b * M * u) by ring. apply Rmult_le_compat; auto using Rabs_pos. rewrite <- u_val.
  eapply Rle_trans; [exact E1|]. unfold u_ro. simpl. lra.
Qed.
(** [x] is [r] up to [e], and [r] is at most [b], in units of M. *)
Definition ap (x : double) (r b e : R) : Prop := is_finite x = true /\ Rabs r <= b * M /\ Rabs (B2R x - r) <= e * M.
Lemma big v b : 0 <= b <= 1000000 -> Rabs v <= b * M -> Rabs v <= bpow radix2 1023.
Proof.
  intros B H. eapply Rle_trans; [exact H|]. apply Rle_trans with (bpow radix2 20 * bpow radix2 910).
  - apply Rmult_le_compat; try lra; [pose proof M_pos; lra|]. change (bpow radix2 20) with 1048576. lra.
  - rewrite <- bpow_plus. apply bpow_le. lia.
Qed.
Lemma ap_abs x r b e : ap x r b e -> Rabs (B2R x) <= (b + e) * M.
Proof. intros (_ & B & E). apply Rabs_le_inv in B. apply Rabs_le_inv in E. apply Rabs_le. lra. Qed.
Lemma mul_ap a y s b e : is_finite a = true -> Rabs (B2R a) <= 2 -> ap y s b e -> 0 <= b -> 0 <= e -> 2 * (b + e) <= 1000000 ->
  ap (dmul a y) (B2R a * s) (2 * b) (2 * e + (2 * (b + e) * u + u * u)).
Proof.
  intros Fa Ba Y Pb Pe Lim. pose proof (ap_abs _ _ _ _ Y) as AY. destruct Y as (Fy & By & Ey). pose proof M_pos as P.
  assert (V : Rabs (B2R a * B2R y) <= 2 * (b + e) * M).
  { rewrite Rabs_mult, Rmult_assoc. apply Rmult_le_compat; auto using Rabs_pos. }
  destruct (dmul_val a y Fa Fy) as [E F]; [apply (big _ (2 * (b + e))); [lra|exact V]|].
  split; [exact F|]. split.
  - rewrite Rabs_mult, Rmult_assoc. apply Rmult_le_compat; auto using Rabs_pos.
  - rewrite E. replace (rnd64 (B2R a * B2R y) - B2R a * s) with (B2R a * (B2R y - s) + (rnd64 (B2R a * B2R y) - B2R a * B2R y)) by ring.
    eapply Rle_trans; [apply Rabs_triang|]. rewrite (Rmult_plus_distr_r _ _ M). apply Rplus_le_compat; [|apply rnd_err, V].
    rewrite Rabs_mult, Rmult_assoc. apply Rmult_le_compat; auto using Rabs_pos.
Qed.
Lemma add_ap x y r s b1 e1 b2 e2 : ap x r b1 e1 -> ap y s b2 e2 -> 0 <= b1 + b2 + e1 + e2 <= 1000000 ->
  ap (dadd x y) (r + s) (b1 + b2) (e1 + e2 + ((b1 + b2 + e1 + e2) * u + u * u)).
Proof.
  intros X Y Lim. pose proof (ap_abs _ _ _ _ X) as AX. pose proof (ap_abs _ _ _ _ Y) as AY.
  destruct X as (Fx & Bx & Ex), Y as (Fy & By & Ey).
  assert (V : Rabs (B2R x + B2R y) <= (b1 + b2 + e1 + e2) * M) by (eapply Rle_trans; [apply Rabs_triang|]; lra).
  destruct (dadd_val x y Fx Fy) as [E F]; [apply (big _ (b1 + b2 + e1 + e2)); [lra|exact V]|].
  split; [exact F|]. split; [eapply Rle_trans; [apply Rabs_triang|]; lra|]. rewrite E.
  replace (rnd64 (B2R x + B2R y) - (r + s)) with (((B2R x - r) + (B2R y - s)) + (rnd64 (B2R x + B2R y) - (B2R x + B2R y))) by ring.
  eapply Rle_trans; [apply Rabs_triang|]. rewrite (Rmult_plus_distr_r _ _ M). apply Rplus_le_compat; [|apply rnd_err, V].
  eapply Rle_trans; [apply Rabs_triang|]. lra.
Qed.
Lemma ap_weak x r b e b' e' : ap x r b e -> b <= b' -> e <= e' -> ap x r b' e'.
Proof.
  intros (F & B & E) Hb He. pose proof M_pos as P. split; [exact F|]. split; (eapply Rle_trans; [eassumption|]; apply Rmult_le_compat_r; lra).
Qed.
Lemma ap_opp x r b e : ap x r b e -> ap (Bopp x) (- r) b e.
Proof.
  intros (F & B & E). split; [rewrite is_finite_Bopp; exact F|]. rewrite B2R_Bopp, Rabs_Ropp. split; [exact B|].
  replace (- B2R x - - r) with (- (B2R x - r)) by ring. rewrite Rabs_Ropp. exact E.
Qed.
Lemma ap_exact x b : is_finite x = true -> Rabs (B2R x) <= b * M -> ap x (B2R x) b 0.
Proof. intros F B. split; [exact F|]. split; [exact B|]. rewrite Rminus_diag_eq, Rabs_R0 by reflexivity. lra. Qed.

Definition small3 (r : vec3d) : Prop := finite3 r /\ within3 2 (real3 r).
Lemma dot_ap r x y z sx sy sz b e e' : small3 r -> ap x sx b e -> ap y sy b e -> ap z sz b e -> 0 <= b <= 1000 -> 0 <= e <= 1 ->
  6 * e + 64 * (b + e) * u + 10 * (u * u) <= e' ->
  ap (v3_dot double_arith r (x, y, z)) (dot3 (real3 r) (sx, sy, sz)) (6 * b) e'.
Proof.
  intros [F B] X Y Z Pb Pe He. destruct r as [[r1 r2] r3]. cbn [finite3 within3 real3] in *. destruct F as (F1 & F2 & F3), B as (B1 & B2 & B3).
  change (v3_dot double_arith (r1, r2, r3) (x, y, z)) with (dadd (dadd (dmul r1 x) (dmul r2 y)) (dmul r3 z)).
  change (dot3 (B2R r1, B2R r2, B2R r3) (sx, sy, sz)) with (B2R r1 * sx + B2R r2 * sy + B2R r3 * sz).
  pose proof (mul_ap r1 x sx b e F1 B1 X ltac:(lra) ltac:(lra) ltac:(lra)) as P1.
  pose proof (mul_ap r2 y sy b e F2 B2 Y ltac:(lra) ltac:(lra) ltac:(lra)) as P2.
  pose proof (mul_ap r3 z sz b e F3 B3 Z ltac:(lra) ltac:(lra) ltac:(lra)) as P3.
  unfold u in *.
  pose proof (add_ap _ _ _ _ _ _ _ _ P1 P2 ltac:(unfold u; lra)) as P12.
  pose proof (add_ap _ _ _ _ _ _ _ _ P12 P3 ltac:(unfold u; lra)) as P123.
  refine (ap_weak _ _ _ _ _ _ P123 _ _); [lra|unfold u in *; lra].
Qed.
End Scale.

(** * Matrices *)
Definition transp (m : vec3d * vec3d * vec3d) : vec3d * vec3d * vec3d := m3_transpose m.
Lemma square_le x : x * x <= 4 -> Rabs x <= 2.
Proof. intros H. apply Rabs_le. nra. Qed.
Lemma p48 : bpow radix2 (-48) = / 281474976710656. Proof. reflexivity. Qed.
Lemma orthogonal_small a b c d e f g h i :
  nearly_orthogonal ((a, b, c), (d, e, f), (g, h, i)) ->
  Rabs a <= 2 /\ Rabs b <= 2 /\ Rabs c <= 2 /\ Rabs d <= 2 /\ Rabs e <= 2 /\ Rabs f <= 2 /\ Rabs g <= 2 /\ Rabs h <= 2 /\ Rabs i <= 2.
Proof.
  unfold nearly_orthogonal, within3, minus3, mul3, transpose3, dot3. rewrite p48.
  intros ((H1 & _ & _) & (_ & H2 & _) & (_ & _ & H3)).
  apply Rabs_le_inv in H1, H2, H3.
  pose proof (Rle_0_sqr a). pose proof (Rle_0_sqr b). pose proof (Rle_0_sqr c). pose proof (Rle_0_sqr d). pose proof (Rle_0_sqr e).
  pose proof (Rle_0_sqr f). pose proof (Rle_0_sqr g). pose proof (Rle_0_sqr h). pose proof (Rle_0_sqr i). unfold Rsqr in *.
  repeat split; apply square_le; lra.
Qed.
Lemma small_times k x B : Rabs k <= bpow radix2 (-48) -> Rabs x <= B -> Rabs (k * x) <= bpow radix2 (-48) * B.
Proof. intros. rewrite Rabs_mult. apply Rmult_le_compat; auto using Rabs_pos. Qed.
Lemma back_and_forth m p B : nearly_orthogonal m -> within3 B p ->
  within3 (3 * bpow radix2 (-48) * B) (minus3 (apply3 (transpose3 m) (apply3 m p)) p).
Proof.
  destruct m as [[[[a b] c] [[d e] f]] [[g h] i]]. destruct p as [[x y] z].
  unfold nearly_orthogonal, within3, minus3, mul3, transpose3, dot3, apply3, dot3.
  intros ((H1 & H2 & H3) & (H4 & H5 & H6) & (H7 & H8 & H9)) (X & Y & Z).
  repeat split.
  - replace (_ - x) with ((a * a + d * d + g * g - 1) * x + (a * b + d * e + g * h - 0) * y + (a * c + d * f + g * i - 0) * z) by ring.
    eapply Rle_trans; [apply Rabs_triang|]. pose proof (Rabs_triang ((a * a + d * d + g * g - 1) * x) ((a * b + d * e + g * h - 0) * y)).
    pose proof (small_times _ _ _ H1 X). pose proof (small_times _ _ _ H2 Y). pose proof (small_times _ _ _ H3 Z). lra.
  - replace (_ - y) with ((b * a + e * d + h * g - 0) * x + (b * b + e * e + h * h - 1) * y + (b * c + e * f + h * i - 0) * z) by ring.
    eapply Rle_trans; [apply Rabs_triang|]. pose proof (Rabs_triang ((b * a + e * d + h * g - 0) * x) ((b * b + e * e + h * h - 1) * y)).
    pose proof (small_times _ _ _ H4 X). pose proof (small_times _ _ _ H5 Y). pose proof (small_times _ _ _ H6 Z). lra.
  - replace (_ - z) with ((c * a + f * d + i * g - 0) * x + (c * b + f * e + i * h - 0) * y + (c * c + f * f + i * i - 1) * z) by ring.
    eapply Rle_trans; [apply Rabs_triang|]. pose proof (Rabs_triang ((c * a + f * d + i * g - 0) * x) ((c * b + f * e + i * h - 0) * y)).
    pose proof (small_times _ _ _ H7 X). pose proof (small_times _ _ _ H8 Y). pose proof (small_times _ _ _ H9 Z). lra.
Qed.
Lemma times2 k x B : Rabs k <= 2 -> Rabs x <= B -> Rabs (k * x) <= 2 * B.
Proof. intros. rewrite Rabs_mult. apply Rmult_le_compat; auto using Rabs_pos. Qed.
Lemma dot_bound r p B : within3 2 r -> within3 B p -> Rabs (dot3 r p) <= 6 * B.
Proof.
  destruct r as [[a b] c], p as [[x y] z]. unfold within3, dot3. intros (A1 & A2 & A3) (X & Y & Z).
  eapply Rle_trans; [apply Rabs_triang|]. pose proof (Rabs_triang (a * x) (b * y)).
  pose proof (times2 _ _ _ A1 X). pose proof (times2 _ _ _ A2 Y). pose proof (times2 _ _ _ A3 Z). lra.
Qed.

(** * Eigen's products *)
Section Products.
Variable M : R.
Hypothesis M_low : bpow radix2 (-900) <= M.
Hypothesis M_high : M <= bpow radix2 910.
Lemma mul_one x r b e : ap M x r b e -> 0 <= b + e <= 1000000 -> ap M (dmul x d1) r b e.
Proof.
  intros X L. pose proof (ap_abs M _ _ _ _ X) as A. destruct X as (F & B & E). destruct d1_val as [V1 F1].
  destruct (dmul_val x d1 F F1) as [V F2].
  { rewrite V1, Rmult_1_r. apply (big M M_low M_high _ (b + e)); [lra|exact A]. }
  split; [exact F2|]. split; [exact B|]. rewrite V, V1, Rmult_1_r. unfold rnd64. rewrite round_generic; [exact E|typeclasses eauto|apply (generic_format_B2R 53 1024)].
Qed.
(** A row of an isometry applied to a homogeneous point. *)
Lemma row_ap r t x y z sx sy sz st b e bt et e' : small3 r -> ap M x sx b e -> ap M y sy b e -> ap M z sz b e -> ap M t st bt et ->
  0 <= b <= 100 -> 0 <= e <= / 100 -> 0 <= bt <= 100 -> 0 <= et <= / 100 ->
  6 * e + et + (80 * (b + e) + 2 * (bt + et)) * u + 20 * (u * u) <= e' ->
  ap M (affine_row r t (x, y, z, d1)) (dot3 (real3 r) (sx, sy, sz) + st) (6 * b + bt) e'.
Proof.
  intros S X Y Z T Hb He Hbt Het H. unfold affine_row.
  pose proof (dot_ap M M_low M_high r x y z sx sy sz b e (6 * e + 64 * (b + e) * u + 10 * (u * u)) S X Y Z ltac:(lra) ltac:(lra) ltac:(lra)) as D.
  pose proof (mul_one t st bt et T ltac:(lra)) as T1.
  pose proof (add_ap M M_low M_high _ _ _ _ _ _ _ _ D T1 ltac:(unfold u; lra)) as Q.
  refine (ap_weak M M_low _ _ _ _ _ _ Q _ _); [lra|]. unfold u in *. lra.
Qed.
End Products.

(** * A placed grid *)
Section Placement.
Variable M : R.
Hypothesis HM : scale M.
Lemma ML : bpow radix2 (-900) <= M.
Proof. destruct HM as (m & Hm & E). rewrite E. apply bpow_le; lia. Qed.
Lemma MH : M <= bpow radix2 910.
Proof. destruct HM as (m & Hm & E). rewrite E. apply bpow_le; lia. Qed.
Notation ap := (ap M).
Lemma M_positive : 0 < M. Proof. pose proof (bpow_gt_0 radix2 (-900)). pose proof ML. lra. Qed.
Lemma M_times k : (-60 <= k <= 60)%Z -> exists j, (-1000 <= j <= 970)%Z /\ M * bpow radix2 k = bpow radix2 j.
Proof. intros K. destruct HM as (m & Hm & E). rewrite E. exists (m + k)%Z. rewrite bpow_plus. split; [lia|reflexivity]. Qed.
Lemma fits_ordinary n c : axis_fits M n c -> (0 < n)%Z -> ordinary_cell c /\ 0 < B2R c /\ IZR n <= bpow radix2 40.
Proof.
  intros (F & L & U) Hn. destruct HM as (m & Hm & E).
  assert (P : 0 < B2R c) by (eapply Rlt_le_trans; [|exact L]; rewrite E, <- bpow_plus; apply bpow_gt_0).
  assert (N1 : 1 <= IZR n) by (apply (IZR_le 1); lia). split; [|split; [exact P|]].
  - split; [exact F|]. split.
    + eapply Rle_trans; [|exact L]. rewrite E, <- bpow_plus. apply bpow_le. lia.
    + apply Rle_trans with M; [nra|]. rewrite E. apply bpow_le. lia.
  - apply Rmult_le_reg_r with (M * bpow radix2 (-40)); [rewrite E, <- bpow_plus; apply bpow_gt_0|].
    replace (bpow radix2 40 * (M * bpow radix2 (-40))) with (M * (bpow radix2 40 * bpow radix2 (-40))) by ring. rewrite <- bpow_plus.
    change (bpow radix2 (40 + -40)) with 1. rewrite Rmult_1_r. eapply Rle_trans; [|exact U]. apply Rmult_le_compat_l; lra.
Qed.
Lemma centre_ap n c i : axis_fits M n c -> (0 <= i < n)%Z -> ap (centre c i) (B2R c * (IZR i + / 2)) 1 (u + u * u).
Proof.
  intros Fit Hi. destruct (fits_ordinary n c Fit ltac:(lia)) as (O & P & N). destruct Fit as (F & L & U).
  assert (N2 : (n <= 2 ^ 40)%Z) by (apply le_IZR; rewrite IZR_pow2 by lia; exact N).
  destruct (d_of_Z_exact i) as [Vi Fi]; [lia|]. destruct dhalf_val as [Vh Fh].
  assert (Half : IZR i + / 2 = IZR (2 * i + 1) * bpow radix2 (-1)) by (rewrite plus_IZR, mult_IZR; change (bpow radix2 (-1)) with (/ 2); lra).
  assert (I0 : 0 <= IZR i) by (apply (IZR_le 0); lia). assert (I1 : IZR i + 1 <= IZR n) by (rewrite <- plus_IZR; apply IZR_le; lia).
  destruct (dadd_val (d_of_Z i) dhalf Fi Fh) as [Va Fa].
  { rewrite Vi, Vh, Rabs_pos_eq by lra. apply Rle_trans with (bpow radix2 41); [|apply bpow_le; lia]. change (bpow radix2 41) with (2 * bpow radix2 40). pose proof (bpow_ge_0 radix2 40). change (bpow radix2 40) with 1099511627776 in *. lra. }
  rewrite Vi, Vh, Half, rnd64_exact, <- Half in Va by lia.
  assert (B : Rabs (B2R c * (IZR i + / 2)) <= 1 * M) by (rewrite Rabs_pos_eq by nra; nra).
  destruct (dmul_val c (dadd (d_of_Z i) dhalf) F Fa) as [Vm Fm]; [rewrite Va; apply (big M ML MH _ 1); [lra|exact B]|].
  unfold centre. split; [exact Fm|]. split; [exact B|]. rewrite Vm, Va.
  eapply Rle_trans; [apply (rnd_err M ML _ 1 B)|]. lra.
Qed.
Lemma transl_ap x : is_finite x = true -> Rabs (B2R x) <= M -> ap x (B2R x) 1 0.
Proof. intros F B. apply ap_exact; [exact F|lra]. Qed.
Lemma ap_err x r b e : ap x r b e -> Rabs (B2R x - r) <= e * M. Proof. intros H; apply H. Qed.
(** The centre of a cell in the world. *)
Lemma centre_in_world o s i : placement M o -> fits M s -> in_grid (dims_of s) i ->
  exists x y z, eigen_apply o (IndexToLocationInGridFrame s i) = (x, y, z, d1) /\
  let '(a, b, c) := in_world o (centre_of s i) in ap x a 7 (100 * u) /\ ap y b 7 (100 * u) /\ ap z c 7 (100 * u).
Proof.
  intros (Ff & Ft & Fo & Fm) (Sx & Sy & Sz) I. destruct o as [[[r1 r2] r3] [[tx ty] tz]]. destruct i as [[ix iy] iz].
  cbn [iso_rotation iso_translation real3 real33 finite3 within3] in *. unfold in_grid, dims_of in I.
  pose proof (centre_ap _ _ ix Sx ltac:(lia)) as Cx. pose proof (centre_ap _ _ iy Sy ltac:(lia)) as Cy. pose proof (centre_ap _ _ iz Sz ltac:(lia)) as Cz.
  destruct Ft as (Fx & Fy & Fz), Fm as (Tx & Ty & Tz).
  pose proof (transl_ap _ Fx Tx) as Ax. pose proof (transl_ap _ Fy Ty) as Ay. pose proof (transl_ap _ Fz Tz) as Az.
  destruct r1 as [[a b] c], r2 as [[d e] f], r3 as [[g h] k].
  pose proof (orthogonal_small _ _ _ _ _ _ _ _ _ Fo) as (S1 & S2 & S3 & S4 & S5 & S6 & S7 & S8 & S9).
  destruct Ff as (Fa & Fd & Fg).
  assert (R1 : small3 (a, b, c)) by (split; [exact Fa|repeat split; assumption]).
  assert (R2 : small3 (d, e, f)) by (split; [exact Fd|repeat split; assumption]).
  assert (R3 : small3 (g, h, k)) by (split; [exact Fg|repeat split; assumption]).
  assert (U6 : 6 * (u + u * u) + 0 + (80 * (1 + (u + u * u)) + 2 * (1 + 0)) * u + 20 * (u * u) <= 100 * u) by (unfold u; lra).
  assert (US : 0 <= u + u * u <= / 100) by (unfold u; lra).
  unfold eigen_apply, IndexToLocationInGridFrame. cbn [iso_rotation iso_translation snd]. eexists. eexists. eexists. split; [reflexivity|].
  pose proof (row_ap M ML MH _ _ _ _ _ _ _ _ _ _ _ _ _ _ R1 Cx Cy Cz Ax ltac:(lra) US ltac:(lra) ltac:(lra) U6) as W1.
  pose proof (row_ap M ML MH _ _ _ _ _ _ _ _ _ _ _ _ _ _ R2 Cx Cy Cz Ay ltac:(lra) US ltac:(lra) ltac:(lra) U6) as W2.
  pose proof (row_ap M ML MH _ _ _ _ _ _ _ _ _ _ _ _ _ _ R3 Cx Cy Cz Az ltac:(lra) US ltac:(lra) ltac:(lra) U6) as W3.
  replace (6 * 1 + 1) with 7 in * by ring. split; [exact W1|]. split; [exact W2|exact W3].
Qed.

(** ** Looking a location up *)
Lemma in_frame o x y z : placement M o -> is_finite x = true -> is_finite y = true -> is_finite z = true ->
  within3 (8 * M) (B2R x, B2R y, B2R z) ->
  exists a b c, eigen_apply (eigen_inverse o) (x, y, z, d1) = (a, b, c, d1) /\
  let '(p, q, r) := in_grid_frame o (B2R x, B2R y, B2R z) in ap a p 54 (900 * u) /\ ap b q 54 (900 * u) /\ ap c r 54 (900 * u).
Proof.
  intros (Ff & Ft & Fo & Fm) Fx Fy Fz (Bx & By & Bz). destruct o as [[[r1 r2] r3] [[tx ty] tz]].
  cbn [iso_rotation iso_translation real3 real33 finite3 within3] in *.
  destruct Ft as (Gx & Gy & Gz), Fm as (Tx & Ty & Tz).
  pose proof (transl_ap _ Gx Tx) as Ax. pose proof (transl_ap _ Gy Ty) as Ay. pose proof (transl_ap _ Gz Tz) as Az.
  destruct r1 as [[a b] c], r2 as [[d e] f], r3 as [[g h] k].
  pose proof (orthogonal_small _ _ _ _ _ _ _ _ _ Fo) as (S1 & S2 & S3 & S4 & S5 & S6 & S7 & S8 & S9).
  destruct Ff as ((F1 & F2 & F3) & (F4 & F5 & F6) & (F7 & F8 & F9)).
  assert (R1 : small3 (a, d, g)) by (repeat split; assumption).
  assert (R2 : small3 (b, e, h)) by (repeat split; assumption).
  assert (R3 : small3 (c, f, k)) by (repeat split; assumption).
  assert (Lx : ap x (B2R x) 8 0) by (apply ap_exact; assumption). assert (Ly : ap y (B2R y) 8 0) by (apply ap_exact; assumption). assert (Lz : ap z (B2R z) 8 0) by (apply ap_exact; assumption).
  unfold eigen_inverse. cbn [iso_rotation iso_translation m3_transpose m3_apply]. unfold eigen_apply. cbn [iso_rotation iso_translation snd].
  eexists. eexists. eexists. split; [reflexivity|].
  assert (UD : 6 * 0 + 64 * (1 + 0) * u + 10 * (u * u) <= 70 * u) by (unfold u; lra).
  pose proof (ap_opp M _ _ _ _ (dot_ap M ML MH _ _ _ _ _ _ _ _ _ _ R1 Ax Ay Az ltac:(lra) ltac:(lra) UD)) as D1.
  pose proof (ap_opp M _ _ _ _ (dot_ap M ML MH _ _ _ _ _ _ _ _ _ _ R2 Ax Ay Az ltac:(lra) ltac:(lra) UD)) as D2.
  pose proof (ap_opp M _ _ _ _ (dot_ap M ML MH _ _ _ _ _ _ _ _ _ _ R3 Ax Ay Az ltac:(lra) ltac:(lra) UD)) as D3.
  assert (U6 : 6 * 0 + 70 * u + (80 * (8 + 0) + 2 * (6 * 1 + 70 * u)) * u + 20 * (u * u) <= 900 * u) by (unfold u; lra).
  assert (US : 0 <= 70 * u <= / 100) by (unfold u; lra).
  pose proof (row_ap M ML MH _ _ _ _ _ _ _ _ _ _ _ _ _ _ R1 Lx Ly Lz D1 ltac:(lra) ltac:(lra) ltac:(lra) US U6) as W1.
  pose proof (row_ap M ML MH _ _ _ _ _ _ _ _ _ _ _ _ _ _ R2 Lx Ly Lz D2 ltac:(lra) ltac:(lra) ltac:(lra) US U6) as W2.
  pose proof (row_ap M ML MH _ _ _ _ _ _ _ _ _ _ _ _ _ _ R3 Lx Ly Lz D3 ltac:(lra) ltac:(lra) ltac:(lra) US U6) as W3.
  replace (6 * 8 + 6 * 1) with 54 in * by ring.
  unfold in_grid_frame. cbn [iso_rotation iso_translation real3 real33 transpose3 apply3 minus3].
  assert (Dist : forall (r : r3) x y z p q s, dot3 r (x - p, y - q, z - s) = dot3 r (x, y, z) + - dot3 r (p, q, s)) by (intros [[? ?] ?] *; unfold dot3; ring).
  rewrite !Dist. split; [exact W1|]. split; [exact W2|exact W3].
Qed.
Lemma inside_ok n c x q i : axis_fits M n c -> (0 < n)%Z -> ap x q 54 (900 * u) -> axis_deep c q i ->
  well_inside c x i /\ (Z.abs i <= 2 ^ 49)%Z.
Proof.
  intros Fit Hn (F & B & E) (L & U). destruct (fits_ordinary n c Fit Hn) as (O & P & _). destruct Fit as (Fc & Lc & _).
  pose proof M_positive as PM. assert (C40 : M <= B2R c * 1099511627776).
  { apply Rmult_le_reg_r with (bpow radix2 (-40)); [apply bpow_gt_0|]. rewrite Rmult_assoc. change (bpow radix2 (-40)) with (/ 1099511627776) in *. lra. }
  apply Rabs_le_inv in B. apply Rabs_le_inv in E.
  assert (I1 : IZR i <= 54 * 1099511627776 + 1) by (apply Rmult_le_reg_r with (B2R c); nra).
  assert (I2 : - (54 * 1099511627776 + 1) <= IZR i) by (apply Rmult_le_reg_r with (B2R c); nra).
  assert (A : Rabs (IZR i) <= 54 * 1099511627776 + 1) by (apply Rabs_le; lra).
  split.
  - split; [exact F|]. unfold margin. change (bpow radix2 (-50)) with (/ 1125899906842624).
    assert (Mg : 0 <= (Rabs (IZR i) + 1) * / 1125899906842624 <= / 8) by (pose proof (Rabs_pos (IZR i)); lra).
    assert (Er : 900 * u * M <= / 8 * B2R c) by (unfold u; lra).
    split; nra.
  - apply le_IZR. rewrite abs_IZR. change (IZR (2 ^ 49)) with 562949953421312. lra.
Qed.
End Placement.
