(** Path processing: smoothing is defined; resampling (C54, C56). *)
From Coq Require Import ZArith Reals Lra Psatz.
From Flocq Require Import Core BinarySingleNaN.
From Verif Require Import Base Double DoubleFacts Effect UtilityModel UtilitySpec UtilityProof VoxelModel VoxelFloat RrtHelperProof
  ParallelismModel PathModel PathSpec PathProof.
Local Open Scope Z_scope.

Lemma small_bpow x : (Rabs x <= bpow radix2 53)%R -> (Rabs x <= bpow radix2 1023)%R.
Proof. intros H. eapply Rle_trans; [exact H|]. apply bpow_le. lia. Qed.
Lemma unit_small x : (Rabs x <= 1)%R -> (Rabs x <= bpow radix2 1023)%R.
Proof. intros H. apply small_bpow. eapply Rle_trans; [exact H|]. change 1%R with (bpow radix2 0). apply bpow_le. lia. Qed.
Lemma rnd64_between x lo hi : rnd64 lo = lo -> rnd64 hi = hi -> (lo <= x <= hi)%R -> (lo <= rnd64 x <= hi)%R.
Proof. intros L H [A B]. split; [rewrite <- L|rewrite <- H]; apply rnd64_mono; assumption. Qed.

(** Interpolation between -f and f stays within -1 and 1 when f is in [0, 1]. *)
Lemma interpolate_small f u : is_finite f = true -> (0 <= B2R f <= 1)%R -> unit_interval u ->
  exists r, Interpolate (Bopp f) f u = Ok r /\ is_finite r = true /\ (-1 <= B2R r <= 1)%R.
Proof.
  intros Ff Rf [Fu Ru]. destruct d1_val as [E1 F1]. assert (R1 : rnd64 1 = 1%R) by (apply (rnd64_IZR 1); lia).
  assert (Rm1 : rnd64 (-1) = (-1)%R) by (apply (rnd64_IZR (-1)); lia).
  assert (D01 : dle d0 d1 = true) by (apply dle_R; [reflexivity|exact F1|rewrite E1; cbn; lra]).
  assert (L0 : dlt u d0 = false) by (destruct (dlt u d0) eqn:E; [|reflexivity]; apply dlt_R in E; [cbn in E; lra|exact Fu|reflexivity]).
  assert (L1 : dlt d1 u = false) by (destruct (dlt d1 u) eqn:E; [|reflexivity]; apply dlt_R in E; [rewrite E1 in E; lra|exact F1|exact Fu]).
  unfold Interpolate, ClampValue. rewrite D01, L0, L1. cbn [bind]. eexists. split; [reflexivity|].
  destruct (dsub_val d1 u F1 Fu) as [V1 G1]; [rewrite E1; apply unit_small; apply Rabs_le; lra|]. rewrite E1 in V1.
  assert (B1 : (0 <= B2R (dsub d1 u) <= 1)%R) by (rewrite V1; apply rnd64_between; [exact rnd64_0|exact R1|lra]).
  assert (Fo : is_finite (Bopp f) = true) by (rewrite is_finite_Bopp; exact Ff).
  assert (Q2 : (-1 <= B2R (Bopp f) * B2R (dsub d1 u) <= 0)%R) by (rewrite B2R_Bopp; split; nra).
  destruct (dmul_val (Bopp f) (dsub d1 u) Fo G1) as [V2 G2]; [apply unit_small, Rabs_le; lra|].
  assert (B2 : (-1 <= B2R (dmul (Bopp f) (dsub d1 u)) <= 0)%R) by (rewrite V2; apply rnd64_between; [exact Rm1|exact rnd64_0|exact Q2]).
  assert (Q3 : (0 <= B2R f * B2R u <= 1)%R) by (split; nra).
  destruct (dmul_val f u Ff Fu) as [V3 G3]; [apply unit_small, Rabs_le; lra|].
  assert (B3 : (0 <= B2R (dmul f u) <= 1)%R) by (rewrite V3; apply rnd64_between; [exact rnd64_0|exact R1|exact Q3]).
  destruct (dadd_val (dmul (Bopp f) (dsub d1 u)) (dmul f u) G2 G3) as [V4 G4]; [apply unit_small, Rabs_le; lra|].
  split; [exact G4|]. rewrite V4. apply rnd64_between; [exact Rm1|exact R1|lra].
Qed.

Lemma offset_small n r : 0 <= n <= 2 ^ 53 -> is_finite r = true -> (-1 <= B2R r <= 1)%R ->
  exists o, floor_to_int64 (dmul (d_of_Z n) r) = Ok o /\ - n <= o <= n.
Proof.
  intros Hn Fr Rr. destruct (d_of_Z_exact n) as [Vn Fn]; [lia|].
  assert (N0 : (0 <= IZR n)%R) by (apply IZR_le; lia).
  assert (N53 : (IZR n <= bpow radix2 53)%R) by (rewrite <- IZR_pow2 by lia; apply IZR_le; lia).
  assert (Q : (- IZR n <= IZR n * B2R r <= IZR n)%R) by (split; nra).
  destruct (dmul_val (d_of_Z n) r Fn Fr) as [V F]; [rewrite Vn; apply small_bpow, Rabs_le; lra|].
  rewrite Vn in V.
  assert (B : (IZR (- n) <= B2R (dmul (d_of_Z n) r) <= IZR n)%R).
  { rewrite V. apply rnd64_between; [apply rnd64_IZR; lia|apply rnd64_IZR; lia|]. rewrite opp_IZR. exact Q. }
  unfold floor_to_int64. rewrite F, dfloor_Zfloor. exists (Zfloor (B2R (dmul (d_of_Z n) r))).
  assert (R : - n <= Zfloor (B2R (dmul (d_of_Z n) r)) <= n).
  { split; [apply Zfloor_lub; apply B|]. apply le_IZR. eapply Rle_trans; [apply Zfloor_lb|]. apply B. }
  split; [|exact R]. unfold i64, int64_min, int64_max. replace (_ && _) with true; [reflexivity|]. symmetry. apply andb_true_iff. split; lia.
Qed.

Section Path.
Context {V : Type}.
Variable edge_valid : V -> V -> bool.
Variable distance : V -> V -> double.
Variable interpolate : V -> V -> double -> V.

Lemma range_length (path : list V) i j : (j <= length path)%nat -> (i <= j)%nat -> length (range path i j) = (j - i)%nat.
Proof. intros L1 L2. unfold range. rewrite firstn_length, skipn_length. lia. Qed.

(** Without resampling a shortcut is never longer than what it replaces. *)
Lemma shortcut_defined interval check path : dlt d0 interval = false -> forall steps i j, (i < j < length path)%nat ->
  exists l, AttemptShortcut edge_valid distance interpolate path interval check steps i j = Ok l /\ (length l <= j - i + 1)%nat.
Proof.
  intros NR. induction steps as [|steps IH]; intros i j R; cbn [AttemptShortcut]; (destruct (Nat.leb_spec j i); [lia|]);
    rewrite NR; unfold raw_get;
    (destruct (nth_error path i) as [a|] eqn:Ha; [|apply nth_error_None in Ha; lia]);
    (destruct (nth_error path j) as [b|] eqn:Hb; [|apply nth_error_None in Hb; lia]); cbn [bind app]; change (length [a; b] <=? 2)%nat with true; cbn [orb].
  - destruct (edge_valid a b); cbn [bind]; eexists; (split; [reflexivity|cbn; lia]).
  - destruct (edge_valid a b); cbn [bind]; [eexists; split; [reflexivity|cbn; lia]|].
    destruct (Nat.leb_spec 2 (j - i)); [|eexists; split; [reflexivity|cbn; lia]].
    set (k := (i + (j - i) / 2)%nat).
    assert (Rk : (i < k < j)%nat).
    { unfold k. pose proof (Nat.div_mod (j - i) 2 ltac:(lia)). pose proof (Nat.mod_upper_bound (j - i) 2 ltac:(lia)). lia. }
    destruct (IH i k ltac:(lia)) as (f & -> & Lf). destruct (IH k j ltac:(lia)) as (s & -> & Ls). cbn [bind].
    destruct f as [|f0 f], s as [|s0 s]; eexists; (split; [reflexivity|]); rewrite ?app_length, ?range_length by lia; cbn [length] in *; lia.
Qed.

Section Smooth.
Context {W : Type}.
Variable random : eff W double.
Hypothesis UNIT : forall w, exists u w', random w = (Ok u, w') /\ unit_interval u.
Variable fraction : double.
Hypothesis FRAC : is_finite fraction = true /\ (0 <= B2R fraction <= 1)%R.
Variable interval : double.
Hypothesis NR : dlt d0 interval = false.
Variable check : bool.
Variable back : nat.
Variables max_iterations max_failed : Z.

Lemma smooth_defined : forall fuel k failed current w, 0 <= k -> max_iterations - k <= Z.of_nat fuel -> Z.of_nat (length current) <= 2 ^ 53 ->
  exists p w', smooth_loop edge_valid distance interpolate random max_iterations max_failed back fraction interval check fuel k failed current w = (Ok p, w') /\
    (length p <= length current)%nat.
Proof.
  induction fuel as [|fuel IH]; intros k failed current w Hk HF HL; cbn [smooth_loop].
  - replace (k <? max_iterations) with false by lia. cbn [andb]. eexists _, _. split; [reflexivity|lia].
  - destruct (Z.ltb_spec k max_iterations); cbn [andb]; [|eexists _, _; split; [reflexivity|lia]].
    destruct ((failed <? max_failed) && (2 <? Z.of_nat (length current))) eqn:G; [|eexists _, _; split; [reflexivity|lia]].
    apply andb_true_iff in G. destruct G as [_ G]. cbv zeta. set (n := Z.of_nat (length current)) in *.
    unfold ebind at 1. destruct (UNIT w) as (u1 & w1 & -> & U1).
    unfold ebind at 1, lift at 1. destruct (random_index (- 2 ^ 63) (2 ^ 63 - 1) u1 n ltac:(lia) ltac:(lia) U1 ltac:(lia)) as (base & -> & Rb).
    unfold ebind at 1. destruct (UNIT w1) as (u2 & w2 & -> & U2).
    unfold ebind at 1, lift at 1. destruct (interpolate_small fraction u2 (proj1 FRAC) (proj2 FRAC) U2) as (r & -> & Fr & Rr).
    unfold ebind at 1, lift at 1. destruct (offset_small n r ltac:(lia) Fr Rr) as (o & -> & Ro).
    unfold ebind at 1, lift at 1. unfold i64, int64_min, int64_max.
    replace ((- 2 ^ 63 <=? base + o) && (base + o <=? 2 ^ 63 - 1)) with true by (symmetry; apply andb_true_iff; split; lia).
    unfold ebind at 1, lift at 1. unfold ClampValue. replace (n - 1 >=? 0) with true by lia.
    set (safe := if base + o <? 0 then 0 else if n - 1 <? base + o then n - 1 else base + o).
    replace (if base + o <? 0 then Ok 0 else if n - 1 <? base + o then Ok (n - 1) else Ok (base + o)) with (Ok safe)
      by (unfold safe; destruct (base + o <? 0); [reflexivity|destruct (n - 1 <? base + o); reflexivity]).
    assert (Rs : 0 <= safe < n) by (unfold safe; destruct (Z.ltb_spec (base + o) 0); [lia|destruct (Z.ltb_spec (n - 1) (base + o)); lia]).
    replace (base <? 0) with false by lia.
    destruct (Nat.leb_spec (Z.to_nat (Z.max base safe)) (Z.to_nat (Z.min base safe) + 1)); [exact (IH (k + 1) failed current w2 ltac:(lia) ltac:(lia) HL)|].
    unfold ebind at 1, lift at 1.
    destruct (shortcut_defined interval check current NR back (Z.to_nat (Z.min base safe)) (Z.to_nat (Z.max base safe))) as (l & -> & Ll); [lia|].
    destruct l as [|l0 l]; [exact (IH (k + 1) _ current w2 ltac:(lia) ltac:(lia) HL)|].
    set (i := Z.to_nat (Z.min base safe)) in *. set (j := Z.to_nat (Z.max base safe)) in *.
    assert (LL : (length (firstn i current ++ (l0 :: l) ++ skipn (j + 1) current) <= length current)%nat).
    { rewrite !app_length, firstn_length, skipn_length. assert (j < length current)%nat by lia. lia. }
    destruct (IH (k + 1) failed (firstn i current ++ (l0 :: l) ++ skipn (j + 1) current) w2) as (p & w' & E & Lp); [lia|lia|lia|].
    exists p, w'. split; [exact E|lia].
Qed.
End Smooth.

(** ** Resampling. *)
Lemma seq_from_len k : forall lo, length (seq_from lo k) = k.
Proof. induction k; intros; cbn; auto. Qed.
Lemma seq_from_nth n : forall lo k, (k < n)%nat -> nth_error (seq_from lo n) k = Some (lo + Z.of_nat k).
Proof.
  induction n as [|n IH]; intros lo k L; [lia|]. destruct k; cbn; [f_equal; lia|]. rewrite IH by lia. f_equal. lia.
Qed.

Lemma resample_edge_ok spacing a b block : resample_edge distance interpolate spacing a b = Ok block -> resampled_edge distance interpolate spacing a b block.
Proof.
  unfold resample_edge. intros E. apply bind_ok in E. destruct E as (n & En & E). apply ceil_u32_inv in En. destruct En as (F & En & R).
  unfold resampled_edge. unfold segments. change (Bdiv mode_NE (distance a b) spacing) with (ddiv (distance a b) spacing). rewrite <- En. cbv zeta.
  destruct (Z.eqb_spec n 0) as [->|N0]; [injection E as <-; split; [reflexivity|intros; lia]|].
  destruct (Z.eqb_spec n 1) as [->|N1]; [injection E as <-; split; [reflexivity|]; intros k Hk; replace k with 1 by lia; reflexivity|].
  destruct (n =? 2 ^ 32 - 1); [discriminate|]. injection E as <-. unfold interpolated, seqZ. replace (n + 1 - 1) with n by lia. split.
  - rewrite map_length, seq_from_len. lia.
  - intros k Hk. rewrite nth_error_map, seq_from_nth by lia. cbn [option_map]. replace (1 + Z.of_nat (Z.to_nat (k - 1))) with k by lia. reflexivity.
Qed.

Lemma resample_loop_ok spacing : forall rest p l, resample_loop distance interpolate spacing p rest = Ok l ->
  blocks (resampled_edge distance interpolate spacing) p rest l.
Proof.
  induction rest as [|q rest IH]; intros p l E; cbn in E; [injection E as <-; constructor|].
  apply bind_ok in E. destruct E as (seg & Es & E). apply bind_ok in E. destruct E as (more & Em & E). injection E as <-.
  constructor; [exact (resample_edge_ok _ _ _ _ Es)|exact (IH _ _ Em)].
Qed.

(** Waypoints in order. *)
Lemma block_ends spacing a b block : (forall a b, interpolate a b d1 = b) -> resampled_edge distance interpolate spacing a b block ->
  (0 < segments distance spacing a b < 2 ^ 53) -> exists m, block = m ++ [b].
Proof.
  intros EX [L N] R. set (n := segments distance spacing a b) in *.
  assert (X : nth_error block (Z.to_nat (n - 1)) = Some b).
  { rewrite (N n) by lia. destruct (n =? 1); [reflexivity|]. rewrite ratio_same by lia. rewrite EX. reflexivity. }
  destruct (nth_error_split _ _ X) as (m1 & m2 & -> & Lm). rewrite app_length in L. cbn in L.
  destruct m2; [exists m1; reflexivity|cbn in L; lia].
Qed.

Lemma blocks_impl (P Q : V -> V -> list V -> Prop) : (forall a b l, P a b l -> Q a b l) -> forall p rest l, blocks P p rest l -> blocks Q p rest l.
Proof. intros H p rest l B. induction B; constructor; auto. Qed.

Lemma resample_ok spacing a b rest out : (forall a b, interpolate a b d1 = b) ->
  ResamplePath distance interpolate (a :: b :: rest) spacing = Ok out ->
  dle spacing d0 = false /\ exists l, out = a :: l /\
  blocks (fun a b block => resampled_edge distance interpolate spacing a b block /\
           (0 < segments distance spacing a b -> exists m, block = m ++ [b])) a (b :: rest) l.
Proof.
  intros EX E. cbn [ResamplePath] in E. destruct (dle spacing d0); [discriminate|]. split; [reflexivity|].
  apply bind_ok in E. destruct E as (l & El & E). injection E as <-. exists l. split; [reflexivity|].
  assert (X : forall rest p l, resample_loop distance interpolate spacing p rest = Ok l ->
    blocks (fun a b block => resampled_edge distance interpolate spacing a b block /\
           (0 < segments distance spacing a b -> exists m, block = m ++ [b])) p rest l); [|exact (X _ _ _ El)].
  clear - EX. induction rest as [|q rest IH]; intros p l E; cbn in E; [injection E as <-; constructor|].
  apply bind_ok in E. destruct E as (seg & Es & E). apply bind_ok in E. destruct E as (more & Em & E). injection E as <-.
  constructor; [|exact (IH _ _ Em)]. pose proof (resample_edge_ok _ _ _ _ Es) as H. split; [exact H|]. intros P.
  apply (block_ends spacing p q seg EX H). split; [exact P|].
  unfold resample_edge in Es. apply bind_ok in Es. destruct Es as (n & En & _). apply ceil_u32_inv in En. destruct En as (_ & En & R).
  unfold segments. change (Bdiv mode_NE (distance p q) spacing) with (ddiv (distance p q) spacing). rewrite <- En. lia.
Qed.
End Path.
