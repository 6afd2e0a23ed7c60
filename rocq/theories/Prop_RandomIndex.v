(** C185: random indices are uniform up to rounding.  Model in UtilityModel.v. *)
From Coq Require Import ZArith Reals Lra Lia Psatz.
From Flocq Require Import Core BinarySingleNaN.
From Verif Require Import Base Double DoubleFacts VoxelModel VoxelFloat UtilityModel UtilitySpec UtilityProof.
Local Open Scope R_scope.

Notation e53 := (bpow radix2 (-53)).
Lemma e53_val : e53 = / IZR (2 ^ 53).
Proof. change (-53)%Z with (- (53))%Z. rewrite bpow_opp, IZR_pow2 by lia. reflexivity. Qed.
Lemma near_above x i : (1 <= i <= 2 ^ 53)%Z -> 0 <= x -> IZR i <= rnd64 x -> IZR i <= x * (1 + e53).
Proof.
  intros I X R. destruct (Rle_lt_dec (bpow radix2 (-1022)) x) as [L|L].
  - destruct (rnd64_rel x) as (eps & B & E); [rewrite Rabs_right by lra; exact L|]. rewrite E in R.
    assert (eps <= e53) by (apply Rle_trans with (1 := Rle_abs eps); exact B). nra.
  - exfalso. assert (rnd64 x <= bpow radix2 (-1)) as H by (apply rnd64_le_bpow; [lia|]; apply Rlt_le, Rlt_le_trans with (1 := L); apply bpow_le; lia).
    assert (1 <= IZR i) by (apply IZR_le; lia). simpl bpow in H. lra.
Qed.
Lemma reaches x i : (0 <= i <= 2 ^ 53)%Z -> IZR i <= x -> IZR i <= rnd64 x.
Proof. intros I H. rewrite <- (rnd64_IZR i) by lia. apply rnd64_mono. exact H. Qed.
(** The index is the integer part of the rounded product. *)
Lemma index_value lo hi u n i : (lo <= 0)%Z -> (hi < 2 ^ 64)%Z -> unit_interval u -> (1 <= n <= 2 ^ 53)%Z -> (n <= hi)%Z ->
  (GetUniformRandomIndex lo hi u n = Ok i <-> IZR i <= rnd64 (B2R u * IZR n) < IZR i + 1).
Proof.
  intros L H U N NH. destruct (index_in_range u n U ltac:(lia) ltac:(lia)) as [F R].
  unfold GetUniformRandomIndex, cast_integral. rewrite F.
  replace (n <? 1)%Z with false by (symmetry; apply Z.ltb_ge; lia).
  assert (V : B2R (dmul u (d_of_Z n)) = rnd64 (B2R u * IZR n)).
  { destruct (d_of_Z_exact n ltac:(lia)) as [Dv Df]. destruct U as (Fu & U0 & U1). assert (IZR n <= bpow radix2 53) by (rewrite <- IZR_pow2 by lia; apply IZR_le; lia).
    assert (0 <= IZR n) by (apply IZR_le; lia).
    assert (B : Rabs (B2R u * B2R (d_of_Z n)) <= bpow radix2 1023).
    { rewrite Dv, Rabs_right by nra. apply Rle_trans with (bpow radix2 53); [nra|apply bpow_le; lia]. }
    destruct (dmul_val u (d_of_Z n) Fu Df B) as [Mv _]. rewrite Mv, Dv. reflexivity. }
  set (j := dfloor_Z _) in *.
  replace (lo <=? j)%Z with true by (symmetry; apply Z.leb_le; lia).
  replace (j <=? hi)%Z with true by (symmetry; apply Z.leb_le; lia). cbn [andb].
  assert (J : j = Zfloor (rnd64 (B2R u * IZR n))) by (unfold j; rewrite dfloor_Zfloor, V; reflexivity).
  split.
  - intros E. injection E as <-. rewrite J. pose proof (Zfloor_lb (rnd64 (B2R u * IZR n))). pose proof (Zfloor_ub (rnd64 (B2R u * IZR n))). lra.
  - intros [A B]. f_equal. rewrite J. apply Zfloor_imp. rewrite plus_IZR. lra.
Qed.

(** The index is the integer part of u times n, unless that is short of the next integer by
    no more than one part in 2^53. *)
Theorem C185_integer_part : forall lo hi u n, (lo <= 0)%Z -> (hi < 2 ^ 64)%Z -> unit_interval u -> (1 <= n <= 2 ^ 53)%Z -> (n <= hi)%Z ->
  exists i, GetUniformRandomIndex lo hi u n = Ok i /\ (0 <= i < n)%Z /\
    IZR i <= B2R u * IZR n * (1 + / IZR (2 ^ 53)) /\ B2R u * IZR n < IZR i + 1.
Proof.
  intros lo hi u n L H U N NH. destruct (random_index lo hi u n L H U ltac:(lia)) as (i & E & I). exists i. split; [exact E|]. split; [exact I|].
  apply index_value in E; try assumption. destruct E as [A B]. rewrite <- e53_val. destruct U as (Fu & U0 & U1). assert (0 <= IZR n) by (apply IZR_le; lia).
  assert (P : 0 <= B2R u * IZR n) by nra. split.
  - destruct (Z.eq_dec i 0) as [->|]; [pose proof (bpow_gt_0 radix2 (-53)); nra|]. apply near_above; [lia|exact P|exact A].
  - apply Rnot_le_lt. intros K. rewrite <- plus_IZR in K, B. apply (reaches _ (i + 1)) in K; [lra|lia].
Qed.
Print Assumptions C185_integer_part.

(** The first of the 2^53 equally spaced numbers k / 2^53 whose index is i or more. *)
Definition scaled (n k : Z) : R := IZR k / IZR (2 ^ 53) * IZR n.
Lemma threshold n i : (1 <= n <= 2 ^ 53)%Z -> (0 <= i <= n)%Z ->
  exists t, (0 <= t <= 2 ^ 53)%Z /\ (i * 2 ^ 53 - n < t * n < i * 2 ^ 53 + n)%Z /\
  forall k, (0 <= k < 2 ^ 53)%Z -> (IZR i <= rnd64 (scaled n k) <-> (t <= k)%Z).
Proof.
  intros N I. assert (P53 : 0 < IZR (2 ^ 53)) by (apply IZR_lt; lia). assert (Np : 0 < IZR n) by (apply IZR_lt; lia).
  assert (Up : forall k, (i * 2 ^ 53 <= k * n)%Z -> IZR i <= rnd64 (scaled n k)).
  { intros k K. apply reaches; [lia|]. unfold scaled. apply IZR_le in K. rewrite !mult_IZR in K. apply Rmult_le_reg_r with (IZR (2 ^ 53)); [exact P53|].
    replace (IZR k / IZR (2 ^ 53) * IZR n * IZR (2 ^ 53)) with (IZR k * IZR n) by (field; lra). exact K. }
  assert (Down : forall k, (0 <= k)%Z -> (k * n <= i * 2 ^ 53 - n)%Z -> ~ IZR i <= rnd64 (scaled n k)).
  { intros k K0 K R. assert (I1 : (1 <= i)%Z) by nia. assert (K0' : 0 <= IZR k) by (apply IZR_le; lia).
    apply near_above in R; [|lia|unfold scaled; apply Rmult_le_pos; [|lra]; apply Rmult_le_pos; [lra|apply Rlt_le, Rinv_0_lt_compat, P53]].
    rewrite e53_val in R. unfold scaled in R. apply IZR_le in K. rewrite minus_IZR, !mult_IZR in K.
    apply Rmult_le_compat_r with (r := IZR (2 ^ 53)) in R; [|lra].
    replace (IZR k / IZR (2 ^ 53) * IZR n * (1 + / IZR (2 ^ 53)) * IZR (2 ^ 53)) with (IZR k * IZR n + IZR k * IZR n / IZR (2 ^ 53)) in R by (field; lra).
    assert (Q : IZR k * IZR n / IZR (2 ^ 53) < IZR n).
    { apply Rmult_lt_reg_r with (IZR (2 ^ 53)); [exact P53|]. unfold Rdiv. rewrite Rmult_assoc, Rinv_l by lra. rewrite Rmult_1_r. assert (IZR i <= IZR n) by (apply IZR_le; lia). nra. }
    lra. }
  assert (Mono : forall k k', (k <= k')%Z -> rnd64 (scaled n k) <= rnd64 (scaled n k')).
  { intros k k' K. apply rnd64_mono. unfold scaled. apply Rmult_le_compat_r; [lra|]. apply Rmult_le_compat_r; [apply Rlt_le, Rinv_0_lt_compat, P53|]. apply IZR_le, K. }
  set (c := ((i * 2 ^ 53 + n - 1) / n)%Z).
  assert (C : (i * 2 ^ 53 <= c * n < i * 2 ^ 53 + n)%Z).
  { unfold c. pose proof (Z.div_mod (i * 2 ^ 53 + n - 1) n ltac:(lia)). pose proof (Z.mod_pos_bound (i * 2 ^ 53 + n - 1) n ltac:(lia)). nia. }
  assert (CU : (0 <= c <= 2 ^ 53)%Z) by nia.
  destruct (Rle_lt_dec (IZR i) (rnd64 (scaled n (c - 1)))) as [R|R].
  - assert (C1 : (c = 0 \/ i * 2 ^ 53 - n < (c - 1) * n)%Z).
    { destruct (Z.eq_dec c 0); [auto|]. right. apply Z.nle_gt. intros K. apply (Down (c - 1)%Z); [lia|lia|exact R]. }
    destruct C1 as [C0|C1].
    + exists 0%Z. split; [lia|]. split; [nia|]. intros k K. split; [lia|]. intros _. apply Up. nia.
    + assert (Z0 : (c = 0 \/ 1 <= c)%Z) by lia. destruct Z0 as [Z0|Z0].
      * exists 0%Z. split; [lia|]. split; [nia|]. intros k K. split; [lia|]. intros _. apply Up. nia.
      * exists (c - 1)%Z. split; [lia|]. split; [lia|]. intros k K. split.
        -- intros A. apply Z.nlt_ge. intros B. apply (Down k); [lia|nia|exact A].
        -- intros B. apply Rle_trans with (1 := R). apply Mono, B.
  - exists c. split; [exact CU|]. split; [lia|]. intros k K. split.
    + intros A. apply Z.nlt_ge. intros B. pose proof (Mono k (c - 1)%Z ltac:(lia)). lra.
    + intros B. apply Up. nia.
Qed.

(** Of the 2^53 equally spaced numbers in [0, 1), those that give index i follow each other, and
    their number differs from the fair share 2^53 / n by less than 2; so up to 2^52 every index is possible. *)
Theorem C185_fair_shares : forall lo hi n i, (lo <= 0)%Z -> (hi < 2 ^ 64)%Z -> (1 <= n <= 2 ^ 53)%Z -> (n <= hi)%Z -> (0 <= i < n)%Z ->
  exists first next, (0 <= first <= next)%Z /\ (next <= 2 ^ 53)%Z /\
    (forall k u, (0 <= k < 2 ^ 53)%Z -> is_finite u = true -> B2R u = IZR k / IZR (2 ^ 53) ->
       (GetUniformRandomIndex lo hi u n = Ok i <-> (first <= k < next)%Z)) /\
    (Z.abs ((next - first) * n - 2 ^ 53) < 2 * n)%Z /\ ((n <= 2 ^ 52)%Z -> (first < next)%Z).
Proof.
  intros lo hi n i L H N NH I. destruct (threshold n i N ltac:(lia)) as (a & A1 & A2 & A3). destruct (threshold n (i + 1) N ltac:(lia)) as (b & B1 & B2 & B3).
  assert (P53 : 0 < IZR (2 ^ 53)) by (apply IZR_lt; lia).
  exists a, (Z.max a b). assert (AB : (a <= b)%Z).
  { destruct (Z.eq_dec b (2 ^ 53)) as [->|NB]; [lia|]. apply (A3 b); [lia|]. pose proof (proj2 (B3 b ltac:(lia)) ltac:(lia)) as Q. rewrite plus_IZR in Q. lra. }
  rewrite Z.max_r by exact AB. split; [lia|]. split; [lia|]. split; [|split; [lia|nia]].
  intros k u K F V. assert (U : unit_interval u).
  { split; [exact F|]. rewrite V. assert (0 <= IZR k) by (apply IZR_le; lia). assert (IZR k < IZR (2 ^ 53)) by (apply IZR_lt; lia). split.
    - apply Rmult_le_pos; [lra|apply Rlt_le, Rinv_0_lt_compat, P53].
    - apply Rmult_lt_reg_r with (IZR (2 ^ 53)); [exact P53|]. unfold Rdiv. rewrite Rmult_assoc, Rinv_l by lra. lra. }
  rewrite index_value by assumption. rewrite V. fold (scaled n k). rewrite (A3 k K). rewrite <- plus_IZR.
  pose proof (B3 k K) as Q. split; intros [X Y]; (split; [assumption|]).
  - apply Z.nle_gt. intros Z. apply Q in Z. lra.
  - apply Rnot_le_lt. intros Z. apply Q in Z. lia.
Qed.
Print Assumptions C185_fair_shares.

(** The same for the numbers from start to end. *)
Theorem C185_fair_numbers : forall lo hi start end_ v, (lo <= 0)%Z -> (hi < 2 ^ 64)%Z ->
  (lo <= start)%Z -> (start <= v <= end_)%Z -> (end_ <= hi)%Z -> (end_ - start < hi)%Z -> (end_ - start < 2 ^ 53)%Z ->
  let n := (end_ - start + 1)%Z in
  exists first next, (0 <= first <= next)%Z /\ (next <= 2 ^ 53)%Z /\
    (forall k u, (0 <= k < 2 ^ 53)%Z -> is_finite u = true -> B2R u = IZR k / IZR (2 ^ 53) ->
       (GetUniformRandomInRange lo hi u start end_ = Ok v <-> (first <= k < next)%Z)) /\
    (Z.abs ((next - first) * n - 2 ^ 53) < 2 * n)%Z /\ ((n <= 2 ^ 52)%Z -> (first < next)%Z).
Proof.
  intros lo hi a b v L H A V B W W2 n. destruct (C185_fair_shares lo hi n (v - a) L H ltac:(lia) ltac:(lia) ltac:(lia)) as (f & x & P1 & P2 & P3 & P4).
  exists f, x. split; [exact P1|]. split; [exact P2|]. split; [|exact P4]. intros k u K F E. rewrite <- (P3 k u K F E).
  unfold GetUniformRandomInRange. replace (b <? a)%Z with false by (symmetry; apply Z.ltb_ge; lia).
  rewrite arith_id by lia. cbn [bind]. rewrite arith_id by lia. cbn [bind]. fold n.
  assert (U : unit_interval u).
  { assert (P53 : 0 < IZR (2 ^ 53)) by (apply IZR_lt; lia).
    split; [exact F|]. rewrite E. assert (0 <= IZR k) by (apply IZR_le; lia). assert (IZR k < IZR (2 ^ 53)) by (apply IZR_lt; lia). split.
    - apply Rmult_le_pos; [lra|apply Rlt_le, Rinv_0_lt_compat, P53].
    - apply Rmult_lt_reg_r with (IZR (2 ^ 53)); [exact P53|]. unfold Rdiv. rewrite Rmult_assoc, Rinv_l by lra. lra. }
  destruct (random_index lo hi u n L H U ltac:(lia)) as (j & -> & J). cbn [bind]. rewrite arith_id by lia. split; intros Q; injection Q as Q; f_equal; lia.
Qed.
Print Assumptions C185_fair_numbers.

(** Some values. *)
Example C185_nonvacuous : GetUniformRandomIndex 0 (2 ^ 64 - 1) (ddiv (d_of_Z 7) (d_of_Z 20)) 10 = Ok 3%Z /\
  is_finite (ddiv (d_of_Z (2 ^ 51)) (d_of_Z (2 ^ 53))) = true /\
  GetUniformRandomIndex 0 (2 ^ 64 - 1) (ddiv (d_of_Z (2 ^ 51)) (d_of_Z (2 ^ 53))) 10 = Ok 2%Z /\
  GetUniformRandomIndex 0 (2 ^ 64 - 1) (ddiv (d_of_Z (2 ^ 53 - 1)) (d_of_Z (2 ^ 53))) 10 = Ok 9%Z /\
  GetUniformRandomInRange (- 2 ^ 31) (2 ^ 31 - 1) (ddiv (d_of_Z 1) (d_of_Z 2)) (-3) 4 = Ok 1%Z.
Proof. repeat split; vm_compute; reflexivity. Qed.
