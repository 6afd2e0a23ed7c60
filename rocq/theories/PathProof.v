(** Path processing: proofs (C54-C56). *)
From Coq Require Import ZArith Reals Lra Psatz.
From Flocq Require Import Core BinarySingleNaN.
From Verif Require Import Base Double DoubleFacts Effect UtilityModel VoxelModel VoxelFloat RrtHelperProof ParallelismModel PathModel PathSpec.
Local Open Scope Z_scope.

(** ** Quotients of integers in double arithmetic. *)
Lemma ratio_val k n : 0 <= k <= n -> 1 <= n <= 2 ^ 53 ->
  B2R (ddiv (d_of_Z k) (d_of_Z n)) = rnd64 (IZR k / IZR n) /\ is_finite (ddiv (d_of_Z k) (d_of_Z n)) = true.
Proof.
  intros Hk Hn. destruct (d_of_Z_exact k) as [Vk Fk]; [lia|]. destruct (d_of_Z_exact n) as [Vn Fn]; [lia|].
  assert (N0 : (0 < IZR n)%R) by (apply IZR_lt; lia).
  pose proof (ddiv_val (d_of_Z k) (d_of_Z n) Fk) as H. rewrite Vk, Vn in H. apply H; [lra|].
  rewrite Rabs_pos_eq.
  - apply Rle_trans with 1%R; [|change 1%R with (bpow radix2 0); apply bpow_le; lia].
    apply Rmult_le_reg_r with (IZR n); [exact N0|]. unfold Rdiv. rewrite Rmult_assoc, Rinv_l, Rmult_1_r, Rmult_1_l by lra.
    apply IZR_le. lia.
  - apply Rle_mult_inv_pos; [apply IZR_le; lia|exact N0].
Qed.

Lemma deq_R x y : is_finite x = true -> is_finite y = true -> deq x y = true <-> B2R x = B2R y.
Proof. intros Fx Fy. unfold deq. rewrite Beqb_correct by assumption. case Req_bool_spec; intros; split; auto; discriminate || congruence. Qed.

Lemma ratio_one k n : 0 <= k <= n -> 1 <= n <= 2 ^ 53 ->
  deq (ddiv (d_of_Z k) (d_of_Z n)) d1 = true <-> k = n.
Proof.
  intros Hk Hn. destruct (ratio_val k n Hk Hn) as [V F]. destruct d1_val as [E1 F1]. rewrite deq_R by assumption. rewrite V, E1.
  assert (N0 : (0 < IZR n)%R) by (apply IZR_lt; lia).
  split.
  - intros E. destruct (Z.eq_dec k n) as [->|NE]; [reflexivity|]. exfalso.
    assert (B : (IZR k / IZR n <= 1 - bpow radix2 (-53))%R).
    { apply Rmult_le_reg_r with (IZR n); [exact N0|]. unfold Rdiv. rewrite Rmult_assoc, Rinv_l, Rmult_1_r by lra.
      assert (K1 : (IZR k <= IZR n - 1)%R) by (rewrite <- minus_IZR; apply IZR_le; lia).
      assert (X : (IZR n * bpow radix2 (-53) <= 1)%R).
      { apply Rle_trans with (bpow radix2 53 * bpow radix2 (-53))%R.
        - apply Rmult_le_compat_r; [apply bpow_ge_0|]. rewrite <- IZR_pow2 by lia. apply IZR_le. lia.
        - rewrite <- bpow_plus. cbn. lra. }
      lra. }
    assert (R : (rnd64 (IZR k / IZR n) <= 1 - bpow radix2 (-53))%R).
    { replace (1 - bpow radix2 (-53))%R with (rnd64 (1 - bpow radix2 (-53))).
      - apply rnd64_mono. exact B.
      - assert (Y : (1 - bpow radix2 (-53) = IZR (2 ^ 53 - 1) * bpow radix2 (-53))%R).
        { rewrite minus_IZR, IZR_pow2 by lia. rewrite Rmult_minus_distr_r, <- bpow_plus. cbn [Z.add Z.opp]. cbn. lra. }
        rewrite Y. apply rnd64_exact; lia. }
    pose proof (bpow_gt_0 radix2 (-53)). lra.
  - intros ->. unfold Rdiv. rewrite Rinv_r by lra. apply (rnd64_IZR 1). lia.
Qed.

Lemma ratio_same n : 1 <= n <= 2 ^ 53 -> ddiv (d_of_Z n) (d_of_Z n) = d1.
Proof.
  intros Hn. destruct (ratio_val n n ltac:(lia) Hn) as [V F]. destruct d1_val as [E1 F1].
  assert (N0 : (0 < IZR n)%R) by (apply IZR_lt; lia).
  assert (E : B2R (ddiv (d_of_Z n) (d_of_Z n)) = 1%R).
  { rewrite V. unfold Rdiv. rewrite Rinv_r by lra. apply (rnd64_IZR 1). lia. }
  apply B2R_inj; rewrite ?E, ?E1; [| |reflexivity].
  - destruct (ddiv _ _); try discriminate; [|reflexivity]. cbn in E. lra.
  - destruct d1; try discriminate; [|reflexivity]. cbn in E1. lra.
Qed.

Lemma skipn_twice {A} a b (l : list A) : skipn a (skipn b l) = skipn (b + a) l.
Proof. revert l. induction b as [|b IH]; intros [|x l]; cbn; auto. destruct a; reflexivity. Qed.

Section Path.
Context {V : Type}.
Variable edge_valid : V -> V -> bool.
Variable distance : V -> V -> double.
Variable interpolate : V -> V -> double -> V.

(** ** Percent collision free. *)
Lemma edges_valid_cons a b l : edges_valid edge_valid (a :: b :: l) <-> edge_valid a b = true /\ edges_valid edge_valid (b :: l).
Proof.
  split.
  - intros H. split; [apply (H [] a b l eq_refl)|]. intros l1 x y l2 E. apply (H (a :: l1) x y l2). rewrite E. reflexivity.
  - intros [H1 H2] l1 x y l2 E. destruct l1 as [|z l1]; cbn in E; [injection E as <- <- _; exact H1|].
    injection E as _ E. exact (H2 l1 x y l2 E).
Qed.
Lemma edges_valid_nil : edges_valid edge_valid [].
Proof. intros l1 a b l2 E. destruct l1; discriminate. Qed.
Lemma edges_valid_one a : edges_valid edge_valid [a].
Proof. intros l1 x b l2 E. destruct l1 as [|? [|? ?]]; discriminate. Qed.

Lemma free_edges rest : forall q, 0 <= collision_free_edges edge_valid q rest <= Z.of_nat (length rest) /\
  (collision_free_edges edge_valid q rest = Z.of_nat (length rest) <-> edges_valid edge_valid (q :: rest)).
Proof.
  induction rest as [|r rest IH]; intros q; cbn [collision_free_edges length].
  - split; [lia|]. split; [intros _; apply edges_valid_one|reflexivity].
  - destruct (IH r) as [B I]. rewrite edges_valid_cons. destruct (edge_valid q r).
    + split; [lia|]. split; [intros E; split; [reflexivity|apply I; lia]|intros [_ E]; apply I in E; lia].
    + split; [lia|]. split; [intros E; lia|intros [E _]; discriminate].
Qed.

Lemma percent_one path : Z.of_nat (length path) <= 2 ^ 53 + 1 ->
  deq (ComputePercentCollisionFree edge_valid path) d1 = true <-> path_valid edge_valid path.
Proof.
  intros L. destruct d1_val as [E1 F1]. unfold path_valid. destruct path as [|q [|r rest]].
  - cbn [ComputePercentCollisionFree]. split; [intros _; split; [apply edges_valid_nil|discriminate]|intros _; apply (deq_R d1 d1); auto].
  - cbn [ComputePercentCollisionFree]. destruct (edge_valid q q) eqn:Q.
    + split; [intros _; split; [apply edges_valid_one|]|intros _; apply (deq_R d1 d1); auto]. intros x E. injection E as <-. exact Q.
    + split.
      * intros E. apply deq_R in E; [|reflexivity|exact F1]. rewrite E1 in E. cbn in E. lra.
      * intros [_ H]. rewrite (H q eq_refl) in Q. discriminate.
  - unfold ComputePercentCollisionFree. cbn [length] in *. destruct (free_edges (r :: rest) q) as [B I]. cbn [length] in B, I.
    replace (Z.of_nat (S (S (length rest))) - 1) with (Z.of_nat (S (length rest))) by lia.
    rewrite (ratio_one (collision_free_edges edge_valid q (r :: rest)) (Z.of_nat (S (length rest)))) by lia. rewrite I.
    split; [intros H; split; [exact H|discriminate]|intros [H _]; exact H].
Qed.

(** Otherwise the value lies in [0, 1). *)
Lemma percent_range path : Z.of_nat (length path) <= 2 ^ 53 + 1 ->
  dle d0 (ComputePercentCollisionFree edge_valid path) = true /\ dle (ComputePercentCollisionFree edge_valid path) d1 = true.
Proof.
  intros L. destruct d1_val as [E1 F1].
  assert (A : dle d0 d1 = true) by (apply dle_R; [reflexivity|exact F1|rewrite E1; cbn; lra]).
  assert (B : dle d1 d1 = true) by (apply dle_R; [exact F1|exact F1|lra]).
  assert (C : dle d0 d0 = true) by (apply dle_R; [reflexivity|reflexivity|lra]).
  destruct path as [|q [|r rest]]; [cbn [ComputePercentCollisionFree]; auto|cbn [ComputePercentCollisionFree]; destruct (edge_valid q q); auto|].
  unfold ComputePercentCollisionFree. cbn [length] in *. destruct (free_edges (r :: rest) q) as [R _]. cbn [length] in R.
  replace (Z.of_nat (S (S (length rest))) - 1) with (Z.of_nat (S (length rest))) by lia.
  destruct (ratio_val (collision_free_edges edge_valid q (r :: rest)) (Z.of_nat (S (length rest)))) as [Ev F]; [lia|lia|].
  assert (N0 : (0 < IZR (Z.of_nat (S (length rest))))%R) by (apply IZR_lt; lia).
  split; apply dle_R; auto; rewrite Ev.
  - cbn [B2R d0]. rewrite <- rnd64_0. apply rnd64_mono. apply Rle_mult_inv_pos; [apply IZR_le; lia|exact N0].
  - rewrite E1, <- (rnd64_IZR 1) by lia. apply rnd64_mono. apply Rmult_le_reg_r with (IZR (Z.of_nat (S (length rest)))); [exact N0|].
    unfold Rdiv. rewrite Rmult_assoc, Rinv_l, Rmult_1_r, Rmult_1_l by lra. apply IZR_le. lia.
Qed.

Lemma free_before a b l2 : edge_valid a b = false -> forall l1 q, edges_valid edge_valid (q :: l1 ++ [a]) ->
  collision_free_edges edge_valid q (l1 ++ a :: b :: l2) = Z.of_nat (S (length l1)).
Proof.
  intros B. induction l1 as [|x l1 IH]; intros q V0; cbn [app collision_free_edges length] in *; apply edges_valid_cons in V0 as [E V0]; rewrite E.
  - rewrite B. reflexivity.
  - rewrite (IH x V0). lia.
Qed.
(** Otherwise it is the fraction of the edges before the first invalid one. *)
Lemma percent_fraction path l1 a b l2 : Z.of_nat (length path) <= 2 ^ 53 + 1 ->
  path = l1 ++ a :: b :: l2 -> edges_valid edge_valid (l1 ++ [a]) -> edge_valid a b = false ->
  B2R (ComputePercentCollisionFree edge_valid path) = rnd64 (IZR (Z.of_nat (length l1)) / IZR (Z.of_nat (length path) - 1)) /\
  is_finite (ComputePercentCollisionFree edge_valid path) = true.
Proof.
  intros L E V0 N.
  assert (X : exists q r rest, path = q :: r :: rest /\ collision_free_edges edge_valid q (r :: rest) = Z.of_nat (length l1)).
  { subst path. destruct l1 as [|q l1]; cbn [app] in *.
    - exists a, b, l2. split; [reflexivity|]. cbn [collision_free_edges]. now rewrite N.
    - destruct (l1 ++ a :: b :: l2) as [|r rest] eqn:El; [destruct l1; discriminate|]. exists q, r, rest. split; [reflexivity|].
      rewrite <- El. now rewrite (free_before a b l2 N l1 q V0). }
  destruct X as (q & r & rest & -> & C). unfold ComputePercentCollisionFree. rewrite C.
  apply f_equal with (f := @length V) in E. rewrite app_length in E. cbn [length] in E, L |- *.
  apply ratio_val; lia.
Qed.

(** ** Shortcuts. *)
Lemma edges_valid_app l1 b l2 : edges_valid edge_valid (l1 ++ b :: l2) <-> edges_valid edge_valid (l1 ++ [b]) /\ edges_valid edge_valid (b :: l2).
Proof.
  induction l1 as [|a l1 IH]; cbn [app].
  - split; [intros H; split; [apply edges_valid_one|exact H]|tauto].
  - destruct l1 as [|c l1]; cbn [app] in *.
    + rewrite !edges_valid_cons. split; [intros [? ?]; split; [split; [assumption|apply edges_valid_one]|assumption]|tauto].
    + rewrite !(edges_valid_cons a). rewrite IH. tauto.
Qed.

(** A shortcut replaces the stretch of the path from [i] to [j]. *)
Definition bridges (path : list V) (i j : nat) (l : list V) : Prop :=
  exists a b m, nth_error path i = Some a /\ nth_error path j = Some b /\ l = a :: m ++ [b].

Lemma range_split (path : list V) i j a b : (i < j)%nat -> nth_error path i = Some a -> nth_error path j = Some b ->
  exists m, range path i (j + 1) = a :: m ++ [b] /\ path = firstn i path ++ a :: m ++ b :: skipn (j + 1) path /\
    range path i j = a :: m /\ range path (i + 1) (j + 1) = m ++ [b].
Proof.
  intros L Hi Hj. unfold range.
  assert (S1 : skipn i path = a :: skipn (i + 1) path).
  { clear - Hi. revert path Hi. induction i as [|i IH]; intros [|x p] E; try discriminate; cbn in *; [injection E as ->; reflexivity|apply IH, E]. }
  assert (S2 : skipn j path = b :: skipn (j + 1) path).
  { clear - Hj. revert path Hj. induction j as [|i IH]; intros [|x p] E; try discriminate; cbn in *; [injection E as ->; reflexivity|apply IH, E]. }
  set (m := firstn (j - i - 1) (skipn (i + 1) path)).
  assert (S3 : skipn (i + 1) path = m ++ skipn j path).
  { unfold m. rewrite <- (firstn_skipn (j - i - 1) (skipn (i + 1) path)) at 1. f_equal.
    rewrite skipn_twice. f_equal. lia. }
  assert (Lm : length m = (j - i - 1)%nat).
  { unfold m. rewrite firstn_length, skipn_length. assert (j < length path)%nat by (apply nth_error_Some; congruence). lia. }
  exists m. rewrite S1. replace (j + 1 - i)%nat with (S (j - i - 1 + 1)) by lia. cbn [firstn].
  rewrite S3, S2. split; [|split; [|split]].
  - f_equal. rewrite firstn_app, Lm. rewrite firstn_all2 by lia. replace (j - i - 1 + 1 - (j - i - 1))%nat with 1%nat by lia. reflexivity.
  - rewrite <- S2, <- S3, <- S1. symmetry. apply firstn_skipn.
  - replace (j - i)%nat with (S (j - i - 1)) by lia. cbn [firstn]. rewrite firstn_app, Lm, Nat.sub_diag. cbn [firstn]. rewrite app_nil_r.
    rewrite firstn_all2 by lia. reflexivity.
  - replace (j + 1 - (i + 1))%nat with (j - i - 1 + 1)%nat by lia. rewrite firstn_app, Lm. rewrite firstn_all2 by lia.
    replace (j - i - 1 + 1 - (j - i - 1))%nat with 1%nat by lia. reflexivity.
Qed.

Variable interval : double.
Variable check : bool.
(** Shortcuts made of several states are checked. *)
Definition checked : Prop := dlt d0 interval = false \/ check = true.

Lemma ceil_u32_inv x z : ceil_to_uint32 x = Ok z -> is_finite x = true /\ z = Zceil (B2R x) /\ 0 <= z < 2 ^ 32.
Proof.
  unfold ceil_to_uint32. destruct (is_finite x) eqn:F; [|discriminate]. rewrite ceil_val.
  destruct (Z.leb_spec 0 (Zceil (B2R x))); [|discriminate].
  destruct (Z.ltb_spec (Zceil (B2R x)) (2 ^ 32)); [|discriminate]. cbn [andb]. intros E. injection E as <-. auto.
Qed.

Lemma shortcut_ok path : forall steps i j l,
  AttemptShortcut edge_valid distance interpolate path interval check steps i j = Ok l -> l <> [] ->
  (i < j)%nat /\ bridges path i j l /\ (checked -> edges_valid edge_valid path -> edges_valid edge_valid l).
Proof.
  induction steps as [|steps IH]; intros i j l E NE; cbn [AttemptShortcut] in E;
    (destruct (Nat.leb_spec j i) as [|Lij]; [discriminate|]); split; try exact Lij.
  all: unfold raw_get in E at 1; destruct (nth_error path i) as [a|] eqn:Ha; [|discriminate]; cbn [bind] in E;
    unfold raw_get in E at 1; destruct (nth_error path j) as [b|] eqn:Hb; [|discriminate]; cbn [bind] in E.
  all: match type of E with bind ?x _ = _ => destruct x as [single|ex| |] eqn:ES; try discriminate end; cbn [bind] in E.
  all: assert (ONE : forall l, single = Some l -> bridges path i j l /\ (checked -> edges_valid edge_valid l)).
  1,3: (intros l0 ->; destruct (edge_valid a b) eqn:Vab; [|discriminate];
    match type of ES with bind ?x _ = _ => destruct x as [mid|ex| |] eqn:EM; try discriminate end; cbn [bind] in ES;
    destruct (_ || _) eqn:T; [injection ES as <-; split; [exists a, b, mid; auto|]|
      destruct (deq _ d1) eqn:D; [|discriminate]; injection ES as <-; split; [exists a, b, mid; auto|]];
    [intros CH; apply orb_true_iff in T; destruct T as [T|T];
      [apply Nat.leb_le in T; cbn in T; rewrite app_length in T; destruct mid; [|cbn in T; lia]; cbn; apply edges_valid_cons; split; [exact Vab|apply edges_valid_one]
      |destruct CH as [CH|CH]; [rewrite CH in EM; injection EM as <-; cbn; apply edges_valid_cons; split; [exact Vab|apply edges_valid_one]
                                |rewrite CH in T; discriminate]]
    |intros _; apply percent_one in D; [apply D|]; cbn [length]; rewrite app_length; cbn [length];
      destruct (dlt d0 interval); [|injection EM as <-; cbn; lia];
      destruct (ceil_to_uint32 _) as [n|x| |] eqn:EC; try discriminate; cbn [bind] in EM; injection EM as <-;
      apply ceil_u32_inv in EC; destruct EC as (_ & _ & R); unfold interpolated; rewrite map_length;
      assert (LS : forall k lo, length (seq_from lo k) = k) by (induction k; intros; cbn; auto);
      unfold seqZ; rewrite LS; lia]).
  - destruct single as [l0|]; [|injection E as <-; contradiction]. injection E as <-. destruct (ONE l0 eq_refl) as [B C]. split; [exact B|auto].
  - destruct single as [l0|]; [injection E as <-; destruct (ONE l0 eq_refl) as [B C]; split; [exact B|auto]|].
    clear ONE ES. destruct (Nat.leb_spec 2 (j - i)) as [L2|L2]; [|injection E as <-; contradiction].
    set (k := (i + (j - i) / 2)%nat) in *.
    assert (Rk : (i < k < j)%nat).
    { unfold k. pose proof (Nat.div_mod (j - i) 2 ltac:(lia)). pose proof (Nat.mod_upper_bound (j - i) 2 ltac:(lia)). lia. }
    destruct (AttemptShortcut _ _ _ _ _ _ steps i k) as [f|x| |] eqn:E1; try discriminate. cbn [bind] in E.
    destruct (AttemptShortcut _ _ _ _ _ _ steps k j) as [s|x| |] eqn:E2; try discriminate. cbn [bind] in E.
    destruct (nth_error path k) as [c|] eqn:Hc.
    2:{ apply nth_error_None in Hc. assert (j < length path)%nat by (apply nth_error_Some; congruence). lia. }
    destruct (range_split path i k a c (proj1 Rk) Ha Hc) as (m1 & RA1 & RA2 & RA3 & RA4).
    destruct (range_split path k j c b (proj2 Rk) Hc Hb) as (m2 & RB1 & RB2 & RB3 & RB4).
    destruct f as [|f0 f'].
    + destruct s as [|s0 s']; [injection E as <-; contradiction|]. injection E as <-. rewrite RA3.
      destruct (IH k j _ E2) as (_ & (c' & b' & ms & Hc' & Hb' & Es) & Cs); [discriminate|].
      rewrite Hc in Hc'. injection Hc' as <-. rewrite Hb in Hb'. injection Hb' as <-. split.
      * exists a, b, (m1 ++ c :: ms). split; [exact Ha|]. split; [exact Hb|]. rewrite Es. cbn. rewrite <- app_assoc. reflexivity.
      * intros CH PV. rewrite Es. cbn [app]. rewrite app_comm_cons. apply edges_valid_app. split.
        -- rewrite RA2 in PV. apply edges_valid_app in PV. destruct PV as [_ PV]. rewrite app_comm_cons in PV. apply edges_valid_app in PV. exact (proj1 PV).
        -- rewrite <- Es. exact (Cs CH PV).
    + destruct (IH i k _ E1) as (_ & (a' & c' & mf & Ha' & Hc' & Ef) & Cf); [discriminate|].
      rewrite Ha in Ha'. injection Ha' as <-. rewrite Hc in Hc'. injection Hc' as <-.
      destruct s as [|s0 s'].
      * injection E as <-. rewrite RB4, app_comm_cons, Ef. split.
        -- exists a, b, (mf ++ c :: m2). split; [exact Ha|]. split; [exact Hb|]. cbn. rewrite <- !app_assoc. reflexivity.
        -- intros CH PV. replace ((a :: mf ++ [c]) ++ m2 ++ [b]) with ((a :: mf) ++ c :: m2 ++ [b]) by (cbn; rewrite <- app_assoc; reflexivity).
           apply edges_valid_app. split; [cbn; rewrite <- Ef; exact (Cf CH PV)|].
           rewrite RB2 in PV. apply edges_valid_app in PV. destruct PV as [_ PV]. rewrite app_comm_cons in PV. apply edges_valid_app in PV. exact (proj1 PV).
      * injection E as <-. destruct (IH k j _ E2) as (_ & (c' & b' & ms & Hc' & Hb' & Es) & Cs); [discriminate|].
        rewrite Hc in Hc'. injection Hc' as <-. rewrite Hb in Hb'. injection Hb' as <-. rewrite app_comm_cons, Ef.
        injection Es as -> ->. split.
        -- exists a, b, (mf ++ c :: ms). split; [exact Ha|]. split; [exact Hb|]. cbn. rewrite <- !app_assoc. reflexivity.
        -- intros CH PV. replace ((a :: mf ++ [c]) ++ ms ++ [b]) with ((a :: mf) ++ c :: ms ++ [b]) by (cbn; rewrite <- app_assoc; reflexivity).
           apply edges_valid_app. split; [cbn; rewrite <- Ef; exact (Cf CH PV)|exact (Cs CH PV)].
Qed.

(** ** Smoothing. *)
Lemma last_app_one (l : list V) b d : last (l ++ [b]) d = b.
Proof. induction l as [|x l IH]; [reflexivity|]. cbn [app]. destruct (l ++ [b]) eqn:E; [destruct l; discriminate|]. cbn [last] in *. exact IH. Qed.
Lemma last_app_any (l1 l2 : list V) d : l2 <> [] -> last (l1 ++ l2) d = last l2 d.
Proof.
  intros N. destruct (exists_last N) as (r & x & ->). rewrite app_assoc, !last_app_one. reflexivity.
Qed.
Lemma same_ends_refl (p : list V) : same_ends p p.
Proof. intros a l b -> E. exists l. auto. Qed.
Lemma same_ends_trans (p q r : list V) : same_ends p q -> same_ends q r -> same_ends p r.
Proof. intros H1 H2 a l b E L. destruct (H1 a l b E L) as (l' & E' & L'). exact (H2 a l' b E' L'). Qed.

Lemma splice_ends (path : list V) i j l : (i < j)%nat -> bridges path i j l ->
  same_ends path (firstn i path ++ l ++ skipn (j + 1) path).
Proof.
  intros L (a & b & m & Ha & Hb & ->). destruct (range_split path i j a b L Ha Hb) as (m' & _ & RP & _ & _).
  set (t := skipn (j + 1) path) in *. set (h := firstn i path) in *. clearbody t h. intros x q y E EL.
  replace (h ++ (a :: m ++ [b]) ++ t) with (h ++ a :: m ++ b :: t) by (cbn; rewrite <- app_assoc; reflexivity).
  subst path. assert (X : forall (m1 m2 : list V) d, last (h ++ a :: m1 ++ b :: t) d = last (h ++ a :: m2 ++ b :: t) d).
  { intros m1 m2 d. rewrite !app_comm_cons, !app_assoc. rewrite !(last_app_any _ (b :: t)) by discriminate. reflexivity. }
  rewrite (X m' m) in EL. destruct h as [|h0 h]; cbn [app] in *; injection E as <- _; eexists; (split; [reflexivity|exact EL]).
Qed.
Lemma splice_valid (path : list V) i j l : (i < j)%nat -> bridges path i j l -> edges_valid edge_valid path -> edges_valid edge_valid l ->
  edges_valid edge_valid (firstn i path ++ l ++ skipn (j + 1) path).
Proof.
  intros L (a & b & m & Ha & Hb & ->) PV LV. destruct (range_split path i j a b L Ha Hb) as (m' & _ & RP & _ & _).
  rewrite RP in PV. apply edges_valid_app in PV. destruct PV as [P1 P2]. rewrite app_comm_cons in P2. apply edges_valid_app in P2. destruct P2 as [_ P2].
  cbn [app]. apply edges_valid_app. split; [exact P1|]. rewrite <- app_assoc. cbn [app]. rewrite app_comm_cons. apply edges_valid_app. auto.
Qed.

Section Smooth.
Context {W : Type}.
Variable random : eff W double.
Variables max_iterations max_failed : Z.
Variable back : nat.
Variable fraction : double.

Lemma smooth_loop_ok : forall fuel k failed current w p w',
  smooth_loop edge_valid distance interpolate random max_iterations max_failed back fraction interval check fuel k failed current w = (Ok p, w') ->
  same_ends current p /\ (checked -> edges_valid edge_valid current -> edges_valid edge_valid p).
Proof.
  induction fuel as [|fuel IH]; intros k failed current w p w' E; cbn [smooth_loop] in E.
  - destruct (_ && _); [discriminate|]. injection E as <- _. split; [apply same_ends_refl|auto].
  - destruct (_ && _); [|injection E as <- _; split; [apply same_ends_refl|auto]].
    cbv zeta in E. unfold ebind at 1 in E. destruct (random w) as [[u1|x| |] w1]; try discriminate.
    unfold ebind at 1, lift at 1 in E. destruct (GetUniformRandomIndex _ _ _ _) as [base|x| |]; try discriminate.
    unfold ebind at 1 in E. destruct (random w1) as [[u2|x| |] w2]; try discriminate.
    unfold ebind at 1, lift at 1 in E. destruct (Interpolate _ _ _) as [frac|x| |]; try discriminate.
    unfold ebind at 1, lift at 1 in E. destruct (floor_to_int64 _) as [off|x| |]; try discriminate.
    unfold ebind at 1, lift at 1 in E. destruct (i64 _) as [oi|x| |]; try discriminate.
    unfold ebind at 1, lift at 1 in E. destruct (ClampValue _ _ _ _ _) as [safe|x| |]; try discriminate.
    destruct (base <? 0); [discriminate|]. destruct (_ <=? _)%nat.
    + exact (IH _ _ _ _ _ _ E).
    + unfold ebind at 1, lift at 1 in E. destruct (AttemptShortcut _ _ _ _ _ _ _ _ _) as [l|x| |] eqn:ES; try discriminate.
      destruct l as [|l0 l]; [exact (IH _ _ _ _ _ _ E)|].
      destruct (shortcut_ok _ _ _ _ _ ES) as (Lij & B & C); [discriminate|].
      destruct (IH _ _ _ _ _ _ E) as [H1 H2]. split.
      * eapply same_ends_trans; [|exact H1]. exact (splice_ends _ _ _ _ Lij B).
      * intros CH PV. apply (H2 CH). exact (splice_valid _ _ _ _ Lij B PV (C CH PV)).
Qed.

(** Number of draws from the random source; no endless loop. *)
Variable drawn : W -> Z.
Hypothesis DRAW : forall w r w', random w = (r, w') -> drawn w' <= drawn w + 1 /\ r <> Diverge.

Lemma shortcut_total path : forall steps i j, AttemptShortcut edge_valid distance interpolate path interval check steps i j <> Diverge.
Proof.
  induction steps as [|steps IH]; intros i j; cbn [AttemptShortcut]; (destruct (j <=? i)%nat; [discriminate|]);
    unfold raw_get; destruct (nth_error path i) as [a|]; cbn [bind]; try discriminate; destruct (nth_error path j) as [b|]; cbn [bind]; try discriminate.
  all: assert (ND : forall (mid : list V), (if (length (a :: mid ++ [b]) <=? 2)%nat || negb check then Ok (Some (a :: mid ++ [b]))
         else if deq (ComputePercentCollisionFree edge_valid (a :: mid ++ [b])) d1 then Ok (Some (a :: mid ++ [b])) else Ok None) <> Diverge)
       by (intros mid; destruct (_ || _); [discriminate|]; destruct (deq _ _); discriminate).
  all: assert (CD : forall x, ceil_to_uint32 x <> Diverge) by (intros x; unfold ceil_to_uint32; destruct (is_finite x); [|discriminate]; cbv zeta; destruct (_ && _); discriminate).
  all: match goal with |- bind ?x _ <> _ => assert (NS : x <> Diverge) end.
  1,3: destruct (edge_valid a b); [|discriminate]; destruct (dlt d0 interval); [|apply (ND [])];
       (destruct (ceil_to_uint32 _) as [n|ex| |] eqn:EC; cbn [bind]; [apply ND|discriminate|discriminate|apply CD in EC; destruct EC]).
  all: match type of NS with ?x <> _ => destruct x as [[s|]|ex| |] end; cbn [bind]; try discriminate; try contradiction.
  destruct (2 <=? j - i)%nat; [|discriminate].
  pose proof (IH i (i + (j - i) / 2)%nat) as H1. destruct (AttemptShortcut _ _ _ _ _ _ steps i _) as [f|x| |]; cbn [bind]; try discriminate; [|congruence].
  pose proof (IH (i + (j - i) / 2)%nat j) as H2. destruct (AttemptShortcut _ _ _ _ _ _ steps _ j) as [s|x| |]; cbn [bind]; try discriminate; [|congruence].
  destruct f, s; discriminate.
Qed.

Lemma smooth_loop_bound : forall fuel k failed current w r w', 0 <= k -> max_iterations - k <= Z.of_nat fuel ->
  smooth_loop edge_valid distance interpolate random max_iterations max_failed back fraction interval check fuel k failed current w = (r, w') ->
  r <> Diverge /\ drawn w' <= drawn w + 2 * Z.max 0 (max_iterations - k).
Proof.
  induction fuel as [|fuel IH]; intros k failed current w r w' Hk HF E; cbn [smooth_loop] in E.
  - replace (k <? max_iterations) with false in E by lia. cbn [andb] in E. injection E as <- <-. split; [discriminate|lia].
  - destruct (Z.ltb_spec k max_iterations); cbn [andb] in E; [|injection E as <- <-; split; [discriminate|lia]].
    destruct (_ && _); [|injection E as <- <-; split; [discriminate|lia]].
    cbv zeta in E. unfold ebind at 1 in E. destruct (random w) as [r1 w1] eqn:R1. destruct (DRAW _ _ _ R1) as [D1 N1].
    destruct r1 as [u1|x| |]; try (injection E as <- <-; split; [discriminate|lia]); [|congruence].
    unfold ebind at 1, lift at 1 in E.
    assert (G1 : forall lo hi u n, GetUniformRandomIndex lo hi u n <> Diverge).
    { intros. unfold GetUniformRandomIndex, cast_integral. destruct (_ <? _); [discriminate|]. destruct (is_finite _); [|discriminate]. destruct (_ && _); discriminate. }
    destruct (GetUniformRandomIndex _ _ _ _) as [base|x| |] eqn:EG; try (injection E as <- <-; split; [discriminate|lia]); [|apply G1 in EG; destruct EG].
    unfold ebind at 1 in E. destruct (random w1) as [r2 w2] eqn:R2. destruct (DRAW _ _ _ R2) as [D2 N2].
    destruct r2 as [u2|x| |]; try (injection E as <- <-; split; [discriminate|lia]); [|congruence].
    unfold ebind at 1, lift at 1 in E. unfold Interpolate, ClampValue in E. destruct (dle d0 d1); [|injection E as <- <-; split; [discriminate|lia]].
    match type of E with (match ?x with _ => _ end) = _ => assert (NI : x <> Diverge) by (destruct (dlt u2 d0); [discriminate|]; destruct (dlt d1 u2); discriminate);
      destruct x as [frac|ex| |]; try (injection E as <- <-; split; [discriminate|lia]); [|congruence] end.
    unfold ebind at 1, lift at 1 in E. unfold floor_to_int64 in E. destruct (is_finite _); [|injection E as <- <-; split; [discriminate|lia]].
    unfold i64 in E. destruct (_ && _) in E; [|injection E as <- <-; split; [discriminate|lia]].
    unfold ebind at 1, lift at 1 in E. destruct (_ && _) in E; [|injection E as <- <-; split; [discriminate|lia]].
    unfold ebind at 1, lift at 1 in E.
    destruct (_ >=? 0) in E; [|injection E as <- <-; split; [discriminate|lia]].
    match type of E with (match ?x with _ => _ end) = _ => assert (NC : exists z, x = Ok z) by (destruct (_ <? 0); [eauto|]; destruct (_ <? _); eauto);
      destruct NC as [safe NC]; rewrite NC in E; clear NC end.
    destruct (base <? 0); [injection E as <- <-; split; [discriminate|lia]|].
    assert (ST : forall f c, smooth_loop edge_valid distance interpolate random max_iterations max_failed back fraction interval check fuel (k + 1) f c w2 = (r, w') ->
       r <> Diverge /\ drawn w' <= drawn w + 2 * Z.max 0 (max_iterations - k)).
    { intros f c E'. destruct (IH (k + 1) f c w2 r w' ltac:(lia) ltac:(lia) E') as [A B]. split; [exact A|lia]. }
    destruct (_ <=? _)%nat; [exact (ST _ _ E)|].
    unfold ebind at 1, lift at 1 in E.
    match type of E with (match AttemptShortcut ?a ?b ?c ?d ?e ?f ?g ?h ?i with _ => _ end) = _ => pose proof (shortcut_total d g h i) as NS; destruct (AttemptShortcut a b c d e f g h i) as [l|ex| |] end;
      try (injection E as <- <-; split; [discriminate|lia]); [|congruence].
    destruct l; exact (ST _ _ E).
Qed.
End Smooth.
End Path.
