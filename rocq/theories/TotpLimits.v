(** The limits on the path velocity and the path acceleration are exactly the limits on
    the joints (exact arithmetic). *)
From Coq Require Import Reals Lra Psatz List Bool Lia.
From Flocq Require Import Core.
From Verif Require Import Base MathModel MathReal MathLinModel MathVec MathLinProof TotpModel TotpScalar TotpRealSpec TotpReal.
Local Open Scope R_scope.

Lemma within_nth a u : length u = length a -> (within a u <-> forall i, (i < length a)%nat -> Rabs (nth i u 0) <= nth i a 0).
Proof.
  unfold within. revert a. induction u as [|x u IH]; intros [|y a] L; try discriminate.
  - split; [intros _ i H; cbn in H; lia|constructor].
  - injection L as L. split.
    + intros H i Hi. inversion_clear H. destruct i; cbn in *; [assumption|]. apply IH; auto; lia.
    + intros H. constructor; [apply (H 0%nat); cbn; lia|]. apply IH; [exact L|]. intros i Hi. apply (H (S i)). cbn. lia.
Qed.
Lemma nth_vscale c u i : nth i (vscale c u) 0 = c * nth i u 0.
Proof. unfold vscale. revert i. induction u as [|x u IH]; intros [|i]; cbn; auto; lra. Qed.
Lemma nth_vadd u v i : length u = length v -> nth i (vadd u v) 0 = nth i u 0 + nth i v 0.
Proof. unfold vadd. revert v i. induction u as [|x u IH]; intros [|y v] [|i] L; cbn in *; try discriminate; try lra. apply IH. lia. Qed.
Lemma nth_joint_acceleration q' q'' x y i : length q' = length q'' ->
  nth i (joint_acceleration q' q'' x y) 0 = y * nth i q' 0 + x * x * nth i q'' 0.
Proof. intros L. unfold joint_acceleration. rewrite nth_vadd by (unfold vscale; now rewrite !map_length). now rewrite !nth_vscale. Qed.

Lemma le_div_abs x v d : d <> 0 -> (x <= v / Rabs d <-> x * Rabs d <= v).
Proof.
  intros H. pose proof (Rabs_pos_lt d H) as P. split; intros L.
  - apply (Rmult_le_compat_r (Rabs d)) in L; [|lra]. unfold Rdiv in L. rewrite Rmult_assoc, Rinv_l, Rmult_1_r in L; lra.
  - apply (Rmult_le_reg_r (Rabs d)); [exact P|]. unfold Rdiv. rewrite Rmult_assoc, Rinv_l, Rmult_1_r; lra.
Qed.
Lemma Rmin_le x a b : x <= Rmin a b <-> x <= a /\ x <= b.
Proof. unfold Rmin. destruct (Rle_dec a b); split; intros; try split; try tauto; lra. Qed.

(** Velocity. *)
Lemma velocity_limit p vmax amax dt s q' :
  GetTangent xa xextras p (XFin s) = Ok (fin q') -> length q' = length vmax -> Forall (fun v => 0 <= v) vmax ->
  exists V, GetVelocityMaxPathVelocity xa xextras (mkSetup p (fin vmax) amax dt) (XFin s) = Ok (XFin V) /\
    forall x, 0 <= x -> (x <= V <-> x <= big /\ within vmax (joint_velocity q' x)).
Proof.
  intros T L NN. unfold GetVelocityMaxPathVelocity. cbn [su_path su_max_velocity]. rewrite T. cbn [bind].
  assert (NV : forall i, (i < length vmax)%nat -> 0 <= nth i vmax 0).
  { intros i Hi. rewrite Forall_forall in NN. apply NN. now apply nth_In. }
  destruct (mfold_seq (fun k s => exists V, s = XFin V /\ forall x, 0 <= x ->
      (x <= V <-> x <= big /\ forall i, (i < k)%nat -> Rabs (x * nth i q' 0) <= nth i vmax 0))
    (fun acc i => do v <- raw_get (fin vmax) i; do t <- raw_get (fin q') i; Ok (std_min xa acc (adiv xa v (aabs xa t))))
    (length (fin vmax)) 0%nat (XFin big)) as (s' & E & V & -> & HV).
  - exists big. split; [reflexivity|]. intros x _. split; [|tauto]. intros H. split; [exact H|]. intros i Hi. lia.
  - intros k s0 Hk (V & -> & HV). rewrite fin_length in Hk. rewrite !fin_get by lia. cbn [bind aabs adiv xa xabs].
    specialize (NV k ltac:(lia)). destruct (Req_dec (nth k q' 0) 0) as [Z|NZ].
    + eexists. split; [reflexivity|]. exists V. split.
      * rewrite Z, Rabs_R0. cbn [xdiv]. rewrite Req_bool_true by reflexivity.
        destruct (Req_bool_spec (nth k vmax 0) 0) as [e|ne]; [apply smin_nan|].
        unfold xsign. rewrite Rlt_bool_false by lra. apply smin_inf.
      * intros x Hx. rewrite (HV x Hx). split; intros (B & C); (split; [exact B|]); intros i Hi.
        -- destruct (Nat.eq_dec i k) as [->|]; [rewrite Z, Rmult_0_r, Rabs_R0; exact NV|apply C; lia].
        -- apply C. lia.
    + rewrite xdiv_fin by now apply Rabs_no_R0. rewrite smin_fin. eexists. split; [reflexivity|]. eexists. split; [reflexivity|].
      intros x Hx. rewrite Rmin_le, (HV x Hx), le_div_abs by exact NZ. split.
      * intros ((B & C) & D). split; [exact B|]. intros i Hi. destruct (Nat.eq_dec i k) as [->|]; [|apply C; lia].
        rewrite Rabs_mult, (Rabs_pos_eq x) by exact Hx. exact D.
      * intros (B & C). split; [split; [exact B|]; intros i Hi; apply C; lia|]. specialize (C k ltac:(lia)).
        rewrite Rabs_mult, (Rabs_pos_eq x) in C by exact Hx. exact C.
  - exists V. split; [rewrite <- E; reflexivity|]. intros x Hx. rewrite (HV x Hx), fin_length. cbn [Nat.add].
    unfold joint_velocity. rewrite within_nth by (unfold vscale; now rewrite map_length).
    split; intros (B & C); (split; [exact B|]); intros i Hi; specialize (C i Hi); now rewrite nth_vscale in *.
Qed.

(** Acceleration along the path. *)
Lemma acc_fold f q' q'' amax n x : (f = 1 \/ f = -1) -> length q' = n -> length q'' = n -> length amax = n ->
  exists M, mfold (fun acc i =>
      do d <- raw_get (fin q') i;
      if aeqb xa d (a_of xa 0) then Ok acc
      else
        do am <- raw_get (fin amax) i;
        do d2 <- raw_get (fin q'') i;
        Ok (std_min xa acc (asub xa (adiv xa am (aabs xa d))
             (adiv xa (amul xa (amul xa (amul xa (XFin f) d2) (XFin x)) (XFin x)) d))))
      (XFin big) (seq 0 n) = Ok (XFin M) /\
    forall y, y <= M <-> y <= big /\ forall i, (i < n)%nat -> nth i q' 0 <> 0 ->
      y <= nth i amax 0 / Rabs (nth i q' 0) - f * nth i q'' 0 * x * x / nth i q' 0.
Proof.
  intros Hf L1 L2 L3.
  match goal with |- exists M, mfold ?F _ _ = _ /\ _ =>
    destruct (mfold_seq (fun k s => exists V, s = XFin V /\ forall y,
      (y <= V <-> y <= big /\ forall i, (i < k)%nat -> nth i q' 0 <> 0 ->
        y <= nth i amax 0 / Rabs (nth i q' 0) - f * nth i q'' 0 * x * x / nth i q' 0)) F n 0%nat (XFin big)) as (s' & E & V & -> & HV)
  end.
  - exists big. split; [reflexivity|]. intros y. split; [|tauto]. intros H. split; [exact H|]. intros i Hi. lia.
  - intros k s0 Hk (V & -> & HV). rewrite !fin_get by lia. cbn [bind aeqb a_of xa].
    destruct (xeqb (XFin (nth k q' 0)) (XFin (IZR 0))) eqn:Q.
    + apply xeqb_0 in Q. eexists. split; [reflexivity|]. exists V. split; [reflexivity|]. intros y. rewrite (HV y).
      split; intros (B & C); (split; [exact B|]); intros i Hi NZ.
      * destruct (Nat.eq_dec i k) as [->|]; [congruence|apply C; auto; lia].
      * apply C; auto.
    + assert (NZ : nth k q' 0 <> 0) by (intros e; apply xeqb_0 in e; change (IZR 0) with 0 in Q; congruence).
      cbn [aabs xabs adiv amul asub xmul xa]. rewrite !xdiv_fin by (try apply Rabs_no_R0; exact NZ). rewrite xsub_fin, smin_fin.
      eexists. split; [reflexivity|]. eexists. split; [reflexivity|]. intros y. rewrite Rmin_le, (HV y). split.
      * intros ((B & C) & D). split; [exact B|]. intros i Hi N'. destruct (Nat.eq_dec i k) as [->|]; [exact D|apply C; auto; lia].
      * intros (B & C). split; [split; [exact B|]; intros i Hi; apply C; lia|apply C; auto].
  - exists V. split; [exact E|]. intros y. rewrite HV. reflexivity.
Qed.

Lemma interval_abs y a d d2 x : d <> 0 ->
  ((y <= a / Rabs d - 1 * d2 * x * x / d /\ - y <= a / Rabs d - -1 * d2 * x * x / d) <-> Rabs (y * d + x * x * d2) <= a).
Proof.
  intros H. pose proof (Rabs_pos_lt d H) as P.
  assert (E : Rabs (y * d + x * x * d2) = Rabs (y + d2 * x * x / d) * Rabs d).
  { rewrite <- Rabs_mult. f_equal. field. exact H. }
  rewrite E, <- le_div_abs by exact H.
  replace (1 * d2 * x * x / d) with (d2 * x * x / d) by (field; exact H).
  replace (-1 * d2 * x * x / d) with (- (d2 * x * x / d)) by (field; exact H).
  split; [intros (A1 & A2); apply Rabs_le; lra|]. intros A1. apply Rabs_le_inv in A1. lra.
Qed.

Lemma acceleration_limits p vmax amax dt s x q' q'' :
  GetTangent xa xextras p (XFin s) = Ok (fin q') -> GetCurvature xa xextras p (XFin s) = Ok (fin q'') ->
  length q' = length vmax -> length q'' = length vmax -> length amax = length vmax ->
  exists lo hi,
    GetMinMaxPathAcceleration xa xextras (mkSetup p (fin vmax) (fin amax) dt) (XFin s) (XFin x) false = Ok (XFin lo) /\
    GetMinMaxPathAcceleration xa xextras (mkSetup p (fin vmax) (fin amax) dt) (XFin s) (XFin x) true = Ok (XFin hi) /\
    forall y, (lo <= y <= hi <-> Rabs y <= big /\
      forall i, (i < length vmax)%nat -> nth i q' 0 <> 0 -> Rabs (nth i (joint_acceleration q' q'' x y) 0) <= nth i amax 0).
Proof.
  intros T C L1 L2 L3. unfold GetMinMaxPathAcceleration. cbn [su_path su_max_velocity su_max_acceleration]. rewrite T, C. cbn [bind].
  rewrite fin_length. change (a_of xa 1) with (XFin 1). change (aopp xa (XFin 1)) with (XFin (- 1)).
  destruct (acc_fold 1 q' q'' amax (length vmax) x (or_introl eq_refl) L1 L2 L3) as (H & EH & PH).
  destruct (acc_fold (-1) q' q'' amax (length vmax) x (or_intror eq_refl) L1 L2 L3) as (M & EM & PM).
  change (e_max xextras) with (XFin big).
  replace (- 1)%R with (-1)%R in EM |- * by lra.
  rewrite EH, EM. cbn [bind amul xa xmul].
  exists (-1 * M), (1 * H). split; [reflexivity|]. split; [reflexivity|]. intros y.
  specialize (PM (- y)). specialize (PH y).
  assert (A1 : -1 * M <= y <= 1 * H <-> - y <= M /\ y <= H) by (split; intros; lra). rewrite A1, PM, PH.
  assert (AB : Rabs y <= big <-> - y <= big /\ y <= big).
  { split; [intros A; apply Rabs_le_inv in A; lra|intros; apply Rabs_le; lra]. }
  rewrite AB. split.
  - intros ((B1 & C1) & (B2 & C2)). split; [split; assumption|]. intros i Hi NZ. rewrite nth_joint_acceleration by congruence.
    apply interval_abs; auto.
  - intros ((B1 & B2) & D). split; (split; [assumption|]); intros i Hi NZ; specialize (D i Hi NZ);
      rewrite nth_joint_acceleration in D by congruence; apply interval_abs in D; auto; tauto.
Qed.

(** Intervals that meet pairwise have a common point. *)
Lemma common_point n (l u : nat -> R) (P : nat -> bool) :
  (forall i j, (i < n)%nat -> (j < n)%nat -> P i = true -> P j = true -> l i <= u j) ->
  exists y, forall i, (i < n)%nat -> P i = true -> l i <= y <= u i.
Proof.
  induction n as [|n IH]; intros H.
  - exists 0. intros i Hi. lia.
  - destruct IH as (y & Hy); [intros; apply H; auto|].
    destruct (P n) eqn:Pn.
    + (* the largest lower end among the first n, or y itself moved into the new interval *)
      destruct (Rle_or_lt (l n) y) as [A1|A1]; [destruct (Rle_or_lt y (u n)) as [A2|A2]|].
      * exists y. intros i Hi Pi. destruct (Nat.eq_dec i n) as [->|]; [lra|apply Hy; auto; lia].
      * exists (u n). intros i Hi Pi. split; [apply H; auto|]. destruct (Nat.eq_dec i n) as [->|]; [lra|].
        specialize (Hy i ltac:(lia) Pi). lra.
      * exists (l n). intros i Hi Pi. split; [|apply H; auto]. destruct (Nat.eq_dec i n) as [->|]; [lra|].
        specialize (Hy i ltac:(lia) Pi). lra.
    + exists y. intros i Hi Pi. destruct (Nat.eq_dec i n) as [->|]; [congruence|apply Hy; auto; lia].
Qed.

Definition xle (x : R) (v : xr) : Prop := xleb (XFin x) v = true.
Lemma xle_fin x y : xle x (XFin y) <-> x <= y. Proof. apply xleb_le. Qed.
Lemma xle_smin x a b : (a = XInf false \/ exists r, a = XFin r) -> xle x (std_min xa a (XFin b)) <-> xle x a /\ x <= b.
Proof.
  intros [->|(r & ->)].
  - change (std_min xa (XInf false) (XFin b)) with (XFin b). rewrite xle_fin. unfold xle. cbn. tauto.
  - rewrite smin_fin, !xle_fin. apply Rmin_le.
Qed.
Lemma smin_shape a b : (a = XInf false \/ exists r, a = XFin r) -> std_min xa a (XFin b) = XInf false \/ exists r, std_min xa a (XFin b) = XFin r.
Proof. intros [->|(r & ->)]; right; [exists b; reflexivity|]. rewrite smin_fin. eauto. Qed.
Lemma le_sqrt_div x c k : 0 <= x -> 0 <= c -> k <> 0 -> (x <= sqrt (c / Rabs k) <-> x * x * Rabs k <= c).
Proof.
  intros Hx Hc Hk. pose proof (Rabs_pos_lt k Hk) as P.
  assert (NN : 0 <= c / Rabs k) by (apply Rmult_le_pos; [exact Hc|left; now apply Rinv_0_lt_compat]).
  rewrite <- le_div_abs by exact Hk. split; intros H.
  - rewrite <- (sqrt_sqrt _ NN). apply Rmult_le_compat; auto.
  - rewrite <- (sqrt_square x Hx). now apply sqrt_le_1_alt.
Qed.

Definition pair_ok (q' q'' amax : list R) (x : R) (i j : nat) : Prop :=
  nth i q' 0 <> 0 -> nth j q' 0 <> 0 ->
  x * x * Rabs (nth i q'' 0 / nth i q' 0 - nth j q'' 0 / nth j q' 0) <=
    nth i amax 0 / Rabs (nth i q' 0) + nth j amax 0 / Rabs (nth j q' 0).
Definition alone_ok (q' q'' amax : list R) (x : R) (i : nat) : Prop :=
  nth i q' 0 = 0 -> x * x * Rabs (nth i q'' 0) <= nth i amax 0.

Section Curve.
Variables (q' q'' amax : list R) (n : nat).
Hypotheses (L1 : length q' = n) (L2 : length q'' = n) (L3 : length amax = n) (NA : Forall (fun v => 0 <= v) amax).
Lemma amax_nn i : (i < n)%nat -> 0 <= nth i amax 0.
Proof. intros Hi. rewrite Forall_forall in NA. apply NA. apply nth_In. congruence. Qed.
Lemma share_nn i : (i < n)%nat -> nth i q' 0 <> 0 -> 0 <= nth i amax 0 / Rabs (nth i q' 0).
Proof. intros Hi NZ. apply Rmult_le_pos; [now apply amax_nn|]. left. apply Rinv_0_lt_compat. now apply Rabs_pos_lt. Qed.

Lemma inner_fold i acc : (i < n)%nat -> nth i q' 0 <> 0 -> (acc = XInf false \/ exists r, acc = XFin r) ->
  exists acc', mfold (fun acc j =>
        do dj <- raw_get (fin q') j;
        if negb (aeqb xa dj (a_of xa 0)) then
          do d2i <- raw_get (fin q'') i;
          do d2j <- raw_get (fin q'') j;
          let a_ij := asub xa (adiv xa d2i (XFin (nth i q' 0))) (adiv xa d2j dj) in
          if negb (aeqb xa a_ij (a_of xa 0)) then
            do ai <- raw_get (fin amax) i;
            do aj <- raw_get (fin amax) j;
            Ok (std_min xa acc (asqrt xa (adiv xa (aadd xa (adiv xa ai (aabs xa (XFin (nth i q' 0)))) (adiv xa aj (aabs xa dj))) (aabs xa a_ij))))
          else Ok acc
        else Ok acc) acc (seq (S i) (n - S i)) = Ok acc' /\
    (acc' = XInf false \/ exists r, acc' = XFin r) /\
    forall x, 0 <= x -> (xle x acc' <-> xle x acc /\ forall j, (i < j < n)%nat -> pair_ok q' q'' amax x i j).
Proof.
  intros Hi NZ SA.
  match goal with |- exists acc', mfold ?F _ _ = _ /\ _ =>
    destruct (mfold_seq (fun k s => (s = XInf false \/ exists r, s = XFin r) /\ forall x, 0 <= x ->
      (xle x s <-> xle x acc /\ forall j, (i < j < k)%nat -> pair_ok q' q'' amax x i j)) F (n - S i)%nat (S i) acc) as (s' & E & SS & HV)
  end.
  - split; [exact SA|]. intros x Hx. split; [|tauto]. intros H. split; [exact H|]. intros j Hj. lia.
  - intros k s0 Hk (SS & HV). rewrite !fin_get by lia. cbn [bind].
    destruct (aeqb xa (XFin (nth k q' 0)) (a_of xa 0)) eqn:Q; cbn [negb].
    + apply xeqb_0 in Q. exists s0. split; [reflexivity|]. split; [exact SS|]. intros x Hx. rewrite (HV x Hx).
      split; intros (B & C); (split; [exact B|]); intros j Hj.
      * destruct (Nat.eq_dec j k) as [->|]; [intros _ e; contradiction|apply C; lia].
      * apply C. lia.
    + assert (NK : nth k q' 0 <> 0) by (intros e; apply xeqb_0 in e; cbn in Q; cbn in e; congruence).
      cbn [adiv asub xa]. rewrite !xdiv_fin by (try apply Rabs_no_R0; assumption). rewrite xsub_fin. cbn zeta.
      set (k_ij := nth i q'' 0 / nth i q' 0 - nth k q'' 0 / nth k q' 0).
      destruct (aeqb xa (XFin k_ij) (a_of xa 0)) eqn:Z; cbn [negb].
      * apply xeqb_0 in Z. exists s0. split; [reflexivity|]. split; [exact SS|]. intros x Hx. rewrite (HV x Hx).
        split; intros (B & C); (split; [exact B|]); intros j Hj.
        -- destruct (Nat.eq_dec j k) as [->|]; [|apply C; lia]. intros N1 N2. fold k_ij. rewrite Z, Rabs_R0, Rmult_0_r.
           pose proof (share_nn i Hi N1). pose proof (share_nn k ltac:(lia) N2). lra.
        -- apply C. lia.
      * assert (NKI : k_ij <> 0) by (intros e; apply xeqb_0 in e; cbn in Z; cbn in e; congruence).
        cbn [aabs xabs xa]. rewrite !xdiv_fin by (apply Rabs_no_R0; assumption). cbn [aadd xadd xa].
        rewrite xdiv_fin by (apply Rabs_no_R0; assumption).
        pose proof (share_nn i Hi NZ) as S1. pose proof (share_nn k ltac:(lia) NK) as S2.
        assert (SN : 0 <= nth i amax 0 / Rabs (nth i q' 0) + nth k amax 0 / Rabs (nth k q' 0)) by lra.
        cbn [asqrt xa]. rewrite xsqrt_fin by (apply Rmult_le_pos; [exact SN|left; apply Rinv_0_lt_compat; now apply Rabs_pos_lt]).
        eexists. split; [reflexivity|]. split; [now apply smin_shape|]. intros x Hx. rewrite xle_smin by exact SS. rewrite (HV x Hx), le_sqrt_div by assumption.
        split.
        -- intros ((B & C) & D). split; [exact B|]. intros j Hj. destruct (Nat.eq_dec j k) as [->|]; [intros _ _; exact D|apply C; lia].
        -- intros (B & C). split; [split; [exact B|]; intros j Hj; apply C; lia|]. apply (C k); auto; lia.
  - exists s'. split; [exact E|]. split; [exact SS|]. intros x Hx. rewrite (HV x Hx). replace (S i + (n - S i))%nat with n by lia. tauto.
Qed.

Lemma feasible x : 0 <= x ->
  ((exists y, within amax (joint_acceleration q' q'' x y)) <->
   forall i, (i < n)%nat -> alone_ok q' q'' amax x i /\ forall j, (i < j < n)%nat -> pair_ok q' q'' amax x i j).
Proof.
  intros Hx.
  assert (LJ : forall y, length (joint_acceleration q' q'' x y) = length amax).
  { intros y. unfold joint_acceleration. rewrite vadd_length; unfold vscale; rewrite ?map_length; congruence. }
  set (lo i := - (nth i amax 0 / Rabs (nth i q' 0)) - nth i q'' 0 * x * x / nth i q' 0).
  set (hi i := nth i amax 0 / Rabs (nth i q' 0) - nth i q'' 0 * x * x / nth i q' 0).
  assert (IV : forall i y, nth i q' 0 <> 0 -> (lo i <= y <= hi i <-> Rabs (y * nth i q' 0 + x * x * nth i q'' 0) <= nth i amax 0)).
  { intros i y NZ. rewrite <- interval_abs by exact NZ. unfold lo, hi.
    replace (1 * nth i q'' 0 * x * x / nth i q' 0) with (nth i q'' 0 * x * x / nth i q' 0) by (field; exact NZ).
    replace (-1 * nth i q'' 0 * x * x / nth i q' 0) with (- (nth i q'' 0 * x * x / nth i q' 0)) by (field; exact NZ). lra. }
  assert (PR : forall i j, nth i q' 0 <> 0 -> nth j q' 0 <> 0 -> (pair_ok q' q'' amax x i j <-> lo i <= hi j /\ lo j <= hi i)).
  { intros i j Ni Nj. unfold pair_ok, lo, hi.
    replace (nth i q'' 0 * x * x / nth i q' 0) with (x * x * (nth i q'' 0 / nth i q' 0)) by (field; exact Ni).
    replace (nth j q'' 0 * x * x / nth j q' 0) with (x * x * (nth j q'' 0 / nth j q' 0)) by (field; exact Nj).
    rewrite <- (Rabs_pos_eq (x * x)) at 1 by (apply Rmult_le_pos; exact Hx). rewrite <- Rabs_mult, Rmult_minus_distr_l.
    split; [intros H; specialize (H Ni Nj); apply Rabs_le_inv in H; lra|]. intros (A1 & A2) _ _. apply Rabs_le. lra. }
  split.
  - intros (y & W). rewrite within_nth in W by apply LJ. rewrite L3 in W.
    assert (W' : forall i, (i < n)%nat -> Rabs (y * nth i q' 0 + x * x * nth i q'' 0) <= nth i amax 0).
    { intros i Hi. specialize (W i Hi). now rewrite nth_joint_acceleration in W by congruence. }
    intros i Hi. split.
    + intros Z. specialize (W' i Hi). rewrite Z, Rmult_0_r, Rplus_0_l, Rabs_mult, (Rabs_pos_eq (x * x)) in W' by (apply Rmult_le_pos; exact Hx). exact W'.
    + intros j Hj Ni Nj. assert (PP : pair_ok q' q'' amax x i j); [|exact (PP Ni Nj)]. apply PR; auto. pose proof (proj2 (IV i y Ni) (W' i Hi)). pose proof (proj2 (IV j y Nj) (W' j ltac:(lia))). lra.
  - intros H.
    destruct (common_point n lo hi (fun i => negb (Req_bool (nth i q' 0) 0))) as (y & Hy).
    { intros i j Hi Hj Pi Pj.
      assert (Ni : nth i q' 0 <> 0) by (intros e; rewrite e, Req_bool_true in Pi by reflexivity; discriminate).
      assert (Nj : nth j q' 0 <> 0) by (intros e; rewrite e, Req_bool_true in Pj by reflexivity; discriminate).
      destruct (Nat.lt_trichotomy i j) as [K|[K|K]].
      - destruct (H i Hi) as (_ & P). specialize (P j ltac:(lia)). apply PR in P; auto. tauto.
      - rewrite K in *. pose proof (share_nn j Hj Nj). unfold lo, hi. lra.
      - destruct (H j Hj) as (_ & P). specialize (P i ltac:(lia)). apply PR in P; auto. tauto. }
    exists y. apply within_nth; [apply LJ|]. rewrite L3. intros i Hi. rewrite nth_joint_acceleration by congruence.
    destruct (Req_dec (nth i q' 0) 0) as [Z|NZ].
    + destruct (H i Hi) as (AO & _). specialize (AO Z). rewrite Z, Rmult_0_r, Rplus_0_l, Rabs_mult, (Rabs_pos_eq (x * x)) by (apply Rmult_le_pos; exact Hx). exact AO.
    + apply IV; [exact NZ|]. apply Hy; [exact Hi|]. now rewrite Req_bool_false.
Qed.
End Curve.

Lemma acceleration_curve p vmax amax dt s q' q'' :
  GetTangent xa xextras p (XFin s) = Ok (fin q') -> GetCurvature xa xextras p (XFin s) = Ok (fin q'') ->
  length q' = length vmax -> length q'' = length vmax -> length amax = length vmax -> Forall (fun v => 0 <= v) amax ->
  exists V, GetAccelerationMaxPathVelocity xa xextras (mkSetup p (fin vmax) (fin amax) dt) (XFin s) = Ok V /\
    (V = XInf false \/ exists r, V = XFin r) /\
    forall x, 0 <= x -> (xle x V <-> exists y, within amax (joint_acceleration q' q'' x y)).
Proof.
  intros T C L1 L2 L3 NA. unfold GetAccelerationMaxPathVelocity. cbn [su_path su_max_velocity su_max_acceleration]. rewrite T, C. cbn [bind].
  rewrite fin_length. set (n := length vmax) in *. change (e_inf xextras) with (XInf false).
  match goal with |- exists V, mfold ?F _ _ = _ /\ _ =>
    destruct (mfold_seq (fun k s => (s = XInf false \/ exists r, s = XFin r) /\ forall x, 0 <= x ->
      (xle x s <-> forall i, (i < k)%nat -> alone_ok q' q'' amax x i /\ forall j, (i < j < n)%nat -> pair_ok q' q'' amax x i j)) F n 0%nat (XInf false)) as (s' & E & SS & HV)
  end.
  - split; [now left|]. intros x Hx. split; [|intros; reflexivity]. intros _ i Hi. lia.
  - intros k s0 Hk (SS & HV). rewrite !fin_get by lia. cbn [bind].
    destruct (aeqb xa (XFin (nth k q' 0)) (a_of xa 0)) eqn:Q; cbn [negb].
    + apply xeqb_0 in Q. change (IZR 0) with 0 in Q.
      assert (VP : forall x j, pair_ok q' q'' amax x k j) by (intros x j H; contradiction).
      destruct (aeqb xa (XFin (nth k q'' 0)) (a_of xa 0)) eqn:Z; cbn [negb].
      * apply xeqb_0 in Z. change (IZR 0) with 0 in Z. exists s0. split; [reflexivity|]. split; [exact SS|]. intros x Hx. rewrite (HV x Hx).
        split; intros H i Hi; [|apply H; lia]. destruct (Nat.eq_dec i k) as [->|]; [|apply H; lia].
        split; [|auto]. intros _. rewrite Z, Rabs_R0, Rmult_0_r. apply (amax_nn amax n L3 NA). lia.
      * assert (NZ : nth k q'' 0 <> 0) by (intros e; apply xeqb_0 in e; cbn in Z; cbn in e; congruence).
        assert (AN : 0 <= nth k amax 0) by (apply (amax_nn amax n L3 NA); lia).
        cbn [aabs xabs adiv xa asqrt]. rewrite xdiv_fin by (apply Rabs_no_R0; exact NZ).
        rewrite xsqrt_fin by (apply Rmult_le_pos; [exact AN|left; apply Rinv_0_lt_compat; now apply Rabs_pos_lt]).
        eexists. split; [reflexivity|]. split; [now apply smin_shape|]. intros x Hx. rewrite xle_smin by exact SS. rewrite (HV x Hx), le_sqrt_div by assumption.
        split.
        -- intros (B & D) i Hi. destruct (Nat.eq_dec i k) as [->|]; [split; [intros _; exact D|auto]|apply B; lia].
        -- intros B. split; [intros i Hi; apply B; lia|]. apply (B k); auto.
    + assert (NZ : nth k q' 0 <> 0) by (intros e; apply xeqb_0 in e; cbn in Q; cbn in e; congruence).
      destruct (inner_fold q' q'' amax n L1 L2 L3 NA k s0 ltac:(lia) NZ SS) as (acc' & EI & SI & HI).
      exists acc'. split; [rewrite !(fin_get _ k) in EI by lia; cbn [bind] in EI; exact EI|]. split; [exact SI|]. intros x Hx. rewrite (HI x Hx), (HV x Hx). split.
      * intros (B & D) i Hi. destruct (Nat.eq_dec i k) as [->|]; [split; [intros e; contradiction|exact D]|apply B; lia].
      * intros B. split; [intros i Hi; apply B; lia|apply B; lia].
  - exists s'. split; [exact E|]. split; [exact SS|]. intros x Hx. rewrite (HV x Hx). cbn [Nat.add].
    rewrite (feasible q' q'' amax n L1 L2 L3 NA x Hx). reflexivity.
Qed.
