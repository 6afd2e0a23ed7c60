(** Proofs about PlaneModel.v. *)
From Coq Require Import Reals Lra Psatz.
From Flocq Require Import Core.
From Verif Require Import Base MathModel MathReal MathVec MathLinModel MathLinSpec MathLinProof MathLinProof6 PlaneModel PlaneSpec.
Local Open Scope R_scope.

(** ** Sums *)
Lemma sumn_ext n f g : (forall i, (i < n)%nat -> f i = g i) -> sumn n f = sumn n g.
Proof. induction n as [|n IH]; intros H; cbn [sumn]; [reflexivity|]. rewrite IH by auto. rewrite H by lia. reflexivity. Qed.
Lemma sumn_zero n f : (forall i, (i < n)%nat -> f i = 0) -> sumn n f = 0.
Proof. induction n as [|n IH]; intros H; cbn [sumn]; [reflexivity|]. rewrite IH by auto. rewrite H by lia. ring. Qed.
Lemma sumn_add n f g : sumn n (fun i => f i + g i) = sumn n f + sumn n g.
Proof. induction n as [|n IH]; cbn [sumn]; [ring|]. rewrite IH. ring. Qed.
Lemma sumn_scale n c f : sumn n (fun i => c * f i) = c * sumn n f.
Proof. induction n as [|n IH]; cbn [sumn]; [ring|]. rewrite IH. ring. Qed.
Lemma sumn_scale_r n c f : sumn n (fun i => f i * c) = sumn n f * c.
Proof. induction n as [|n IH]; cbn [sumn]; [ring|]. rewrite IH. ring. Qed.
Lemma sumn_swap n m (f : nat -> nat -> R) : sumn n (fun i => sumn m (fun j => f i j)) = sumn m (fun j => sumn n (fun i => f i j)).
Proof. induction n as [|n IH]; cbn [sumn]; [symmetry; apply sumn_zero; reflexivity|]. rewrite IH, <- sumn_add. reflexivity. Qed.
Lemma sumn_le n f g : (forall i, (i < n)%nat -> f i <= g i) -> sumn n f <= sumn n g.
Proof. induction n as [|n IH]; intros H; cbn [sumn]; [lra|]. apply Rplus_le_compat; auto. Qed.
Lemma sumn_nonneg n f : (forall i, (i < n)%nat -> 0 <= f i) -> 0 <= sumn n f.
Proof. intros H. rewrite <- (sumn_zero n (fun _ => 0)) by reflexivity. apply sumn_le. exact H. Qed.
Lemma sumn_delta n m f : (m < n)%nat -> sumn n (fun i => delta i m * f i) = f m.
Proof.
  induction n as [|n IH]; intros H; [lia|]. cbn [sumn]. unfold delta at 2. destruct (Nat.eqb_spec n m) as [->|N].
  - rewrite sumn_zero; [ring|]. intros i Hi. unfold delta. destruct (Nat.eqb_spec i m); [lia|ring].
  - rewrite IH by lia. ring.
Qed.
Lemma sumn_const n c : sumn n (fun _ => c) = INR n * c.
Proof. induction n as [|n IH]; [cbn; ring|]. rewrite S_INR. cbn [sumn]. rewrite IH. ring. Qed.
Lemma sumn_succ n f : sumn (S n) f = f 0%nat + sumn n (fun i => f (S i)).
Proof. induction n as [|n IH]; cbn [sumn] in *; [ring|]. rewrite IH. ring. Qed.
Lemma dot_sumn u : forall v, length u = length v -> dot u v = sumn (length u) (fun i => nth i u 0 * nth i v 0).
Proof. induction u as [|x u IH]; intros [|y v] H; try discriminate; [reflexivity|]. cbn [length]. rewrite sumn_succ. cbn [dot nth]. rewrite IH by (cbn in H; lia). reflexivity. Qed.
Lemma rsum_sumn l : rsum l = sumn (length l) (fun i => nth i l 0).
Proof. induction l as [|x l IH]; [reflexivity|]. cbn [length]. rewrite sumn_succ. cbn [nth rsum fold_right]. unfold rsum in IH. rewrite IH. reflexivity. Qed.

Lemma nth_repeat_lt i n : (i < n)%nat -> nth i (repeat 1 n) 0 = 1.
Proof. revert i. induction n as [|n IH]; intros [|i] H; cbn; try lia; [reflexivity|]. apply IH. lia. Qed.

(** ** The decomposition *)
Section S.
Variables (d : nat) (a : list (list R)) (sv : list R) (U : list (list R)).
Hypothesis LA : Forall (fun c => length c = d) a.
Hypothesis SVD : is_svd d a sv U.
Let n := length a.
Let k := Nat.min d n.
Lemma col_length j : (j < n)%nat -> length (nth j a []) = d.
Proof. intros H. rewrite Forall_forall in LA. apply LA. apply nth_In. exact H. Qed.
(** S w: the sum of the squares of the inner products with w. *)
Definition energy (w : list R) : R := sumn n (fun j => dot (nth j a []) w ^ 2).
Lemma u_length i : (i < k)%nat -> length (nth i U []) = d.
Proof. destruct SVD as (V & _ & LU & _ & _ & (FU & _) & _). intros H. rewrite Forall_forall in FU. apply FU, nth_In. fold n k in LU. lia. Qed.
Lemma svd_dot V : (forall j r, (j < n)%nat -> (r < d)%nat -> nth r (nth j a []) 0 = sumn k (fun i => nth i sv 0 * nth j (nth i V []) 0 * nth r (nth i U []) 0)) ->
  forall j w, (j < n)%nat -> length w = d -> dot (nth j a []) w = sumn k (fun i => nth i sv 0 * nth j (nth i V []) 0 * dot (nth i U []) w).
Proof.
  intros E j w Hj Lw. rewrite dot_sumn by (rewrite col_length; auto). rewrite col_length by exact Hj.
  rewrite (sumn_ext d _ (fun r => sumn k (fun i => nth i sv 0 * nth j (nth i V []) 0 * (nth r (nth i U []) 0 * nth r w 0)))).
  - rewrite sumn_swap. apply sumn_ext. intros i Hi. rewrite sumn_scale. f_equal. rewrite dot_sumn by (rewrite u_length; auto). rewrite u_length by exact Hi. reflexivity.
  - intros r Hr. rewrite E by assumption. rewrite <- sumn_scale_r. apply sumn_ext. intros i Hi. ring.
Qed.
Lemma energy_svd : forall w, length w = d -> energy w = sumn k (fun i => nth i sv 0 ^ 2 * dot (nth i U []) w ^ 2).
Proof.
  destruct SVD as (V & LS & LU & LV & NN & OU & (FV & OV & _) & E). fold n k in LS, LU, LV, E. intros w Lw. unfold energy.
  rewrite (sumn_ext n _ (fun j => sumn k (fun i => sumn k (fun l => nth i sv 0 * nth l sv 0 * dot (nth i U []) w * dot (nth l U []) w * (nth j (nth i V []) 0 * nth j (nth l V []) 0))))).
  - rewrite sumn_swap. apply sumn_ext. intros i Hi. rewrite sumn_swap.
    rewrite (sumn_ext k _ (fun l => delta l i * (nth i sv 0 * nth l sv 0 * dot (nth i U []) w * dot (nth l U []) w))).
    + rewrite sumn_delta by exact Hi. ring.
    + intros l Hl. rewrite sumn_scale. rewrite Rmult_comm. f_equal.
      assert (LVi : forall i, (i < k)%nat -> length (nth i V []) = n) by (intros i' Hi'; rewrite Forall_forall in FV; apply FV, nth_In; lia).
      pose proof (OV i l ltac:(lia) ltac:(lia)) as O. rewrite dot_sumn in O by (rewrite !LVi; auto). rewrite LVi in O by exact Hi. rewrite O. unfold delta. rewrite Nat.eqb_sym. reflexivity.
  - intros j Hj. rewrite (svd_dot V E j w Hj Lw). replace (sumn k _ ^ 2) with (sumn k (fun i => nth i sv 0 * nth j (nth i V []) 0 * dot (nth i U []) w) * sumn k (fun i => nth i sv 0 * nth j (nth i V []) 0 * dot (nth i U []) w)) by ring.
    rewrite <- sumn_scale_r. apply sumn_ext. intros i Hi. rewrite <- sumn_scale. apply sumn_ext. intros l Hl. ring.
Qed.
Lemma energy_u m : (m < k)%nat -> energy (nth m U []) = nth m sv 0 ^ 2.
Proof.
  intros Hm. rewrite energy_svd by (apply u_length; exact Hm). destruct SVD as (V & LS & LU & LV & NN & (FU & OU & _) & OV & E). fold n k in LS, LU, LV, E.
  rewrite (sumn_ext k _ (fun i => delta i m * nth i sv 0 ^ 2)).
  - rewrite (sumn_delta k m (fun i => nth i sv 0 ^ 2)) by exact Hm. reflexivity.
  - intros i Hi. rewrite OU by lia. unfold delta. destruct (i =? m)%nat; ring.
Qed.
Lemma sv_nonneg i : 0 <= nth i sv 0.
Proof.
  destruct SVD as (V & LS & LU & LV & NN & _). destruct (Nat.lt_ge_cases i (length sv)) as [H|H]; [|rewrite nth_overflow by exact H; lra].
  rewrite Forall_forall in NN. apply NN, nth_In. exact H.
Qed.
(** The left singular vector of a least singular value minimises the energy among the unit
    vectors, if the columns sum to zero. *)
Lemma energy_min m w : (0 < n)%nat -> (forall u, length u = d -> sumn n (fun j => dot (nth j a []) u) = 0) -> (m < k)%nat -> (forall i, (i < k)%nat -> nth m sv 0 <= nth i sv 0) ->
  length w = d -> energy (nth m U []) * dot w w <= energy w.
Proof.
  intros Pn CE Hm MIN Lw. rewrite (energy_u m Hm). pose proof SVD as SV. destruct SV as (V & LS & LU & LV & NN & (FU & OU & PU) & (FV & OV & PV) & E). fold n k in LS, LU, LV, E, PV.
  destruct (Nat.le_gt_cases d n) as [C|C].
  - assert (KD : k = d) by (unfold k; lia). rewrite (PU ltac:(lia) w Lw), <- KD, <- sumn_scale, energy_svd by exact Lw.
    apply sumn_le. intros i Hi. apply Rmult_le_compat_r; [apply pow2_ge_0|]. apply pow_incr. split; [apply sv_nonneg|apply MIN; exact Hi].
  - assert (KN : k = n) by (unfold k; lia). assert (Z : nth m sv 0 = 0).
    { pose proof (sv_nonneg m) as P0. destruct (Rle_lt_or_eq_dec 0 (nth m sv 0) P0) as [P|P]; [exfalso|auto].
      assert (LVi : forall i, (i < k)%nat -> length (nth i V []) = n) by (intros i' Hi'; rewrite Forall_forall in FV; apply FV, nth_In; lia).
      assert (ONE : dot (repeat 1 n) (repeat 1 n) = INR n).
      { rewrite dot_sumn by reflexivity. rewrite repeat_length, (sumn_ext n _ (fun _ => 1)), sumn_const; [ring|]. intros i Hi. rewrite nth_repeat_lt by exact Hi. ring. }
      rewrite (PV ltac:(lia) (repeat 1 n) (repeat_length 1 n)) in ONE. apply lt_INR in Pn. cbn in Pn. rewrite sumn_zero in ONE; [lra|].
      intros i Hi. assert (SI : 0 < nth i sv 0) by (specialize (MIN i ltac:(lia)); lra).
      assert (X : nth i sv 0 * dot (nth i V []) (repeat 1 n) = 0).
      { transitivity (sumn n (fun j => dot (nth j a []) (nth i U []))); [|apply CE, u_length; lia].
        rewrite (sumn_ext n (fun j => dot (nth j a []) (nth i U [])) (fun j => nth i sv 0 * nth j (nth i V []) 0)).
        - rewrite sumn_scale. f_equal. rewrite dot_sumn by (rewrite LVi, repeat_length; lia). rewrite LVi by lia. apply sumn_ext. intros j Hj. rewrite nth_repeat_lt by exact Hj. ring.
        - intros j Hj. rewrite (svd_dot V E j _ Hj) by (apply u_length; lia). rewrite (sumn_ext k _ (fun l => delta l i * (nth l sv 0 * nth j (nth l V []) 0))).
          + apply (sumn_delta k i (fun l => nth l sv 0 * nth j (nth l V []) 0)). lia.
          + intros l Hl. rewrite OU by lia. ring. }
      apply Rmult_integral in X as [X|X]; [lra|]. rewrite X. ring. }
    rewrite Z. replace (0 ^ 2 * dot w w) with 0 by ring. apply sumn_nonneg. intros i Hi. apply pow2_ge_0.
Qed.
End S.

(** ** The loop for the least value *)
Lemma min_loop_spec values : forall idx best, let r := min_loop real_arith values idx best in
  (values <> [] \/ best <> None) -> exists m i, r = Some (m, i) /\
  ((best = Some (m, i)) \/ (exists k, (k < length values)%nat /\ i = (idx + k)%nat /\ m = nth k values 0)) /\
  (forall k, (k < length values)%nat -> m <= nth k values 0) /\ (forall m0 i0, best = Some (m0, i0) -> m <= m0).
Proof.
  induction values as [|v values IH]; intros idx best; cbn zeta; intros NE; cbn [min_loop].
  - destruct best as [[m i]|]; [|destruct NE; congruence]. exists m, i. split; [reflexivity|]. split; [auto|]. split; [cbn; intros; lia|]. intros m0 i0 H. injection H as -> ->. lra.
  - set (b := if match best with None => true | Some (m, _) => altb real_arith v m end then Some (v, idx) else best).
    destruct (IH (S idx) b) as (m & i & E & W & L & B).
    { right. unfold b. destruct best as [[m0 i0]|]; [|discriminate]. destruct (altb real_arith v m0); discriminate. }
    exists m, i. split; [exact E|]. unfold b in W, B. clear IH E NE.
    assert (LV : m <= v /\ forall m0 i0, best = Some (m0, i0) -> m <= m0).
    { destruct best as [[m0 i0]|]; [|split; [apply (B v idx); reflexivity|discriminate]]. change (altb real_arith v m0) with (Rlt_bool v m0) in B. revert B. case Rlt_bool_spec; intros C B.
      - specialize (B v idx eq_refl). split; [exact B|]. intros ? ? H. injection H as <- <-. lra.
      - specialize (B m0 i0 eq_refl). split; [lra|]. intros ? ? H. injection H as <- <-. exact B. }
    split; [|split].
    + destruct W as [W|(k & Hk & -> & ->)]; [|right; exists (S k); cbn [length nth]; repeat split; lia].
      destruct best as [[m0 i0]|]; [destruct (altb real_arith v m0)|]; try (injection W as <- <-; right; exists 0%nat; cbn [length nth]; repeat split; lia). left. exact W.
    + intros [|k] Hk; cbn [nth length] in *; [apply LV|apply L; lia].
    + apply LV.
Qed.

(** ** stableNormalized *)
Lemma max_abs_spec v : forall m, 0 <= m -> let r := fold_left (fun m x => if altb real_arith m (aabs real_arith x) then aabs real_arith x else m) v m in m <= r /\ forall x, In x v -> Rabs x <= r.
Proof.
  induction v as [|x v IH]; intros m Hm; cbn zeta; cbn [fold_left]; [split; [lra|intros ? []]|]. change (altb real_arith m (aabs real_arith x)) with (Rlt_bool m (Rabs x)). change (aabs real_arith x) with (Rabs x).
  case Rlt_bool_spec; intros C.
  - destruct (IH (Rabs x) (Rabs_pos x)) as [A B]. split; [lra|]. intros y [<-|H]; [exact A|apply B; exact H].
  - destruct (IH m Hm) as [A B]. split; [exact A|]. intros y [<-|H]; [lra|apply B; exact H].
Qed.
Lemma map_div (c : R) v : map (fun x => adiv real_arith x c) v = vscale (/ c) v.
Proof. unfold vscale. apply map_ext. intros x. change (adiv real_arith x c) with (x / c). unfold Rdiv. ring. Qed.
Lemma stable_real v : stableNormalized real_arith v = if Rlt_dec 0 (dot v v) then vscale (/ norm v) v else v.
Proof.
  unfold stableNormalized. rewrite eig_dot_real, map_div, dot_scale, dot_comm, dot_scale. set (w := max_abs real_arith v). change (altb real_arith (a_of real_arith 0)) with (Rlt_bool 0).
  pose proof (max_abs_spec v 0 (Rle_refl 0)) as X. cbv zeta in X. change (0 <= w /\ forall x, In x v -> Rabs x <= w) in X. destruct X as [W0 WM].
  destruct (Rlt_dec 0 (dot v v)) as [P|P].
  - assert (PW : 0 < w).
    { destruct (Rle_lt_or_eq_dec 0 w W0) as [H|H]; [exact H|exfalso]. assert (Z : dot v v = 0); [|lra]. apply dot_zero, Forall_forall. intros x Hx. specialize (WM x Hx). rewrite <- H in WM. pose proof (Rabs_pos x).
      destruct (Req_dec x 0) as [|N]; [assumption|]. apply Rabs_pos_lt in N. lra. }
    assert (IW : 0 < / w) by (apply Rinv_0_lt_compat; exact PW). rewrite Rlt_bool_true by (apply Rmult_lt_0_compat; [exact IW|apply Rmult_lt_0_compat; assumption]).
    rewrite map_div. f_equal. change (amul real_arith) with Rmult. change (asqrt real_arith) with sqrt. unfold norm. rewrite <- Rmult_assoc, sqrt_mult, sqrt_square by nra.
    field. split; [|lra]. apply Rgt_not_eq. apply sqrt_lt_R0. exact P.
  - assert (Z : dot v v = 0) by (pose proof (dot_nonneg v); lra). rewrite Z. rewrite Rlt_bool_false by lra. reflexivity.
Qed.
Lemma stable_unit v : dot v v = 1 -> stableNormalized real_arith v = v.
Proof. intros H. rewrite stable_real, H. destruct (Rlt_dec 0 1); [|lra]. unfold norm. rewrite H, sqrt_1, Rinv_1. apply vscale_1. Qed.

(** ** Fitting *)
Lemma center_real d points c : Forall (fun p => length p = d) points -> length c = d -> center real_arith points c = Ok (map (fun p => vsub p c) points).
Proof.
  intros F Lc. induction F as [|p points Lp F IH]; [reflexivity|]. cbn [center map]. rewrite eig_sub_real by congruence. cbn [bind]. rewrite IH. reflexivity.
Qed.
Lemma dist_real o nn x : length o = length nn -> length x = length nn -> 0 < dot nn nn ->
  GetSquaredDistanceToPlane real_arith (mkPlane o nn) x = Ok (dot (vsub x o) nn ^ 2 / dot nn nn).
Proof.
  intros Lo Lx P. destruct (plane_dist o nn x Lo Lx) as [_ E]. rewrite E. f_equal. rewrite coef_norm. rewrite dot_comm with (u := vsub x o). unfold coef. destruct (Rlt_dec 0 (dot nn nn)); [|lra]. field. lra.
Qed.
Lemma error_real o nn points e : length o = length nn -> Forall (fun x => length x = length nn) points -> 0 < dot nn nn ->
  squared_error (mkPlane o nn) points e <-> e = sumn (length points) (fun j => dot (vsub (nth j points []) o) nn ^ 2) / dot nn nn.
Proof.
  intros Lo F P. unfold squared_error.
  assert (G : forall ds, Forall2 (fun x d => GetSquaredDistanceToPlane real_arith (mkPlane o nn) x = Ok d) points ds <-> ds = map (fun x => dot (vsub x o) nn ^ 2 / dot nn nn) points).
  { induction F as [|x points Lx F IH]; intros ds.
    - split; [intros H; inversion H; reflexivity|intros ->; constructor].
    - split.
      + intros H. inversion H as [|? d0 ? ds0 E R]; subst. cbn [map]. rewrite dist_real in E by auto. injection E as <-. f_equal. apply IH. exact R.
      + intros ->. cbn [map]. constructor; [apply dist_real; auto|apply IH; reflexivity]. }
  assert (S : rsum (map (fun x => dot (vsub x o) nn ^ 2 / dot nn nn) points) = sumn (length points) (fun j => dot (vsub (nth j points []) o) nn ^ 2) / dot nn nn).
  { rewrite rsum_sumn, map_length. unfold Rdiv at 2. rewrite <- sumn_scale_r. apply sumn_ext. intros i Hi.
    rewrite (nth_indep _ 0 ((fun x => dot (vsub x o) nn ^ 2 / dot nn nn) [])) by (rewrite map_length; exact Hi). rewrite (map_nth (fun x => dot (vsub x o) nn ^ 2 / dot nn nn)). reflexivity. }
  split.
  - intros (ds & H & ->). apply G in H as ->. exact S.
  - intros ->. eexists. split; [apply G; reflexivity|]. symmetry. exact S.
Qed.
Lemma nth_map_sub c j points : (j < length points)%nat -> nth j (map (fun p => vsub p c) points) [] = vsub (nth j points []) c.
Proof. intros H. rewrite (nth_indep _ [] ((fun p => vsub p c) [])) by (rewrite map_length; exact H). apply (map_nth (fun p => vsub p c)). Qed.
Lemma vsub_dot a b w : length a = length b -> dot (vsub a b) w = dot a w - dot b w. Proof. apply dot_sub. Qed.

Section Fit.
Variables (d : nat) (points : list (list R)) (c : list R).
Hypothesis F : Forall (fun p => length p = d) points.
Hypothesis Lc : length c = d.
Hypothesis NE : points <> [].
Hypothesis CENTER : forall u, length u = d -> sumn (length points) (fun j => dot (vsub (nth j points []) c) u) = 0.
Let n := length points.
Lemma pt_length j : (j < n)%nat -> length (nth j points []) = d.
Proof. intros H. rewrite Forall_forall in F. apply F, nth_In. exact H. Qed.
(** The plane through the centroid is the best of those with its normal. *)
Lemma shift_le o nn : length o = d -> length nn = d ->
  sumn n (fun j => dot (vsub (nth j points []) c) nn ^ 2) <= sumn n (fun j => dot (vsub (nth j points []) o) nn ^ 2).
Proof.
  intros Lo Ln. set (t := dot c nn - dot o nn).
  rewrite (sumn_ext n (fun j => dot (vsub (nth j points []) o) nn ^ 2) (fun j => dot (vsub (nth j points []) c) nn ^ 2 + (2 * t * dot (vsub (nth j points []) c) nn + t ^ 2))).
  - rewrite sumn_add, sumn_add, sumn_scale, CENTER, sumn_const by exact Ln. pose proof (pow2_ge_0 t). pose proof (pos_INR n). nra.
  - intros j Hj. rewrite !dot_sub by (rewrite pt_length; auto). unfold t. ring.
Qed.
Lemma fit_best sv U o nn m : is_svd d (map (fun p => vsub p c) points) sv U -> (m < Nat.min d n)%nat -> (forall i, (i < Nat.min d n)%nat -> nth m sv 0 <= nth i sv 0) ->
  length o = d -> length nn = d -> 0 < dot nn nn ->
  sumn n (fun j => dot (vsub (nth j points []) c) (nth m U []) ^ 2) <= sumn n (fun j => dot (vsub (nth j points []) o) nn ^ 2) / dot nn nn.
Proof.
  intros SVD Hm MIN Lo Ln P.
  assert (LA : Forall (fun x => length x = d) (map (fun p => vsub p c) points)).
  { apply Forall_map. eapply Forall_impl; [|exact F]. cbn. intros p Lp. rewrite vsub_length; congruence. }
  assert (EN : forall w, energy (map (fun p => vsub p c) points) w = sumn n (fun j => dot (vsub (nth j points []) c) w ^ 2)).
  { intros w. unfold energy. rewrite map_length. apply sumn_ext. intros j Hj. rewrite nth_map_sub by exact Hj. reflexivity. }
  pose proof (energy_min d _ sv U LA SVD m nn) as E. rewrite !EN, map_length in E. fold n in E.
  apply Rle_trans with (sumn n (fun j => dot (vsub (nth j points []) c) nn ^ 2) / dot nn nn).
  - apply (Rmult_le_reg_r (dot nn nn)); [exact P|]. unfold Rdiv. rewrite Rmult_assoc, Rinv_l, Rmult_1_r by lra. apply E; auto.
    + unfold n. destruct points; [congruence|cbn; lia].
    + intros u Lu. rewrite <- (CENTER u Lu). apply sumn_ext. intros j Hj. rewrite nth_map_sub by exact Hj. reflexivity.
  - apply Rmult_le_compat_r; [left; apply Rinv_0_lt_compat; exact P|]. apply shift_le; assumption.
Qed.
End Fit.
