(** Properties C146 and C147 (fitting planes, normed dot products), in exact arithmetic.  Model
    in PlaneModel.v, vocabulary in PlaneSpec.v. *)
From Coq Require Import Reals Lra Psatz.
From Flocq Require Import Core.
From Verif Require Import Base MathModel MathReal MathSpec MathVec MathLinModel MathLinSpec MathLinProof MathLinProof6 PlaneModel PlaneSpec PlaneProof Prop_MathLin.
Local Open Scope R_scope.

Lemma ones_sum col : weighted_sum col (weights_or_ones col []) = rsum col /\ total_weight (weights_or_ones col []) = INR (length col).
Proof.
  cbn [weights_or_ones]. induction col as [|x col [IH1 IH2]]; [split; reflexivity|]. cbn [length repeat weighted_sum total_weight]. rewrite IH1, IH2, S_INR.
  split; [|rewrite Rabs_R1; ring]. cbn [rsum fold_right]. unfold rsum. rewrite Rabs_R1. ring.
Qed.
Lemma centroid_zero d points c : points <> [] -> Forall (fun p => length p = d) points -> AverageEigenVector real_arith points [] = Ok c ->
  length c = d /\ forall u, length u = d -> sumn (length points) (fun j => dot (vsub (nth j points []) c) u) = 0.
Proof.
  intros NE F E. destruct (C108_mean points [] d NE F (or_introl eq_refl) ltac:(congruence)) as (r & E' & Lr & M). rewrite E in E'. injection E' as <-. split; [exact Lr|].
  intros u Lu. assert (PL : forall j, (j < length points)%nat -> length (nth j points []) = d) by (intros j Hj; rewrite Forall_forall in F; apply F, nth_In; exact Hj).
  rewrite (sumn_ext _ _ (fun j => sumn d (fun k => nth k (nth j points []) 0 * nth k u 0 + - (nth k c 0 * nth k u 0)))).
  - rewrite sumn_swap. apply sumn_zero. intros k Hk. rewrite sumn_add, sumn_scale_r, sumn_const. specialize (M k Hk). cbv zeta in M.
    destruct (ones_sum (map (fun v => nth k v 0) points)) as [S T]. rewrite S, T, map_length in M.
    assert (RS : rsum (map (fun v => nth k v 0) points) = sumn (length points) (fun j => nth k (nth j points []) 0)).
    { rewrite rsum_sumn, map_length. apply sumn_ext. intros j Hj. rewrite (nth_indep _ 0 ((fun v => nth k v 0) [])) by (rewrite map_length; exact Hj). apply (map_nth (fun v => nth k v 0)). }
    rewrite RS in M. rewrite M. assert (P : INR (length points) <> 0) by (apply not_0_INR; destruct points; [congruence|discriminate]). field. exact P.
  - intros j Hj. rewrite dot_sub by (rewrite PL; auto). rewrite !dot_sumn by (rewrite ?PL; congruence || auto). rewrite PL, Lr by exact Hj.
    rewrite sumn_add. unfold Rminus. f_equal. rewrite <- (Rmult_1_l (sumn d (fun i => nth i c 0 * nth i u 0))), <- Ropp_mult_distr_l_reverse, <- sumn_scale. apply sumn_ext. intros; ring.
Qed.

(** C146: whatever singular value decomposition Eigen computes, the fitted plane goes through
    the mean of the points, has a normal of length one, and no plane has a smaller sum of
    squared distances to the points; that is so also for fewer points than dimensions. *)
Theorem C146_best_fit : forall svd points d, points <> [] -> (0 < d)%nat -> Forall (fun p => length p = d) points ->
  (forall c, AverageEigenVector real_arith points [] = Ok c ->
     let centered := map (fun p => vsub p c) points in is_svd d centered (fst (svd centered)) (snd (svd centered))) ->
  exists p e, FitPlaneToPoints real_arith svd points = Ok p /\ AverageEigenVector real_arith points [] = Ok (plane_origin p) /\
    length (plane_normal p) = d /\ norm (plane_normal p) = 1 /\ squared_error p points e /\
    forall o n q e', length o = d -> length n = d -> (exists x, In x n /\ x <> 0) -> MakeHyperplane o n = Ok q -> squared_error q points e' -> e <= e'.
Proof.
  intros svd points d NE Pd F SVD. destruct (C108_mean points [] d NE F (or_introl eq_refl) ltac:(congruence)) as (c & E & Lc & _).
  specialize (SVD c E). cbv zeta in SVD. destruct (centroid_zero d points c NE F E) as [_ CE].
  unfold FitPlaneToPoints. rewrite E. cbn [bind]. rewrite (center_real d points c F Lc). cbn [bind].
  destruct (svd (map (fun p => vsub p c) points)) as [sv U]. cbn [fst snd] in SVD.
  pose proof SVD as (V & LS & LU & LV & NN & (FU & OU & PU) & _). rewrite map_length in LS, LU.
  assert (Pn : (0 < length points)%nat) by (destruct points; [congruence|cbn; lia]).
  destruct (min_loop_spec sv 0%nat None) as (m & i & -> & W & L & _); [left; intros ->; cbn in LS; lia|].
  destruct W as [W|(k & Hk & -> & ->)]; [discriminate|]. cbn [Nat.add]. rewrite LS in Hk, L.
  assert (RG : raw_get U k = Ok (nth k U [])) by (unfold raw_get; rewrite (nth_error_nth' U []) by lia; reflexivity). rewrite RG. cbn [bind].
  assert (U1 : dot (nth k U []) (nth k U []) = 1) by (rewrite OU by lia; unfold delta; rewrite Nat.eqb_refl; reflexivity).
  assert (LUk : length (nth k U []) = d) by (rewrite Forall_forall in FU; apply FU, nth_In; lia).
  rewrite (stable_unit _ U1). unfold MakeHyperplane. rewrite LUk, Lc, Nat.eqb_refl.
  exists (mkPlane c (nth k U [])), (sumn (length points) (fun j => dot (vsub (nth j points []) c) (nth k U []) ^ 2)). cbn [plane_origin plane_normal].
  split; [reflexivity|]. split; [reflexivity|]. split; [exact LUk|]. split; [unfold norm; rewrite U1; apply sqrt_1|]. split.
  - apply error_real; [congruence|rewrite LUk; exact F|lra|]. rewrite U1. field.
  - intros o n q e' Lo Ln (x & Ix & Nx) MQ SE. unfold MakeHyperplane in MQ. rewrite Lo, Ln, Nat.eqb_refl in MQ. injection MQ as <-.
    assert (P : 0 < dot n n).
    { destruct (dot_pos_or n) as [P|[_ Z]]; [exact P|]. rewrite Forall_forall in Z. exfalso. apply Nx, Z, Ix. }
    apply error_real in SE; [|congruence|rewrite Ln; exact F|exact P]. subst e'.
    apply (fit_best d points c F Lc NE CE sv U o n k SVD Hk L Lo Ln P).
Qed.
Print Assumptions C146_best_fit.

(** Points that lie in some plane all lie in the fitted plane. *)
Theorem C146_coplanar : forall svd points d o n q, points <> [] -> (0 < d)%nat -> Forall (fun p => length p = d) points ->
  (forall c, AverageEigenVector real_arith points [] = Ok c ->
     let centered := map (fun p => vsub p c) points in is_svd d centered (fst (svd centered)) (snd (svd centered))) ->
  length o = d -> length n = d -> (exists x, In x n /\ x <> 0) -> MakeHyperplane o n = Ok q ->
  Forall (fun x => GetSquaredDistanceToPlane real_arith q x = Ok 0) points ->
  exists p, FitPlaneToPoints real_arith svd points = Ok p /\ Forall (fun x => GetSquaredDistanceToPlane real_arith p x = Ok 0) points.
Proof.
  intros svd points d o n q NE Pd F SVD Lo Ln NZ MQ ON. destruct (C146_best_fit svd points d NE Pd F SVD) as (p & e & E & OR & LN & N1 & (ds & D & ->) & B). exists p. split; [exact E|].
  assert (Z : squared_error q points 0).
  { exists (repeat 0 (length points)). split; [clear -ON; induction ON; constructor; auto|]. clear. induction points as [|x l IH]; [reflexivity|]. cbn [length repeat rsum fold_right]. unfold rsum in IH. rewrite <- IH. ring. }
  specialize (B o n q 0 Lo Ln NZ MQ Z). destruct p as [po pn]. cbn [plane_normal plane_origin] in *.
  assert (Lpo : length po = length pn) by (rewrite LN; apply (centroid_zero d points po NE F OR)).
  assert (G : forall l ds, Forall (fun x => length x = d) l -> Forall2 (fun x d => GetSquaredDistanceToPlane real_arith (mkPlane po pn) x = Ok d) l ds -> 0 <= rsum ds /\ (rsum ds <= 0 -> Forall (fun x => GetSquaredDistanceToPlane real_arith (mkPlane po pn) x = Ok 0) l)).
  { clear -Lpo LN. intros l ds FL H. induction H as [|x d0 l ds Hx H IH]; [split; [cbn; lra|constructor]|]. inversion FL as [|? ? Lx FL']; subst. destruct (IH FL') as [P Q]. cbn [rsum fold_right] in *. fold (rsum ds) in *.
    assert (P0 : 0 <= d0). { destruct (plane_dist po pn x Lpo (eq_sym (eq_trans (eq_sym eq_refl) (eq_sym Lx)))) as [_ D2]. rewrite D2 in Hx. injection Hx as <-. apply dot_nonneg. }
    split; [lra|]. intros S. constructor; [rewrite Hx; f_equal; lra|]. apply Q. lra. }
  apply (G points ds F D). exact B.
Qed.
Print Assumptions C146_coplanar.

(** No points, and points without coordinates, are refused. *)
Theorem C146_refusals : forall svd, FitPlaneToPoints real_arith svd [] = Throw InvalidArgument /\
  forall points, points <> [] -> Forall (fun p => length p = 0%nat) points -> fst (svd (map (fun _ => []) points)) = [] -> FitPlaneToPoints real_arith svd points = Throw RuntimeError.
Proof.
  intros svd. split; [reflexivity|]. intros points NE F S. destruct (C108_mean points [] 0%nat NE F (or_introl eq_refl) ltac:(congruence)) as (c & E & Lc & _).
  unfold FitPlaneToPoints. rewrite E. cbn [bind]. rewrite (center_real 0 points c F Lc). cbn [bind].
  assert (X : map (fun p => vsub p c) points = map (fun _ => []) points).
  { apply map_ext_in. intros p Hp. rewrite Forall_forall in F. specialize (F p Hp). destruct p; [reflexivity|discriminate]. }
  rewrite X. destruct (svd (map (fun _ => []) points)) as [sv U]. cbn [fst] in S. subst sv. reflexivity.
Qed.
Print Assumptions C146_refusals.

(** Four points of an ellipse, and their decomposition. *)
Definition ellipse : list (list R) := [[2; 0]; [-2; 0]; [0; 1]; [0; -1]].
Definition ellipse_svd (columns : list (list R)) : list R * list (list R) := ([2 * sqrt 2; sqrt 2], [[1; 0]; [0; 1]]).
Example C146_nonvacuous : ellipse <> [] /\ Forall (fun p => length p = 2%nat) ellipse /\
  forall c, AverageEigenVector real_arith ellipse [] = Ok c ->
     let centered := map (fun p => vsub p c) ellipse in is_svd 2 centered (fst (ellipse_svd centered)) (snd (ellipse_svd centered)).
Proof.
  split; [discriminate|]. split; [repeat constructor|]. intros c E.
  assert (C : c = [0; 0]).
  { destruct (C108_mean ellipse [] 2 ltac:(discriminate) ltac:(repeat constructor) (or_introl eq_refl) ltac:(congruence)) as (r & E' & L & M). rewrite E in E'. injection E' as <-.
    pose proof (M 0%nat ltac:(lia)) as M0. pose proof (M 1%nat ltac:(lia)) as M1. destruct c as [|a [|b [|]]]; try discriminate L. cbn [nth] in *.
    cbn -[Rabs] in M0, M1. rewrite Rabs_R1 in M0, M1. rewrite M0, M1. do 2 f_equal; [|f_equal]; field. }
  subst c. cbv zeta. cbn [ellipse map vsub zip_with ellipse_svd fst snd]. pose proof (sqrt_sqrt 2 ltac:(lra)) as S2. pose proof (sqrt_lt_R0 2 ltac:(lra)) as SP.
  exists [[/ sqrt 2; - / sqrt 2; 0; 0]; [0; 0; / sqrt 2; - / sqrt 2]]. cbn [length Nat.min]. do 3 (split; [reflexivity|]).
  assert (H2 : / sqrt 2 * / sqrt 2 = / 2) by (rewrite <- Rinv_mult, S2; reflexivity).
  split; [repeat (apply Forall_cons; [nra|]); apply Forall_nil|]. split; [|split].
  - split; [repeat constructor|]. split.
    + intros [|[|i]] [|[|j]] Hi Hj; cbn in Hi, Hj; try lia; cbn; unfold delta; cbn; ring.
    + intros _ [|a [|b [|]]] L; try discriminate L. cbn. ring.
  - split; [repeat constructor|]. split.
    + intros [|[|i]] [|[|j]] Hi Hj; cbn in Hi, Hj; try lia; cbn; unfold delta; cbn; try ring; nra.
    + discriminate.
  - assert (I2 : sqrt 2 * / sqrt 2 = 1) by (apply Rinv_r; lra).
    intros [|[|[|[|j]]]] [|[|r]] Hj Hr; try lia; cbn; nra.
Qed.

(** C147: the normed dot product of a point is the inner product of the plane's normal with
    the unit vector from the origin to the point: it is the same for all points of a ray from
    the origin, of absolute value at most the length of the normal, and 0 at the origin.  For
    a normal of length one it is the cosine of the angle. *)
Theorem C147_normed_partial : forall (o n x : list R) p, MakeHyperplane o n = Ok p -> length x = length n ->
  exists r, GetNormedDotProduct real_arith p x = Ok r /\
    r * norm (vsub x o) = dot (vsub x o) n /\ Rabs r <= norm n /\ (norm (vsub x o) = 0 -> r = 0) /\
    forall t y, 0 < t -> length y = length n -> vsub y o = vscale t (vsub x o) -> GetNormedDotProduct real_arith p y = Ok r.
Proof.
  intros o n x p H Lx. unfold MakeHyperplane in H. destruct (Nat.eqb_spec (length o) (length n)) as [Lo|]; [|discriminate]. injection H as <-.
  set (v := vsub x o). assert (Lv : length v = length n) by (unfold v; rewrite vsub_length; congruence).
  assert (VAL : forall y, length y = length n -> GetNormedDotProduct real_arith (mkPlane o n) y = Ok (dot (stableNormalized real_arith (vsub y o)) n)).
  { intros y Ly. unfold GetNormedDotProduct. cbn [plane_origin plane_normal]. rewrite eig_sub_real by congruence. cbn [bind]. rewrite eig_dot_real. reflexivity. }
  exists (dot (stableNormalized real_arith v) n). split; [apply VAL; exact Lx|]. rewrite stable_real.
  assert (NZ : forall w, 0 < dot w w -> 0 < norm w) by (intros w P; apply sqrt_lt_R0; exact P).
  split; [|split; [|split]].
  - destruct (Rlt_dec 0 (dot v v)) as [P|P].
    + rewrite dot_scale. field. specialize (NZ v P). lra.
    + assert (Z : dot v v = 0) by (pose proof (dot_nonneg v); lra). rewrite (dot_zero_l v n) by (apply dot_zero; exact Z). ring.
  - destruct (Rlt_dec 0 (dot v v)) as [P|P].
    + specialize (NZ v P). rewrite dot_scale, Rabs_mult, Rabs_right by (left; apply Rinv_0_lt_compat; exact NZ). pose proof (cauchy_norm v n Lv) as C.
      apply (Rmult_le_reg_l (norm v)); [exact NZ|]. rewrite <- Rmult_assoc, Rinv_r, Rmult_1_l by lra. exact C.
    + assert (Z : dot v v = 0) by (pose proof (dot_nonneg v); lra). rewrite (dot_zero_l v n) by (apply dot_zero; exact Z). rewrite Rabs_R0. apply norm_nonneg.
  - intros N0. destruct (Rlt_dec 0 (dot v v)) as [P|P]; [specialize (NZ v P); lra|]. apply dot_zero_l, dot_zero. pose proof (dot_nonneg v). lra.
  - intros t y Pt Ly Ey. rewrite VAL by exact Ly. f_equal. rewrite Ey, stable_real. fold v.
    assert (D : dot (vscale t v) (vscale t v) = t * t * dot v v) by (rewrite dot_scale, dot_comm, dot_scale; ring).
    destruct (Rlt_dec 0 (dot v v)) as [P|P]; destruct (Rlt_dec 0 (dot (vscale t v) (vscale t v))) as [Q|Q].
    + rewrite !dot_scale, norm_scale, Rabs_right by lra. specialize (NZ v P). field. lra.
    + exfalso. apply Q. rewrite D. apply Rmult_lt_0_compat; [nra|exact P].
    + exfalso. assert (dot v v = 0) by (pose proof (dot_nonneg v); lra). nra.
    + assert (Z : dot v v = 0) by (pose proof (dot_nonneg v); lra). rewrite dot_scale, (dot_zero_l v n) by (apply dot_zero; exact Z). ring.
Qed.
Print Assumptions C147_normed_partial.
(** It is not a cosine for other normals. *)
Theorem C147_cosine_refuted : ~ forall (o n x : list R) p r, MakeHyperplane o n = Ok p -> length x = length n -> GetNormedDotProduct real_arith p x = Ok r -> -1 <= r <= 1.
Proof.
  intros H. destruct (C147_normed_partial [0] [2] [1] (mkPlane [0] [2]) eq_refl eq_refl) as (r & E & V & _). specialize (H [0] [2] [1] _ r eq_refl eq_refl E).
  unfold norm in V. cbn in V. replace ((1 - 0) * (1 - 0) + 0) with 1 in V by ring. rewrite sqrt_1 in V. lra.
Qed.
Print Assumptions C147_cosine_refuted.
Example C147_nonvacuous : exists r, GetNormedDotProduct real_arith (mkPlane [1; 1] [0; 1]) [4; 5] = Ok r /\ r = 4 / 5.
Proof.
  destruct (C147_normed_partial [1; 1] [0; 1] [4; 5] (mkPlane [1; 1] [0; 1]) eq_refl eq_refl) as (r & E & V & _). exists r. split; [exact E|].
  unfold norm in V. cbn in V. replace ((4 - 1) * (4 - 1) + ((5 - 1) * (5 - 1) + 0)) with (5 * 5) in V by ring. rewrite sqrt_square in V by lra. lra.
Qed.
