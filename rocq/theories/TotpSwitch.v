(** The switching points of a path. *)
From Coq Require Import Reals Lra Psatz List Bool Lia Sorted.
From Coquelicot Require Import Coquelicot.
From Flocq Require Import Core.
From Verif Require Import Base MathModel MathReal MathLinModel MathVec MathLinProof TotpModel TotpProof TotpScalar TotpRealSpec TotpReal TotpLimits TotpArc TotpPathSpec TotpPath TotpBlend TotpChain TotpPoly TotpGeometry TotpSwitchSpec.
From Verif Require RotationSpec RotationEuler TotpSample.
Local Open Scope R_scope.

(** ** The angle at which a joint turns *)
Lemma ratan2_eq y x : Ratan2 y x = RotationSpec.Ratan2 y x.
Proof.
  unfold Ratan2, RotationSpec.Ratan2.
  destruct (Rlt_bool_spec 0 x), (Rlt_dec 0 x); try lra. destruct (Rlt_bool_spec x 0), (Rlt_dec x 0); try lra.
  - destruct (Rle_bool_spec 0 y), (Rle_dec 0 y); lra.
  - destruct (Rlt_bool_spec 0 y), (Rlt_dec 0 y); try lra. destruct (Rlt_bool_spec y 0), (Rlt_dec y 0); lra.
Qed.
Definition turn_angle (y x : R) : R := if Rlt_bool (Ratan2 y x) 0 then Ratan2 y x + PI else Ratan2 y x.
Lemma turn_range y x : 0 <= turn_angle y x <= PI.
Proof.
  unfold turn_angle. pose proof (RotationEuler.atan2_range y x) as R0. rewrite <- ratan2_eq in R0. destruct (Rlt_bool_spec (Ratan2 y x) 0); lra.
Qed.
Lemma turn_polar y x : exists rho, rho * rho = x * x + y * y /\ x = rho * cos (turn_angle y x) /\ y = rho * sin (turn_angle y x).
Proof.
  destruct (RotationEuler.atan2_spec y x) as (C & S). rewrite <- ratan2_eq in C, S. unfold turn_angle.
  assert (Q : sqrt (x * x + y * y) * sqrt (x * x + y * y) = x * x + y * y) by (apply sqrt_sqrt; nra).
  destruct (Rlt_bool_spec (Ratan2 y x) 0) as [N|N].
  - exists (- sqrt (x * x + y * y)). rewrite neg_cos, neg_sin. repeat split; lra.
  - exists (sqrt (x * x + y * y)). repeat split; lra.
Qed.
Lemma turn_zero y x : - sin (turn_angle y x) * x + cos (turn_angle y x) * y = 0.
Proof. destruct (turn_polar y x) as (rho & _ & E1 & E2). set (b := turn_angle y x) in *. rewrite E1, E2. ring. Qed.
Lemma turn_unique y x t : 0 < t < PI -> - sin t * x + cos t * y = 0 -> x = 0 /\ y = 0 \/ turn_angle y x = t.
Proof.
  intros T E. destruct (turn_polar y x) as (rho & Q & E1 & E2). pose proof (turn_range y x) as TR. set (b := turn_angle y x) in *.
  assert (Z : rho * sin (b - t) = 0) by (rewrite sin_minus; rewrite E1, E2 in E; lra).
  apply Rmult_integral in Z as [->|Z]; [left; split; lra|right].
  destruct (Rtotal_order b t) as [L|[L|L]]; [|exact L|].
  - pose proof (sin_gt_0 (t - b) ltac:(lra) ltac:(lra)) as G. replace (t - b) with (- (b - t)) in G by ring. rewrite sin_neg in G. lra.
  - pose proof (sin_gt_0 (b - t) ltac:(lra) ltac:(lra)) as G. lra.
Qed.

(** ** The points of one segment *)
Definition rising (l : list R) : Prop := StronglySorted Rle l.
Lemma insert_fin x l : rising l -> exists l', sort_insert xa (XFin x) (map XFin l) = map XFin l' /\ rising l' /\ forall y, In y l' <-> y = x \/ In y l.
Proof.
  induction l as [|z l IH]; intros S; cbn [map sort_insert].
  - exists [x]. split; [reflexivity|]. split; [repeat constructor|]. cbn. intuition congruence.
  - inversion_clear S as [|? ? S' F]. change (altb xa) with xltb. destruct (xltb (XFin x) (XFin z)) eqn:E.
    + apply xltb_lt in E. exists (x :: z :: l). split; [reflexivity|]. split; [|cbn; intuition congruence].
      constructor; [now constructor|]. constructor; [lra|]. eapply Forall_impl; [|exact F]. cbn. intros; lra.
    + apply xltb_ge in E. destruct (IH S') as (l' & E' & S2 & I2). exists (z :: l'). rewrite E'. split; [reflexivity|]. split.
      * constructor; [exact S2|]. apply Forall_forall. intros y Hy. apply I2 in Hy as [->|Hy]; [exact E|]. rewrite Forall_forall in F. now apply F.
      * intros y. cbn [In]. rewrite I2. intuition congruence.
Qed.
Lemma sort_fin l : exists l', list_sort xa (map XFin l) = map XFin l' /\ rising l' /\ forall y, In y l' <-> In y l.
Proof.
  unfold list_sort. assert (H : forall a, rising a -> exists l', fold_left (fun s x => sort_insert xa x s) (map XFin l) (map XFin a) = map XFin l' /\ rising l' /\ forall y, In y l' <-> In y l \/ In y a).
  { induction l as [|x l IH]; intros a S; cbn [map fold_left].
    - exists a. cbn. intuition.
    - destruct (insert_fin x a S) as (a' & E & S' & I'). rewrite E. destruct (IH a' S') as (l' & E' & S2 & I2). exists l'. split; [exact E'|]. split; [exact S2|].
      intros y. rewrite I2, I'. cbn. intuition congruence. }
  destruct (H [] (SSorted_nil _)) as (l' & E & S & I'). exists l'. split; [exact E|]. split; [exact S|]. intros y. rewrite I'. cbn. tauto.
Qed.

Definition points_of (n : nat) (rd L : R) (fx fy : list R) (k : nat) (l : list R) : Prop :=
  forall z, In z l <-> exists i, (i < k)%nat /\ z = turn_angle (nth i fy 0) (nth i fx 0) * rd /\ z < L.
Lemma local_points n g rd fx fy ce L : seg_shape g = CircularShape (XFin rd) ce (fin fx) (fin fy) -> seg_length g = XFin L ->
  length fx = n -> length fy = n -> 0 < rd ->
  exists l, seg_switching_points xa xextras g = Ok (map XFin l) /\ rising l /\
    forall z, In z l <-> exists i, (i < n)%nat /\ z = turn_angle (nth i fy 0) (nth i fx 0) * rd /\ z < L.
Proof.
  intros SH SL Lx Ly RP. unfold seg_switching_points. rewrite SH, SL, fin_length, Lx.
  match goal with |- context [mfold ?F _ _] =>
    destruct (mfold_seq (fun k acc => exists l, acc = map XFin l /\ forall z, In z l <-> exists i, (i < k)%nat /\ z = turn_angle (nth i fy 0) (nth i fx 0) * rd /\ z < L) F n 0%nat []) as (s' & E & (l & -> & I')) end.
  - exists []. split; [reflexivity|]. intros z. cbn. split; [tauto|]. intros (i & Hi & _). lia.
  - intros k s Hk (l & -> & I'). rewrite !fin_get by lia. cbn [bind e_atan2 xextras].
    change (altb xa) with xltb. change (a_of xa 0) with (XFin 0). change (a_pi xa) with (XFin PI). cbn [xltb aadd amul xa xadd xmul].
    replace (if Rlt_bool (Ratan2 (nth k fy 0) (nth k fx 0)) 0 then XFin (Ratan2 (nth k fy 0) (nth k fx 0) + PI) else XFin (Ratan2 (nth k fy 0) (nth k fx 0)))
      with (XFin (turn_angle (nth k fy 0) (nth k fx 0))) by (unfold turn_angle; now destruct (Rlt_bool _ _)).
    cbn [xmul xltb]. eexists. split; [reflexivity|].
    destruct (Rlt_bool_spec (turn_angle (nth k fy 0) (nth k fx 0) * rd) L) as [C|C].
    + exists (l ++ [turn_angle (nth k fy 0) (nth k fx 0) * rd]). split; [now rewrite map_app|]. intros z. rewrite in_app_iff, I'. cbn [In]. split.
      * intros [(i & Hi & R1 & R2)|[<-|[]]]; [exists i; split; [lia|auto]|exists k; split; [lia|auto]].
      * intros (i & Hi & R1 & R2). destruct (Nat.eq_dec i k) as [->|N]; [right; left; now symmetry|left; exists i; split; [lia|auto]].
    + exists l. split; [reflexivity|]. intros z. rewrite I'. split.
      * intros (i & Hi & R1 & R2). exists i. split; [lia|auto].
      * intros (i & Hi & R1 & R2). destruct (Nat.eq_dec i k) as [->|N]; [lra|exists i; split; [lia|auto]].
  - rewrite E. cbn [bind]. destruct (sort_fin l) as (l' & E' & S & I2). exists l'. rewrite E'. split; [reflexivity|]. split; [exact S|].
    intros z. rewrite I2. apply I'.
Qed.

(** What is known of a segment that follows a curve, and its points. *)
Definition piece_ok (n : nat) (p : curve * list R) : Prop :=
  let '(c, l) := p in
  rising l /\ (forall x, In x l -> 0 <= x < cu_len c) /\
  (forall x, In x l -> exists i, (i < n)%nat /\ nth i (cu_t c x) 0 = 0) /\
  (forall i s, 0 < s < cu_len c -> nth i (cu_t c s) 0 = 0 -> In s l \/ forall s', 0 <= s' <= cu_len c -> nth i (cu_t c s') 0 = 0) /\
  (forall i s, 0 < s < cu_len c -> continuity_pt (fun s => nth i (cu_k c s) 0) s).

Lemma cont_local f g (a b s : R) : a < s < b -> (forall u, a < u < b -> f u = g u) -> continuity_pt g s -> continuity_pt f s.
Proof.
  intros S E C. intros e He. destruct (C e He) as (d & Hd & H). exists (Rmin d (Rmin (s - a) (b - s))). split; [repeat apply Rmin_glb_lt; lra|].
  intros x (Hx & HD). cbn in *. unfold R_dist in *. pose proof (Rmin_l d (Rmin (s - a) (b - s))). pose proof (Rmin_r d (Rmin (s - a) (b - s))).
  pose proof (Rmin_l (s - a) (b - s)). pose proof (Rmin_r (s - a) (b - s)).
  assert (AB : a < x < b) by (apply Rabs_def2 in HD; lra). rewrite (E s S), (E x AB). apply H. split; [exact Hx|lra].
Qed.
Lemma local_ok n g c : shaped n g -> follows g c -> good n c ->
  exists l, seg_switching_points xa xextras g = Ok (map XFin l) /\ piece_ok n (c, l).
Proof.
  intros SH (SL & LP & FO) G. unfold shaped in SH. destruct (seg_shape g) as [a b|r ce x y] eqn:ES.
  - exists []. split; [unfold seg_switching_points; now rewrite ES|]. split; [constructor|]. split; [intros x []|]. split; [intros x []|].
    assert (CT : forall s s', 0 <= s <= cu_len c -> 0 <= s' <= cu_len c -> cu_t c s = cu_t c s').
    { intros s s' S S'. destruct (FO s S) as (_ & T1 & _). destruct (FO s' S') as (_ & T2 & _). unfold seg_tangent in T1, T2. rewrite ES in T1, T2.
      rewrite T1 in T2. injection T2 as T2. now apply TotpSample.fin_inj in T2. }
    assert (CK : forall s, 0 <= s <= cu_len c -> cu_k c s = cu_k c 0).
    { intros s S. destruct (FO s S) as (_ & _ & T1). destruct (FO 0 ltac:(lra)) as (_ & _ & T2). unfold seg_curvature in T1, T2. rewrite ES in T1, T2.
      rewrite T1 in T2. injection T2 as T2. now apply TotpSample.fin_inj in T2. }
    split.
    + intros i s S Z. right. intros s' S'. rewrite (CT s' s) by lra. exact Z.
    + intros i s S. apply (cont_local _ (fun _ => nth i (cu_k c 0) 0) 0 (cu_len c)); [exact S| |apply continuity_pt_const; intros ? ?; reflexivity].
      intros u U. now rewrite CK by lra.
  - destruct SH as (rd & a & fx & fy & -> & RP & -> & -> & Lx & Ly & SL' & AP). rewrite SL in SL'. injection SL' as EL.
    destruct (local_points n g rd fx fy ce (cu_len c) ES SL Lx Ly RP) as (l & E & S & I'). exists l. split; [exact E|]. split; [exact S|].
    assert (CT : forall s, 0 <= s <= cu_len c -> forall i, nth i (cu_t c s) 0 = - sin (s / rd) * nth i fx 0 + cos (s / rd) * nth i fy 0).
    { intros s Hs i. destruct (FO s Hs) as (_ & T1 & _). unfold seg_tangent in T1. rewrite ES in T1. cbn [adiv xa] in T1. rewrite xdiv_fin in T1 by lra.
      cbn [e_cos e_sin xextras on_fin] in T1. rewrite fin_opp, !fin_scale in T1. rewrite fin_add in T1 by (unfold vscale; rewrite !map_length; congruence).
      injection T1 as T1. apply TotpSample.fin_inj in T1. rewrite <- T1. rewrite (nth_add n), !nth_vscale by (unfold vscale; rewrite ?map_length; assumption). ring. }
    assert (CK : forall s, 0 <= s <= cu_len c -> forall i, nth i (cu_k c s) 0 = -1 / rd * (cos (s / rd) * nth i fx 0 + sin (s / rd) * nth i fy 0)).
    { intros s Hs i. destruct (FO s Hs) as (_ & _ & T1). unfold seg_curvature in T1. rewrite ES in T1. cbn [adiv xa aopp a_of xopp] in T1. rewrite !xdiv_fin in T1 by lra.
      cbn [e_cos e_sin xextras on_fin] in T1. rewrite !fin_scale in T1. rewrite fin_add in T1 by (unfold vscale; rewrite !map_length; congruence).
      cbn [bind] in T1. rewrite fin_scale_l in T1.
      injection T1 as T1. apply TotpSample.fin_inj in T1. rewrite <- T1. rewrite nth_vscale, (nth_add n), !nth_vscale by (unfold vscale; rewrite ?map_length; assumption). reflexivity. }
    assert (RNG : forall x, In x l -> 0 <= x < cu_len c).
    { intros z Hz. apply I' in Hz as (i & Hi & -> & Hz). split; [|exact Hz]. pose proof (turn_range (nth i fy 0) (nth i fx 0)). nra. }
    split; [exact RNG|]. split; [|split].
    + intros z Hz. pose proof (RNG z Hz) as R1. apply I' in Hz as (i & Hi & -> & Hz). exists i. split; [exact Hi|]. rewrite CT by lra.
      replace (turn_angle (nth i fy 0) (nth i fx 0) * rd / rd) with (turn_angle (nth i fy 0) (nth i fx 0)) by (field; lra). apply turn_zero.
    + intros i s Hs Z. destruct (Nat.lt_ge_cases i n) as [Hi|Hi].
      2: { right. intros s' S'. rewrite CT by exact S'. rewrite !nth_overflow by lia. ring. }
      rewrite CT in Z by lra.
      assert (T : 0 < s / rd < PI).
      { split; [apply Rdiv_lt_0_compat; lra|]. apply (Rmult_lt_reg_r rd); [exact RP|]. replace (s / rd * rd) with s by (field; lra). nra. }
      destruct (turn_unique _ _ _ T Z) as [(Z1 & Z2)|U].
      * right. intros s' S'. rewrite CT, Z1, Z2 by exact S'. ring.
      * left. apply I'. exists i. split; [exact Hi|]. rewrite U. split; [field; lra|lra].
    + intros i s Hs. eapply (cont_local _ _ 0 (cu_len c)); [exact Hs|intros u U; apply CK; lra|].
      apply derivable_continuous_pt. eexists. apply is_derive_Reals. auto_derive; [trivial|reflexivity].
Qed.
Lemma empty_points n g : shaped n g -> seg_length g = XFin 0 -> seg_switching_points xa xextras g = Ok [].
Proof.
  unfold shaped. intros SH SL. destruct (seg_shape g) as [a b|r ce x y] eqn:ES; [unfold seg_switching_points; now rewrite ES|].
  destruct SH as (rd & a & fx & fy & -> & RP & -> & -> & Lx & Ly & SL' & AP).
  destruct (local_points n g rd fx fy ce 0 ES SL Lx Ly RP) as (l & E & S & I'). rewrite E. destruct l as [|z l]; [reflexivity|exfalso].
  destruct (proj1 (I' z) (or_introl eq_refl)) as (i & Hi & -> & Hz). pose proof (turn_range (nth i fy 0) (nth i fx 0)). nra.
Qed.

(** ** The points of the path *)
Definition toX (l : list (R * bool)) : list (xr * bool) := map (fun e => (XFin (fst e), snd e)) l.
(** All points but the end of the path. *)
Fixpoint inner (pos : R) (cl : list (curve * list R)) : list (R * bool) :=
  match cl with
  | [] => []
  | (c, l) :: r => map (fun x => (pos + x, false)) l ++
      match r with [] => [] | _ => (pos + cu_len c, true) :: inner (pos + cu_len c) r end
  end.
Definition marks (pos : R) (cl : list (curve * list R)) : list (R * bool) := inner pos cl ++ [(pos + total (map fst cl), true)].
Lemma marks_last pos c l : marks pos [(c, l)] = map (fun x => (pos + x, false)) l ++ [(pos + cu_len c, true)].
Proof. unfold marks. cbn [inner map fst total]. now rewrite app_nil_r, Rplus_0_r. Qed.
Lemma marks_cons pos c l p r : marks pos ((c, l) :: p :: r) = map (fun x => (pos + x, false)) l ++ (pos + cu_len c, true) :: marks (pos + cu_len c) (p :: r).
Proof. unfold marks. cbn [inner]. cbn [map fst total]. rewrite <- app_assoc. cbn [app]. now rewrite Rplus_assoc. Qed.

Lemma push_points pos P l : fold_left (fun ps p => (aadd xa (XFin pos) p, false) :: ps) (map XFin l) (toX P) = toX (rev (map (fun x => (pos + x, false)) l) ++ P).
Proof.
  revert P. induction l as [|x l IH]; intros P; [reflexivity|]. cbn [map fold_left rev]. cbn [aadd xa xadd].
  change ((XFin (pos + x), false) :: toX P) with (toX ((pos + x, false) :: P)). rewrite IH, <- app_assoc. reflexivity.
Qed.
Lemma pop_none b P : match P with [] => True | p :: _ => fst p < b end -> pop_reached xa (XFin b) (toX P) = toX P.
Proof.
  destruct P as [|p P]; [reflexivity|]. intros H. cbn [toX map pop_reached fst]. change (aleb xa) with xleb. now rewrite (proj2 (xleb_gt b (fst p))).
Qed.
(** The path so far ends at [pos], marked once. *)
Definition at_end (pos : R) (P : list (R * bool)) : Prop :=
  exists Q, P = (pos, true) :: Q /\ match Q with [] => True | p :: _ => fst p < pos end.
Lemma step_follow n g c l pos P done : seg_length g = XFin (cu_len c) -> 0 < cu_len c -> piece_ok n (c, l) -> seg_switching_points xa xextras g = Ok (map XFin l) ->
  P = [] \/ at_end pos P ->
  place_step xa xextras (XFin pos, toX P, done) g =
    Ok (XFin (pos + cu_len c), toX ((pos + cu_len c, true) :: rev (map (fun x => (pos + x, false)) l) ++ P), mkSegment (seg_length g) (seg_shape g) (XFin pos) :: done) /\
  at_end (pos + cu_len c) ((pos + cu_len c, true) :: rev (map (fun x => (pos + x, false)) l) ++ P).
Proof.
  intros SL LP (_ & RNG & _) E HP. unfold place_step. rewrite E, SL. cbn [bind]. rewrite push_points. cbn [aadd xa xadd].
  assert (HD : match rev (map (fun x => (pos + x, false)) l) ++ P with [] => True | p :: _ => fst p < pos + cu_len c end).
  { rewrite <- map_rev. destruct (rev l) as [|z r] eqn:ER; cbn [map app].
    - destruct HP as [->|(Q & -> & _)]; cbn; [exact I|lra].
    - assert (I' : In z l) by (apply in_rev; rewrite ER; now left). specialize (RNG z I'). cbn. lra. }
  rewrite pop_none by exact HD. split; [reflexivity|]. eexists. split; [reflexivity|exact HD].
Qed.
Lemma step_empty n g pos P done : shaped n g -> seg_length g = XFin 0 -> at_end pos P ->
  place_step xa xextras (XFin pos, toX P, done) g = Ok (XFin pos, toX P, mkSegment (seg_length g) (seg_shape g) (XFin pos) :: done).
Proof.
  intros SH SL (Q & -> & HQ). unfold place_step. rewrite (empty_points n g SH SL), SL. cbn [bind fold_left]. cbn [aadd xa xadd]. rewrite Rplus_0_r.
  change (toX ((pos, true) :: Q)) with ((XFin pos, true) :: toX Q). cbn [pop_reached fst]. change (aleb xa) with xleb.
  rewrite (proj2 (xleb_le pos pos)) by lra. now rewrite pop_none by exact HQ.
Qed.
Lemma step_empty_first n g done : shaped n g -> seg_length g = XFin 0 ->
  place_step xa xextras (XFin 0, [], done) g = Ok (XFin 0, toX [(0, true)], mkSegment (seg_length g) (seg_shape g) (XFin 0) :: done).
Proof.
  intros SH SL. unfold place_step. rewrite (empty_points n g SH SL), SL. cbn [bind fold_left]. cbn [aadd xa xadd]. rewrite Rplus_0_r. reflexivity.
Qed.

Lemma total_nonneg n (cl : list (curve * list R)) : Forall (good n) (map fst cl) -> 0 <= total (map fst cl).
Proof. induction cl as [|(c & l) r IH]; cbn [map fst total]; intros G; [lra|]. inversion_clear G as [|? ? (GP & _) G']. specialize (IH G'). lra. Qed.
Lemma inner_range n : forall cl q, Forall (piece_ok n) cl -> Forall (good n) (map fst cl) -> forall y b, In (y, b) (inner q cl) -> q <= y < q + total (map fst cl).
Proof.
  induction cl as [|(c & l) r IHc]; intros q PO G y b I'; [destruct I'|]. inversion_clear PO as [|? ? PO1 PO']. destruct PO1 as (_ & RN & _). cbn [map fst] in *. inversion_clear G as [|? ? G1 G']. destruct G1 as (GP & _).
  pose proof (total_nonneg n r G') as TN. cbn [inner] in I'. cbn [total]. apply in_app_iff in I' as [I'|I'].
  - apply in_map_iff in I' as (z & Ez & Iz). injection Ez as <- <-. specialize (RN z Iz). lra.
  - destruct r as [|(c2 & l2) r2]; [destruct I'|]. destruct I' as [I'|I'].
    + injection I' as <- <-. cbn [map fst] in G'. inversion_clear G' as [|? ? (GP2 & _) G2]. pose proof (total_nonneg n r2 G2). cbn [map fst total]. lra.
    + apply IHc in I'; auto. lra.
Qed.
Lemma pieces n gs cs : tracks gs cs -> Forall (shaped n) gs -> Forall (good n) cs ->
  exists cl, map fst cl = cs /\ Forall (piece_ok n) cl /\
    forall pos P done, P = [] /\ pos = 0 \/ at_end pos P ->
    exists gs' P0, mfold (place_step xa xextras) (XFin pos, toX P, done) gs = Ok (XFin (pos + total cs), toX (rev (marks pos cl) ++ P0), rev gs' ++ done) /\
      (P0 = P \/ P = [] /\ P0 = [(0, true)]) /\ Forall2 same gs gs' /\ placed pos gs' /\
      (forall x, In x (map seg_position gs') -> exists y, x = XFin y /\ pos <= y < pos + total cs) /\
      (forall x, x < pos + total cs -> In (XFin x) (map seg_position gs') <-> x = pos \/ In (x, true) (inner pos cl)) /\
      (P = [] -> forall x, In (XFin x) (map seg_position (tl gs')) <-> In (x, true) (rev P0 ++ inner pos cl)).
Proof.
  induction 1 as [g c F|g gs cs E T IH|g gs c cs F T IH]; intros SH G.
  - inversion_clear SH as [|? ? Sg _]. inversion_clear G as [|? ? Gc _]. destruct (local_ok n g c Sg F Gc) as (l & EL & PO). pose proof F as (SL & LP & _).
    exists [(c, l)]. split; [reflexivity|]. split; [now constructor|]. intros pos P done HP. cbn [mfold].
    destruct (step_follow n g c l pos P done SL LP PO EL) as (ST & _). { destruct HP as [(-> & _)|HP]; auto. }
    rewrite ST. cbn [bind]. exists [mkSegment (seg_length g) (seg_shape g) (XFin pos)], P. cbn [total].
    split; [|split; [now left|]].
    { rewrite Rplus_0_r, marks_last, rev_app_distr. cbn [rev app]. reflexivity. }
    split; [repeat constructor|]. split.
    { econstructor; [exact SL|lra|reflexivity|constructor]. }
    cbn [map seg_position inner In tl].
    assert (NT : forall x, ~ In (x, true) (map (fun x0 : R => (pos + x0, false)) l)) by (intros x I'; apply in_map_iff in I' as (z & Ez & _); discriminate).
    split; [intros x [<-|[]]; exists pos; split; [reflexivity|lra]|].
    split. { intros x _. rewrite app_nil_r. split; [intros [H|[]]; injection H; auto|intros [->|H]; [now left|now apply NT in H]]. }
    intros -> x. rewrite app_nil_r. cbn [rev app]. split; [tauto|apply NT].
  - inversion_clear SH as [|? ? Sg SH']. destruct (IH SH' G) as (cl & EC & PO & K). exists cl. split; [exact EC|]. split; [exact PO|].
    intros pos P done HP. cbn [mfold].
    assert (exists P1, place_step xa xextras (XFin pos, toX P, done) g = Ok (XFin pos, toX P1, mkSegment (seg_length g) (seg_shape g) (XFin pos) :: done) /\
      at_end pos P1 /\ (P1 = P \/ P = [] /\ P1 = [(0, true)])) as (P1 & ST & AE & HP1).
    { destruct HP as [(-> & ->)|HP].
      - exists [(0, true)]. split; [apply (step_empty_first n); assumption|]. split; [|right; auto]. exists []. split; [reflexivity|exact I].
      - exists P. split; [now apply (step_empty n)|]. split; [exact HP|now left]. }
    rewrite ST. cbn [bind]. destruct (K pos P1 (mkSegment (seg_length g) (seg_shape g) (XFin pos) :: done) (or_intror AE)) as (gs' & P0 & EQ & HP0 & SM & PL & RG & AL & _).
    assert (P0 = P1). { destruct HP0 as [H|(H & _)]; [exact H|]. destruct AE as (Q & -> & _). discriminate. } subst P0. clear HP0.
    exists (mkSegment (seg_length g) (seg_shape g) (XFin pos) :: gs'), P1.
    split; [rewrite EQ; cbn [rev]; now rewrite <- app_assoc|]. split; [exact HP1|].
    split; [constructor; [now split|exact SM]|]. split.
    { econstructor; [exact E|lra|reflexivity|]. now rewrite Rplus_0_r. }
    pose proof (total_pos _ _ T) as TP. cbn [map seg_position In tl].
    split; [intros x [<-|H]; [exists pos; split; [reflexivity|lra]|now apply RG]|].
    split. { intros x Hx. rewrite AL by exact Hx. split; [intros [H|H]; [injection H; auto|exact H]|auto]. }
    intros -> x. assert (pos = 0) as -> by (destruct HP as [(_ & ->)|(Q & HQ & _)]; [reflexivity|discriminate]).
    assert (P1 = [(0, true)]) as -> by (destruct HP1 as [->|(_ & ->)]; [destruct AE as (Q & HQ & _); discriminate|reflexivity]).
    cbn [rev app In]. destruct (Rlt_le_dec x (0 + total cs)) as [L|L].
    + rewrite AL by exact L. split; [intros [->|H]; auto|intros [H|H]; [injection H; auto|auto]].
    + split.
      * intros H. destruct (RG _ H) as (y & Ey & B). injection Ey as <-. lra.
      * intros [H|H]; [injection H as <-; lra|]. exfalso.
        apply (inner_range n) in H; [rewrite EC in H; lra|exact PO|rewrite EC; exact G].
  - inversion_clear SH as [|? ? Sg SH']. inversion_clear G as [|? ? Gc G']. destruct (IH SH' G') as (cl & EC & PO & K).
    destruct (local_ok n g c Sg F Gc) as (l & EL & POc). pose proof F as (SL & LP & _).
    exists ((c, l) :: cl). split; [cbn [map fst]; now rewrite EC|]. split; [now constructor|]. intros pos P done HP. cbn [mfold].
    destruct (step_follow n g c l pos P done SL LP POc EL) as (ST & AE). { destruct HP as [(-> & _)|HP]; auto. }
    rewrite ST. cbn [bind].
    match type of AE with at_end _ ?P1 => destruct (K (pos + cu_len c) P1 (mkSegment (seg_length g) (seg_shape g) (XFin pos) :: done) (or_intror AE)) as (gs' & P0 & EQ & HP0 & SM & PL & RG & AL & _);
      assert (P0 = P1) as -> by (destruct HP0 as [H|(H & _)]; [exact H|discriminate]) end. clear HP0.
    exists (mkSegment (seg_length g) (seg_shape g) (XFin pos) :: gs'), P.
    pose proof (total_pos _ _ T) as TP. destruct cl as [|p2 r2]; [cbn in EC; subst cs; now apply tracks_nonempty in T|].
    split. { rewrite EQ, marks_cons. cbn [total rev]. rewrite rev_app_distr. cbn [rev]. rewrite <- !app_assoc. cbn [app]. rewrite Rplus_assoc. reflexivity. }
    split; [now left|]. split; [constructor; [now split|exact SM]|]. split.
    { econstructor; [exact SL|lra|reflexivity|exact PL]. }
    assert (NT : forall x, ~ In (x, true) (map (fun x0 : R => (pos + x0, false)) l)) by (intros x I'; apply in_map_iff in I' as (z & Ez & _); discriminate).
    assert (IN : forall x, In (x, true) (inner pos ((c, l) :: p2 :: r2)) <-> x = pos + cu_len c \/ In (x, true) (inner (pos + cu_len c) (p2 :: r2))).
    { intros x. cbn [inner]. rewrite in_app_iff. cbn [In]. split; [intros [H|[H|H]]; [now apply NT in H|injection H; auto|now right]|intros [->|H]; auto]. }
    cbn [map seg_position In tl total].
    split; [intros x [<-|H]; [exists pos; split; [reflexivity|lra]|destruct (RG x H) as (y & -> & B); exists y; split; [reflexivity|lra]]|].
    split. { intros x Hx. rewrite IN, AL by lra. split; [intros [H|H]; [injection H; auto|tauto]|intros [->|H]; auto]. }
    intros -> x. cbn [rev app]. rewrite IN. destruct (Rlt_le_dec x (pos + cu_len c + total cs)) as [L|L]; [now rewrite AL by exact L|].
    split; [intros H; destruct (RG _ H) as (y & Ey & B); injection Ey as <-; lra|]. intros H. exfalso.
    destruct H as [->|H]; [lra|]. apply (inner_range n) in H; [rewrite EC in H; lra|exact PO|rewrite EC; exact G'].
Qed.

(** ** What the points say about the path *)
Lemma shift_lim f g o s d l : 0 < d -> (forall u, Rabs (u - s) < d -> f u = g (u - o)) -> derivable_pt_lim g (s - o) l -> derivable_pt_lim f s l.
Proof.
  intros D E L e He. destruct (L e He) as (dd & H). assert (P : 0 < Rmin d dd) by (apply Rmin_glb_lt; [exact D|apply cond_pos]).
  exists (mkposreal _ P). intros h NZ Hh. cbn in Hh. pose proof (Rmin_l d dd). pose proof (Rmin_r d dd).
  rewrite (E (s + h)), (E s); [|rewrite Rminus_diag_eq by reflexivity; rewrite Rabs_R0; exact D|replace (s + h - s) with h by ring; lra].
  replace (s + h - o) with (s - o + h) by ring. apply H; [exact NZ|lra].
Qed.
Lemma shift_cont f g o s d : 0 < d -> (forall u, Rabs (u - s) < d -> f u = g (u - o)) -> continuity_pt g (s - o) -> continuity_pt f s.
Proof.
  intros D E C e He. destruct (C e He) as (dd & Hd & H). exists (Rmin d dd). split; [now apply Rmin_glb_lt|].
  intros x (Hx & HD). cbn in *. unfold R_dist in *. pose proof (Rmin_l d dd). pose proof (Rmin_r d dd).
  rewrite (E x), (E s); [|rewrite Rminus_diag_eq by reflexivity; rewrite Rabs_R0; exact D|lra]. apply H. split.
  - destruct Hx as (_ & Hx). split; [exact I|]. intros Q. apply Hx. lra.
  - replace (x - o - (s - o)) with (x - s) by ring. lra.
Qed.
Lemma inside n : forall cl q s, cl <> [] -> Forall (piece_ok n) cl -> Forall (good n) (map fst cl) -> q < s < q + total (map fst cl) ->
  ~ In (s, true) (inner q cl) ->
  exists c l o d, In (c, l) cl /\ 0 < d /\ 0 < s - o < cu_len c /\ (forall F u, Rabs (u - s) < d -> 0 < u - o < cu_len c /\ eval F (map fst cl) (u - q) = F c (u - o)) /\
    (forall x, In x l -> In (o + x, false) (inner q cl)).
Proof.
  induction cl as [|(c & l) r IH]; intros q s NE PO G S NI; [congruence|]. inversion_clear PO as [|? ? PO1 PO']. cbn [map fst total] in *.
  inversion_clear G as [|? ? G1 G']. pose proof G1 as (GP & _). destruct (Rlt_le_dec s (q + cu_len c)) as [L|L].
  - exists c, l, q, (Rmin (s - q) (q + cu_len c - s)). pose proof (Rmin_l (s - q) (q + cu_len c - s)). pose proof (Rmin_r (s - q) (q + cu_len c - s)).
    split; [now left|]. split; [apply Rmin_glb_lt; lra|]. split; [lra|]. split.
    + intros F u Hu. apply Rabs_def2 in Hu. split; [lra|]. destruct r as [|p r]; [reflexivity|]. cbn [map]. rewrite eval_cons2.
      destruct (Rlt_dec (u - q) (cu_len c)); [reflexivity|lra].
    + intros x Hx. cbn [inner]. apply in_app_iff. left. exact (in_map (fun x => (q + x, false)) l x Hx).
  - destruct r as [|p r]; [cbn in *; lra|].
    assert (L' : q + cu_len c < s). { destruct L as [L|L]; [exact L|]. exfalso. apply NI. cbn [inner]. apply in_app_iff. right. left. now rewrite L. }
    destruct (IH (q + cu_len c) s ltac:(discriminate) PO' G' ltac:(lra)) as (c2 & l2 & o & d & I2 & D & S2 & EV & PT).
    { intros H. apply NI. cbn [inner]. apply in_app_iff. right. right. exact H. }
    exists c2, l2, o, (Rmin d (s - q - cu_len c)). pose proof (Rmin_l d (s - q - cu_len c)). pose proof (Rmin_r d (s - q - cu_len c)).
    split; [now right|]. split; [apply Rmin_glb_lt; lra|]. split; [exact S2|]. split.
    + intros F u Hu. destruct (EV F u ltac:(lra)) as (B & EV'). split; [exact B|]. rewrite <- EV'. cbn [map]. rewrite eval_cons2. apply Rabs_def2 in Hu.
      destruct (Rlt_dec (u - q) (cu_len c)); [lra|]. f_equal. ring.
    + intros x Hx. cbn [inner]. apply in_app_iff. right. right. now apply PT.
Qed.
Lemma turning n : forall cl q x, Forall (piece_ok n) cl -> Forall (good n) (map fst cl) -> In (x, false) (inner q cl) ->
  exists i, (i < n)%nat /\ nth i (eval cu_t (map fst cl) (x - q)) 0 = 0.
Proof.
  induction cl as [|(c & l) r IH]; intros q x PO G I'; [destruct I'|]. inversion_clear PO as [|? ? PO1 PO']. cbn [map fst] in *.
  inversion_clear G as [|? ? G1 G']. destruct PO1 as (_ & RN & TZ & _). cbn [inner] in I'. apply in_app_iff in I' as [I'|I'].
  - apply in_map_iff in I' as (z & Ez & Iz). injection Ez as <-. destruct (TZ z Iz) as (i & Hi & Z). exists i. split; [exact Hi|].
    replace (q + z - q) with z by ring. destruct r as [|p r]; [exact Z|]. cbn [map]. rewrite eval_cons2.
    destruct (Rlt_dec z (cu_len c)) as [L|L]; [exact Z|]. specialize (RN z Iz). lra.
  - destruct r as [|p r]; [destruct I'|]. destruct I' as [I'|I']; [discriminate|].
    destruct (IH _ _ PO' G' I') as (i & Hi & Z). exists i. split; [exact Hi|].
    pose proof (inner_range n _ _ PO' G' _ _ I') as B. cbn [map]. rewrite eval_cons2. destruct (Rlt_dec (x - q) (cu_len c)) as [L|L]; [lra|].
    replace (x - q - cu_len c) with (x - (q + cu_len c)) by ring. exact Z.
Qed.
(** In order; at one place a discontinuity comes first. *)
Definition in_order (a b : R * bool) : Prop := fst a < fst b \/ fst a = fst b /\ snd b = false.
Lemma inner_sorted n : forall cl q, Forall (piece_ok n) cl -> Forall (good n) (map fst cl) -> StronglySorted in_order (inner q cl).
Proof.
  induction cl as [|(c & l) r IH]; intros q PO G; [constructor|]. inversion_clear PO as [|? ? PO1 PO']. cbn [map fst] in *.
  inversion_clear G as [|? ? G1 G']. destruct PO1 as (RS & RN & _). cbn [inner].
  set (rest := match r with [] => [] | _ => (q + cu_len c, true) :: inner (q + cu_len c) r end).
  assert (SR : StronglySorted in_order rest /\ forall e, In e rest -> q + cu_len c <= fst e).
  { unfold rest. destruct r as [|p r]; [split; [constructor|intros e []]|]. pose proof (IH (q + cu_len c) PO' G') as SI.
    split.
    - constructor; [exact SI|]. apply Forall_forall. intros (y & b) I'. pose proof (inner_range n _ _ PO' G' _ _ I') as B. unfold in_order. cbn [fst snd].
      destruct (Rle_lt_or_eq_dec _ _ (proj1 B)) as [L|E]; [now left|right]. split; [exact E|]. destruct b; [|reflexivity]. exfalso.
      clear -I' E PO' G'. destruct p as (c2 & l2). inversion_clear G' as [|? ? (GP & _) G2]. cbn [inner] in I'. apply in_app_iff in I' as [I'|I'].
      + apply in_map_iff in I' as (z & Ez & _). discriminate.
      + destruct r as [|p r]; [destruct I'|]. inversion_clear PO' as [|? ? _ PO2]. destruct I' as [I'|I']; [injection I' as I'; lra|].
        pose proof (inner_range n _ _ PO2 G2 _ _ I'). lra.
    - intros (y & b) [E|I']; [injection E as <- <-; cbn; lra|]. pose proof (inner_range n _ _ PO' G' _ _ I') as B. cbn. lra. }
  clearbody rest. destruct SR as (SR & BR). induction l as [|z l IHl]; [exact SR|]. cbn [map app]. inversion_clear RS as [|? ? RS' F]. constructor.
  - apply IHl; [exact RS'|]. intros x Hx. apply RN. now right.
  - apply Forall_forall. intros e He. apply in_app_iff in He as [He|He].
    + apply in_map_iff in He as (y & <- & Iy). rewrite Forall_forall in F. specialize (F y Iy). unfold in_order. cbn.
      destruct (Rle_lt_or_eq_dec _ _ F); [left; lra|right; split; [lra|reflexivity]].
    + specialize (BR e He). specialize (RN z (or_introl eq_refl)). left. cbn. lra.
Qed.

Lemma plain_linear d : d <= 0 -> forall rest a c gs, path_loop xa xextras (XFin d) a c rest = Ok gs -> forall n, Forall (shaped n) gs.
Proof.
  intros Hd. induction rest as [|c2 rest IH]; intros a c gs H n; cbn [path_loop] in H; [injection H as <-; constructor|].
  assert (K : (do l <- MakeLinear xa a c2; do others <- path_loop xa xextras (XFin d) c2 c2 rest; Ok (l :: others)) = Ok gs -> Forall (shaped n) gs).
  { intros K. binds K. injection K as <-. constructor; [eapply linear_shaped; eassumption|eapply IH; eassumption]. }
  destruct rest as [|c3 rest]; [now apply K|]. change (altb xa (a_of xa 0) (XFin d)) with (xltb (XFin 0) (XFin d)) in H.
  rewrite (proj2 (xltb_ge 0 d) Hd) in H. now apply K.
Qed.
Lemma path_parts n dev ws : well_posed n dev ws ->
  exists c1 c2 rest gs cs, ws = c1 :: c2 :: rest /\ path_loop xa xextras (XFin dev) (fin c1) (fin c1) (map fin (c2 :: rest)) = Ok gs /\
    tracks gs cs /\ Forall (shaped n) gs /\ Forall (good n) cs /\ Forall (seg_dim n) gs.
Proof.
  intros (L & D & HP & HB). destruct ws as [|c1 [|c2 rest]]; [cbn in L; lia..|].
  assert (L1 : length c1 = n) by (inversion D; assumption). assert (D' : Forall (fun w => length w = n) (c2 :: rest)) by (inversion D; assumption). assert (L2 : length c2 = n) by (inversion D'; assumption).
  destruct (Rlt_dec 0 dev) as [P|P].
  - destruct (HB P) as (LL & NR).
    assert (B0 : between c1 c2 0 = c1) by (unfold between; veq n; ring).
    destruct (loop_blend n dev P rest c1 c2 (between c1 c2 0) 0 D LL NR ltac:(lra) eq_refl) as (gs & cs & EP & TR & SH & GD & _). rewrite B0 in EP.
    destruct (path_loop_dim xa xextras ltac:(apply xleb_le; lra) (XFin dev) (map fin (c2 :: rest)) (fin c1) (fin c1) gs eq_refl EP) as (SD & _).
    rewrite fin_length, L1 in SD. exists c1, c2, rest, gs, cs. auto 10.
  - assert (P' : dev <= 0) by lra. destruct (loop_plain n dev P' rest c1 c2 D (HP P')) as (gs & cs & EP & TR & GD & _).
    destruct (path_loop_dim xa xextras ltac:(apply xleb_le; lra) (XFin dev) (map fin (c2 :: rest)) (fin c1) (fin c1) gs eq_refl EP) as (SD & _).
    rewrite fin_length, L1 in SD. exists c1, c2, rest, gs, cs. pose proof (plain_linear dev P' _ _ _ _ EP n). auto 10.
Qed.
Lemma nth_map_position gs : forall x, In (XFin x) (map seg_position (tl gs)) <->
  exists k (g : @segment xr), (0 < k)%nat /\ nth_error gs k = Some g /\ seg_position g = XFin x.
Proof.
  intros x. destruct gs as [|g0 gs]; cbn [tl map In].
  - split; [tauto|]. intros (k & g & _ & E & _). destruct k; discriminate.
  - rewrite in_map_iff. split.
    + intros (g & E & I'). apply In_nth_error in I' as (k & K). exists (S k), g. split; [lia|]. split; [exact K|exact E].
    + intros (k & g & K & E & EP). destruct k as [|k]; [lia|]. exists g. split; [exact EP|]. cbn in E. now apply nth_error_In in E.
Qed.

Lemma path_switches n dev ws : well_posed n dev ws ->
  exists p len q q' q'' pts, MakePath xa xextras (map fin ws) (XFin dev) = Ok p /\ describes p len q q' q'' /\ switches_at p pts /\
    StronglySorted in_order pts /\ (forall x f, In (x, f) pts -> 0 <= x < len) /\
    (forall x, In (x, true) pts <-> segment_begins p x) /\
    (forall s, 0 < s < len -> ~ In (s, true) pts -> forall i,
       derivable_pt_lim (fun s => nth i (q s) 0) s (nth i (q' s) 0) /\
       derivable_pt_lim (fun s => nth i (q' s) 0) s (nth i (q'' s) 0) /\
       continuity_pt (fun s => nth i (q'' s) 0) s) /\
    (forall x, In (x, false) pts -> exists i, (i < n)%nat /\ nth i (q' x) 0 = 0) /\
    (forall s i, 0 < s < len -> nth i (q' s) 0 = 0 -> (exists f, In (s, f) pts) \/ vanishes_near q' i s).
Proof.
  intros W. destruct (path_parts n dev ws W) as (c1 & c2 & rest & gs & cs & -> & EP & TR & SH & G & SD).
  destruct (pieces n gs cs TR SH G) as (cl & EC & PO & K). destruct (K 0 [] [] (or_introl (conj eq_refl eq_refl))) as (gs' & P0 & EQ & HP0 & SM & PL & RG & AL & TLS).
  clear K. rewrite Rplus_0_l, app_nil_r in EQ. rewrite Rplus_0_l in RG, AL. specialize (TLS eq_refl).
  assert (TN : 0 < total cs) by (eapply total_pos; exact TR).
  assert (NE : cl <> []) by (intros ->; cbn in EC; subst cs; cbn in TN; lra).
  assert (G' : Forall (good n) (map fst cl)) by (rewrite EC; exact G).
  set (pts := rev P0 ++ inner 0 cl) in *.
  assert (MP : MakePath xa xextras (map fin (c1 :: c2 :: rest)) (XFin dev) = Ok (mkPath (XFin (total cs)) (toX pts) gs')).
  { change (map fin (c1 :: c2 :: rest)) with (fin c1 :: fin c2 :: map fin rest). cbn [map] in EP. unfold MakePath. cbn [e_finite xextras]. rewrite EP. cbn [bind].
    change (a_of xa 0) with (XFin 0). change (@nil (xr * bool)) with (toX []). rewrite EQ. cbn [bind]. rewrite rev_involutive.
    unfold marks. rewrite rev_app_distr. cbn [rev app toX map tl]. do 2 f_equal. unfold pts. unfold toX. rewrite <- map_rev, rev_app_distr, rev_involutive. reflexivity. }
  assert (SD' : Forall (seg_dim n) gs').
  { clear -SD SM. induction SM as [|g g' r r' (S1 & S2) S IH]; [constructor|]. inversion_clear SD. constructor; [|auto]. unfold seg_dim in *. now rewrite <- S2. }
  pose proof (path_traces n gs' cs (toX pts) SD' (tracks_same _ _ TR _ SM) PL) as TC.
  exists (mkPath (XFin (total cs)) (toX pts) gs'), (total cs), (eval cu_q cs), (eval cu_t cs), (eval cu_k cs), pts.
  split; [exact MP|]. split; [exact TC|]. split; [reflexivity|].
  assert (TT : forall x f, In (x, f) pts -> 0 <= x < total cs).
  { intros x f H. unfold pts in H. apply in_app_iff in H as [H|H].
    - apply in_rev in H. destruct HP0 as [->|(_ & ->)]; [destruct H|]. destruct H as [H|[]]. injection H as <- <-. lra.
    - pose proof (inner_range n _ _ PO G' _ _ H) as B. rewrite EC in B. lra. }
  split; [|split; [exact TT|split; [|split; [|split]]]].
  - pose proof (inner_sorted n cl 0 PO G') as SI. unfold pts. destruct HP0 as [->|(_ & ->)]; [exact SI|]. cbn [rev app]. constructor; [exact SI|].
    apply Forall_forall. intros (y & b) I'. pose proof (inner_range n _ _ PO G' _ _ I') as B. unfold in_order. cbn [fst snd].
    destruct (Rle_lt_or_eq_dec _ _ (proj1 B)) as [L|E]; [now left|right]. split; [exact E|]. destruct b; [|reflexivity]. exfalso.
    clear -I' E PO G'. destruct cl as [|(c & l) r]; [destruct I'|]. inversion_clear G' as [|? ? (GP & _) G2]. cbn [inner] in I'. apply in_app_iff in I' as [I'|I'].
    + apply in_map_iff in I' as (z & Ez & _). discriminate.
    + destruct r as [|p r]; [destruct I'|]. inversion_clear PO as [|? ? _ PO2]. destruct I' as [I'|I']; [injection I' as I'; cbn in GP; lra|].
      pose proof (inner_range n _ _ PO2 G2 _ _ I'). cbn in *. lra.
  - intros x. unfold segment_begins. cbn [path_segments]. rewrite <- nth_map_position. symmetry. apply TLS.
  - intros s S NI i. assert (NI' : ~ In (s, true) (inner 0 cl)) by (intros H; apply NI; unfold pts; apply in_app_iff; now right).
    destruct (inside n cl 0 s NE PO G' ltac:(rewrite EC; lra) NI') as (c & l & o & d & IC & D & S2 & EV & PT). rewrite EC in EV.
    assert (EV' : forall F u, Rabs (u - s) < d -> eval F cs u = F c (u - o)) by (intros F u Hu; destruct (EV F u Hu) as (_ & H); now rewrite Rminus_0_r in H).
    assert (Z : Rabs (s - s) < d) by (rewrite Rminus_diag_eq by reflexivity; rewrite Rabs_R0; exact D).
    assert (GC : good n c). { rewrite Forall_forall in G. apply G. rewrite <- EC. apply in_map_iff. exists (c, l). auto. }
    rewrite Forall_forall in PO. pose proof (PO _ IC) as (_ & _ & _ & _ & CC). destruct GC as (_ & _ & _ & _ & D1 & D2). split; [|split].
    + rewrite (EV' cu_t s Z). apply (shift_lim _ (fun s => nth i (cu_q c s) 0) o s d); [exact D|intros u Hu; now rewrite EV'|apply D1].
    + rewrite (EV' cu_k s Z). apply (shift_lim _ (fun s => nth i (cu_t c s) 0) o s d); [exact D|intros u Hu; now rewrite EV'|apply D2].
    + apply (shift_cont _ (fun s => nth i (cu_k c s) 0) o s d); [exact D|intros u Hu; now rewrite EV'|now apply CC].
  - intros x H. unfold pts in H. apply in_app_iff in H as [H|H].
    + apply in_rev in H. destruct HP0 as [->|(_ & ->)]; [destruct H|]. destruct H as [H|[]]. discriminate.
    + destruct (turning n cl 0 x PO G' H) as (i & Hi & Z). exists i. split; [exact Hi|]. now rewrite EC, Rminus_0_r in Z.
  - intros s i S Z. destruct (in_dec (fun a b : R * bool => ltac:(decide equality; [apply Bool.bool_dec|apply Req_EM_T])) (s, true) pts) as [Y|NI]; [left; now exists true|].
    assert (NI' : ~ In (s, true) (inner 0 cl)) by (intros H; apply NI; unfold pts; apply in_app_iff; now right).
    destruct (inside n cl 0 s NE PO G' ltac:(rewrite EC; lra) NI') as (c & l & o & d & IC & D & S2 & EV & PT). rewrite EC in EV.
    assert (ZZ : Rabs (s - s) < d) by (rewrite Rminus_diag_eq by reflexivity; rewrite Rabs_R0; exact D).
    rewrite Forall_forall in PO. pose proof (PO _ IC) as (_ & _ & _ & CM & _).
    destruct (EV cu_t s ZZ) as (_ & E0). rewrite Rminus_0_r in E0. rewrite E0 in Z. destruct (CM i (s - o) S2 Z) as [Il|AZ].
    + left. exists false. unfold pts. apply in_app_iff. right. replace s with (o + (s - o)) by ring. now apply PT.
    + right. exists d. split; [exact D|]. intros u Hu. destruct (EV cu_t u Hu) as (B & E1). rewrite Rminus_0_r in E1. rewrite E1. apply AZ. lra.
Qed.

(** GetNextSwitchingPoint. *)
Lemma next_of len s : forall pts, StronglySorted in_order pts -> exists x f, next_point xa (toX pts) (XFin len) (XFin s) = (XFin x, f) /\
  ((In (x, f) pts /\ s < x) \/ (x = len /\ f = true /\ forall y g, In (y, g) pts -> y <= s)) /\
  (forall y g, In (y, g) pts -> s < y -> x <= y /\ (y = x -> g = true -> f = true)).
Proof.
  induction pts as [|(z & b) r IH]; intros S; cbn [toX map next_point].
  - exists len, true. split; [reflexivity|]. split; [right; repeat split; intros ? ? []|intros ? ? []].
  - cbn [fst snd]. inversion_clear S as [|? ? S' F]. change (aleb xa) with xleb. destruct (xleb (XFin z) (XFin s)) eqn:E.
    + apply xleb_le in E. destruct (IH S') as (x & f & EQ & C & M). exists x, f. split; [exact EQ|]. split.
      * destruct C as [(I' & L)|(-> & -> & A)]; [left; split; [now right|exact L]|right]. split; [reflexivity|]. split; [reflexivity|].
        intros y g [H|H]; [injection H as <- <-; exact E|eapply A; exact H].
      * intros y g [H|H] L; [injection H as <- <-; lra|]. now apply (M y g).
    + apply xleb_gt in E. exists z, b. split; [reflexivity|]. split; [left; split; [now left|exact E]|].
      intros y g [H|H] L; [injection H as <- <-; split; [lra|auto]|]. rewrite Forall_forall in F. destruct (F _ H) as [K|(K1 & K2)]; cbn in *; [split; lra|].
      split; [lra|]. intros _ ->. discriminate.
Qed.
Lemma path_next n dev ws p len pts : well_posed n dev ws -> MakePath xa xextras (map fin ws) (XFin dev) = Ok p ->
  path_length p = XFin len -> switches_at p pts -> forall s, exists x f, PathNextSwitchingPoint xa p (XFin s) = (XFin x, f) /\
  ((In (x, f) pts /\ s < x) \/ (x = len /\ f = true /\ forall y g, In (y, g) pts -> y <= s)) /\
  (forall y g, In (y, g) pts -> s < y -> x <= y /\ (y = x -> g = true -> f = true)).
Proof.
  intros W E L SW s. destruct (path_switches n dev ws W) as (p' & len' & q & q' & q'' & pts' & E' & (L' & _) & SW' & SO & _). rewrite E in E'. injection E' as <-.
  rewrite L in L'. injection L' as <-. unfold switches_at in SW, SW'.
  assert (pts = pts') as <-.
  { rewrite SW in SW'. clear -SW'. revert pts' SW'. induction pts as [|(a & b) r IH]; intros [|(a' & b') r'] H; cbn in H; try discriminate; [reflexivity|].
    injection H as H1 H2 H3. subst. f_equal. now apply IH. }
  unfold PathNextSwitchingPoint. rewrite SW, L. now apply next_of.
Qed.
