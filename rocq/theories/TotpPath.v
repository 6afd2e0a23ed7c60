(** Geometry of a path: the curve behind GetConfig, GetTangent and GetCurvature. *)
From Coq Require Import Reals Lra Psatz List Bool Lia.
From Coquelicot Require Import Coquelicot.
From Flocq Require Import Core.
From Verif Require Import Base MathModel MathReal MathLinModel MathVec MathLinProof TotpModel TotpProof TotpScalar TotpRealSpec TotpReal TotpLimits TotpArc TotpPathSpec.
Local Open Scope R_scope.

(** A curve by arc length, with its tangent and curvature. *)
Record curve : Type := mkCurve { cu_len : R; cu_q : R -> list R; cu_t : R -> list R; cu_k : R -> list R }.
Definition follows (g : @segment xr) (c : curve) : Prop :=
  seg_length g = XFin (cu_len c) /\ 0 < cu_len c /\ forall s, 0 <= s <= cu_len c ->
    seg_config xa xextras g (XFin s) = Ok (fin (cu_q c s)) /\
    seg_tangent xa xextras g (XFin s) = Ok (fin (cu_t c s)) /\
    seg_curvature xa xextras g (XFin s) = Ok (fin (cu_k c s)).
(** Segments without length are passed over; the last one has a length. *)
Inductive tracks : list (@segment xr) -> list curve -> Prop :=
| tracks_last g c : follows g c -> tracks [g] [c]
| tracks_skip g gs cs : seg_length g = XFin 0 -> tracks gs cs -> tracks (g :: gs) cs
| tracks_cons g gs c cs : follows g c -> tracks gs cs -> tracks (g :: gs) (c :: cs).
Fixpoint total (cs : list curve) : R := match cs with [] => 0 | c :: r => cu_len c + total r end.
(** The whole curve. *)
Fixpoint eval (F : curve -> R -> list R) (cs : list curve) (s : R) : list R :=
  match cs with
  | [] => []
  | c :: r => match r with [] => F c s | _ => if Rlt_dec s (cu_len c) then F c s else eval F r (s - cu_len c) end
  end.

Definition same (g g' : @segment xr) : Prop := seg_length g = seg_length g' /\ seg_shape g = seg_shape g'.
Lemma follows_same g g' c : same g g' -> follows g c -> follows g' c.
Proof.
  intros (E1 & E2) (F1 & F2 & F3). unfold follows, seg_config, seg_tangent, seg_curvature in *. rewrite <- E1, <- E2. auto.
Qed.
Lemma tracks_same gs cs : tracks gs cs -> forall gs', Forall2 same gs gs' -> tracks gs' cs.
Proof.
  induction 1 as [g c F|g gs cs E T IH|g gs c cs F T IH]; intros gs' H; inversion_clear H as [|? g' ? r S R].
  - inversion_clear R. constructor. eapply follows_same; eauto.
  - apply tracks_skip; [destruct S; congruence|auto].
  - apply tracks_cons; [eapply follows_same; eauto|auto].
Qed.

(** Positions of the segments in the path. *)
Inductive placed : R -> list (@segment xr) -> Prop :=
| placed_nil pos : placed pos []
| placed_cons pos L g gs : seg_length g = XFin L -> 0 <= L -> seg_position g = XFin pos -> placed (pos + L) gs -> placed pos (g :: gs).

Lemma tracks_nonempty gs cs : tracks gs cs -> cs <> [] /\ gs <> [].
Proof. induction 1; split; try discriminate. tauto. Qed.
Lemma total_pos gs cs : tracks gs cs -> 0 < total cs.
Proof. induction 1 as [g c (_ & F & _)|g gs cs E T IH|g gs c cs (_ & F & _) T IH]; cbn; lra. Qed.

Lemma walk_eval gs cs : tracks gs cs -> forall pos s g r, gs = g :: r -> placed pos gs -> pos <= s <= pos + total cs ->
  exists g' c s', segment_walk xa g r (XFin s) = (g', XFin s') /\ follows g' c /\ 0 <= s' <= cu_len c /\
    forall F, eval F cs (s - pos) = F c s'.
Proof.
  induction 1 as [g0 c F|g0 gs cs E T IH|g0 gs c cs F T IH]; intros pos s g r EQ P S; injection EQ as <- <-.
  - inversion_clear P as [|? L ? ? EL NN EP _]. cbn [segment_walk]. rewrite EP. cbn [asub xa]. rewrite xsub_fin.
    exists g0, c, (s - pos). split; [reflexivity|]. split; [exact F|]. cbn [total] in S. split; [lra|]. intros F'. reflexivity.
  - inversion_clear P as [|? L ? ? EL NN EP P']. rewrite E in EL. injection EL as <-. rewrite Rplus_0_r in P'.
    destruct gs as [|g1 r1]; [now apply tracks_nonempty in T|]. cbn [segment_walk].
    inversion P' as [|? L1 ? ? EL1 NN1 EP1 P1]; subst. rewrite EP1. change (aleb xa (XFin pos) (XFin s)) with (xleb (XFin pos) (XFin s)).
    rewrite (proj2 (xleb_le pos s)) by lra. apply (IH pos s g1 r1 eq_refl P' S).
  - inversion_clear P as [|? L ? ? EL NN EP P']. pose proof F as (FL & FP & _). rewrite FL in EL. injection EL as <-.
    destruct gs as [|g1 r1]; [now apply tracks_nonempty in T|]. cbn [segment_walk].
    inversion P' as [|? L1 ? ? EL1 NN1 EP1 P1]; subst. rewrite EP1. change (aleb xa (XFin (pos + cu_len c)) (XFin s)) with (xleb (XFin (pos + cu_len c)) (XFin s)).
    destruct cs as [|c1 cs1]; [now apply tracks_nonempty in T|].
    destruct (xleb (XFin (pos + cu_len c)) (XFin s)) eqn:LE.
    + apply xleb_le in LE. destruct (IH (pos + cu_len c) s g1 r1 eq_refl P') as (g' & c' & s' & W & FF & SS & EV).
      { cbn [total] in *. lra. }
      exists g', c', s'. split; [exact W|]. split; [exact FF|]. split; [exact SS|]. intros F'. rewrite <- EV.
      cbn [eval]. destruct (Rlt_dec (s - pos) (cu_len c)); [lra|].
      replace (s - pos - cu_len c) with (s - (pos + cu_len c)) by ring. reflexivity.
    + apply xleb_gt in LE. rewrite EP. cbn [asub xa]. rewrite xsub_fin. exists g0, c, (s - pos). split; [reflexivity|].
      split; [exact F|]. split; [lra|]. intros F'. cbn [eval]. destruct (Rlt_dec (s - pos) (cu_len c)); [reflexivity|lra].
Qed.

(** The path over given segments. *)
Lemma switching_total n g : seg_dim n g -> exists l, seg_switching_points xa xextras g = Ok l.
Proof.
  unfold seg_dim, seg_switching_points. destruct (seg_shape g) as [a b|rd c x y]; [eauto|]. intros (Hc & Hx & Hy).
  match goal with |- exists l, (do points <- mfold ?F _ _; _) = _ =>
    destruct (mfold_seq (fun _ _ => True) F (length x) 0%nat [] I) as (s' & E & _) end.
  - intros k s Hk _. unfold raw_get.
    destruct (nth_error y k) eqn:E1; [|apply nth_error_None in E1; lia]. destruct (nth_error x k) eqn:E2; [|apply nth_error_None in E2; lia].
    cbn [bind]. eauto.
  - rewrite E. cbn [bind]. eauto.
Qed.
Lemma place_all n gs : Forall (seg_dim n) gs -> forall cs pos pts done, tracks gs cs ->
  exists pts' gs', mfold (place_step xa xextras) (XFin pos, pts, done) gs = Ok (XFin (pos + total cs), pts', rev gs' ++ done) /\
    Forall2 same gs gs' /\ placed pos gs'.
Proof.
  intros D cs pos pts done T. revert pos pts done D. induction T as [g c F|g gs cs E T IH|g gs c cs F T IH]; intros pos pts done D;
    inversion_clear D as [|? ? Dg Dr]; destruct (switching_total n g Dg) as (l & SW); cbn [mfold]; unfold place_step at 1; rewrite SW; cbn [bind].
  - destruct F as (FL & FP & _). rewrite FL. cbn [mfold aadd xa xadd total]. rewrite Rplus_0_r.
    do 2 eexists. split; [|split].
    + change (?x :: done) with (rev [x] ++ done). reflexivity.
    + repeat constructor. cbn. exact FL.
    + econstructor; [reflexivity|lra|reflexivity|constructor].
  - rewrite E. cbn [aadd xa xadd].
    match goal with |- context [mfold _ (?a, ?b, ?c) gs] => destruct (IH (pos + 0) b c Dr) as (pts' & gs' & EQ & S & P) end.
    rewrite EQ. rewrite Rplus_0_r in *. exists pts'. eexists (_ :: gs'). split; [|split].
    + cbn [rev]. rewrite <- app_assoc. reflexivity.
    + constructor; [|exact S]. split; cbn; [exact E|reflexivity].
    + econstructor; cbn; [reflexivity|lra|reflexivity|]. rewrite Rplus_0_r. exact P.
  - pose proof F as (FL & FP & _). rewrite FL. cbn [aadd xa xadd].
    match goal with |- context [mfold _ (?a, ?b, ?d) gs] => destruct (IH (pos + cu_len c) b d Dr) as (pts' & gs' & EQ & S & P) end.
    rewrite EQ. exists pts'. eexists (_ :: gs'). split; [|split].
    + cbn [rev total]. rewrite <- app_assoc, Rplus_assoc. reflexivity.
    + constructor; [|exact S]. split; cbn; [exact FL|reflexivity].
    + econstructor; cbn; [reflexivity|lra|reflexivity|exact P].
Qed.

(** What the functions of a path return. *)
Definition traces (p : @path xr) (cs : list curve) : Prop :=
  path_length p = XFin (total cs) /\ forall s, 0 <= s <= total cs ->
    GetConfig xa xextras p (XFin s) = Ok (fin (eval cu_q cs s)) /\
    GetTangent xa xextras p (XFin s) = Ok (fin (eval cu_t cs s)) /\
    GetCurvature xa xextras p (XFin s) = Ok (fin (eval cu_k cs s)).
Lemma path_traces n gs cs pts : Forall (seg_dim n) gs -> tracks gs cs -> placed 0 gs -> traces (mkPath (XFin (total cs)) pts gs) cs.
Proof.
  intros D T P. split; [reflexivity|]. intros s S. unfold GetConfig, GetTangent, GetCurvature, GetPathSegment. cbn [path_segments].
  destruct gs as [|g r]; [now apply tracks_nonempty in T|].
  destruct (walk_eval _ _ T 0 s g r eq_refl P) as (g' & c & s' & W & (_ & _ & F) & SS & EV); [lra|].
  rewrite W. cbn [bind fst snd]. destruct (F s' SS) as (F1 & F2 & F3). rewrite F1, F2, F3. rewrite Rminus_0_r in EV. now rewrite !EV.
Qed.
Lemma MakePath_traces n c1 c2 rest dev gs cs :
  path_loop xa xextras (XFin dev) c1 c1 (c2 :: rest) = Ok gs -> Forall (seg_dim n) gs -> tracks gs cs ->
  exists p, MakePath xa xextras (c1 :: c2 :: rest) (XFin dev) = Ok p /\ traces p cs /\ path_dim n p /\
    Forall2 same gs (path_segments p) /\ placed 0 (path_segments p).
Proof.
  intros E D T. unfold MakePath. cbn [e_finite xextras]. rewrite E. cbn [bind].
  destruct (place_all n gs D cs 0 [] [] T) as (pts & gs' & EQ & S & P). change (a_of xa 0) with (XFin 0). rewrite EQ. cbn [bind].
  rewrite app_nil_r, rev_involutive, Rplus_0_l. eexists. split; [reflexivity|].
  assert (D' : Forall (seg_dim n) gs').
  { clear -D S. induction S as [|g g' r r' (S1 & S2) S IH]; [constructor|]. inversion_clear D. constructor; [|auto].
    unfold seg_dim in *. now rewrite <- S2. }
  pose proof (tracks_same _ _ T _ S) as T'. split; [now apply (path_traces n)|].
  split; [split; [cbn; now apply tracks_nonempty in T'|exact D']|]. split; [exact S|exact P].
Qed.

(** Properties of one curve. *)
Definition good (n : nat) (c : curve) : Prop :=
  0 < cu_len c /\ (forall s, length (cu_q c s) = n /\ length (cu_t c s) = n /\ length (cu_k c s) = n) /\
  (forall s s', dist (cu_q c s) (cu_q c s') <= Rabs (s - s')) /\
  (forall s, norm (cu_t c s) = 1) /\
  (forall i s, derivable_pt_lim (fun s => nth i (cu_q c s) 0) s (nth i (cu_t c s) 0)) /\
  (forall i s, derivable_pt_lim (fun s => nth i (cu_t c s) 0) s (nth i (cu_k c s) 0)).

Lemma dist_sym n x y : length x = n -> length y = n -> dist x y = dist y x.
Proof.
  intros H K. unfold dist. replace (vsub x y) with (vscale (-1) (vsub y x)) by (veq n; ring).
  rewrite norm_scale, Rabs_left by lra. ring.
Qed.
Lemma dist_triangle n x y z : length x = n -> length y = n -> length z = n -> dist x z <= dist x y + dist y z.
Proof.
  intros. unfold dist. replace (vsub x z) with (vadd (vsub x y) (vsub y z)) by (veq n; ring). apply norm_triangle. vlen n.
Qed.
Lemma dist_refl n x : length x = n -> dist x x = 0.
Proof.
  intros H. unfold dist. replace (vsub x x) with (vscale 0 x) by (veq n; ring). rewrite norm_scale, Rabs_R0. ring.
Qed.

(** A straight piece. *)
Definition line (a b : list R) : curve :=
  let L := norm (vsub b a) in
  mkCurve L (fun s => between a b (s / L)) (fun _ => vscale (/ L) (vsub b a)) (fun _ => repeat 0 (length a)).
Lemma between_dim n a b t : length a = n -> length b = n -> length (between a b t) = n.
Proof. intros. unfold between. vdim. Qed.
#[export] Hint Resolve between_dim : vdim.
Lemma lin_lim a b s : derivable_pt_lim (fun s => a + b * s) s b.
Proof.
  apply is_derive_Reals. auto_derive; [trivial|ring].
Qed.
Lemma lim_ext f g s l : (forall x, f x = g x) -> derivable_pt_lim f s l -> derivable_pt_lim g s l.
Proof. intros H D e He. destruct (D e He) as (d & Hd). exists d. intros h. rewrite <- !H. apply Hd. Qed.
Lemma between_diff n a b t t' : length a = n -> length b = n ->
  dist (between a b t) (between a b t') = Rabs (t - t') * norm (vsub b a).
Proof.
  intros. unfold dist. replace (vsub (between a b t) (between a b t')) with (vscale (t - t') (vsub b a)); [apply norm_scale|].
  unfold between. veq n. ring.
Qed.
Lemma line_good n a b : length a = n -> length b = n -> 0 < norm (vsub b a) -> good n (line a b).
Proof.
  intros Ha Hb HL. unfold good, line. cbn [cu_len cu_q cu_t cu_k]. split; [exact HL|]. split.
  { intros s. rewrite repeat_length. repeat split; vdim. }
  split. { intros s s'. rewrite (between_diff n) by assumption. unfold Rdiv. rewrite <- Rmult_minus_distr_r, Rabs_mult, Rmult_assoc.
    rewrite (Rabs_pos_eq (/ _)) by (left; now apply Rinv_0_lt_compat). rewrite Rinv_l by lra. lra. }
  split. { intros s. rewrite norm_scale, Rabs_pos_eq by (left; now apply Rinv_0_lt_compat). apply Rinv_l. lra. }
  split; intros i s.
  - eapply lim_ext; [|apply (lin_lim (nth i a 0))]. intros x. unfold between. nths n. unfold Rdiv. ring.
  - rewrite nth_repeat. apply derivable_pt_lim_const.
Qed.
Lemma line_ends n a b : length a = n -> length b = n -> 0 < norm (vsub b a) ->
  cu_q (line a b) 0 = a /\ cu_q (line a b) (cu_len (line a b)) = b.
Proof.
  intros Ha Hb HL. cbn. unfold between. split; veq n; field; lra.
Qed.
Lemma line_follows n a b g : length a = n -> length b = n -> 0 < norm (vsub b a) ->
  MakeLinear xa (fin a) (fin b) = Ok g -> follows g (line a b).
Proof.
  intros Ha Hb HL. unfold MakeLinear. rewrite fin_sub by congruence. cbn [bind]. rewrite fin_norm. intros E. injection E as <-.
  split; [reflexivity|]. split; [exact HL|]. intros s (S1 & S2). cbn [line cu_len] in S2.
  unfold seg_config, seg_tangent, seg_curvature. cbn [seg_shape seg_length line cu_q cu_t cu_k]. split; [|split].
  - cbn [adiv xa]. rewrite xdiv_fin by lra.
    assert (R1 : 0 <= s / norm (vsub b a) <= 1).
    { split; [apply Rmult_le_pos; [lra|left; now apply Rinv_0_lt_compat]|].
      apply (Rmult_le_reg_r (norm (vsub b a))); [exact HL|]. unfold Rdiv. rewrite Rmult_assoc, Rinv_l by lra. lra. }
    unfold InterpolateVector, clamp01, UtilityModel.ClampValue. cbn [aleb altb a_of xa].
    rewrite (proj2 (xleb_le 0 1)) by lra. rewrite (proj2 (xltb_ge _ 0)) by lra. rewrite (proj2 (xltb_ge 1 _)) by lra.
    cbn [bind]. unfold zip_checked. rewrite !fin_length, Ha, Hb, Nat.eqb_refl. f_equal.
    rewrite (fin_zip _ (fun x y => x * (1 - s / norm (vsub b a)) + y * (s / norm (vsub b a)))) by reflexivity. f_equal.
    assert (LZ : forall f : R -> R -> R, length (zip_with f a b) = n) by (intros f; rewrite zip_length; congruence).
    apply (vext n); [apply LZ|vdim|]. intros i. unfold between. nths n. generalize (s / norm (vsub b a)); intros t.
    assert (LL : length a = length b) by congruence.
    clear -LL. revert b i LL. induction a as [|x a IH]; intros [|y b] [|i] LL; cbn in *; try discriminate; try ring. apply IH. lia.
  - rewrite fin_sub by congruence. cbn [bind]. rewrite fin_over by lra. reflexivity.
  - rewrite fin_length, fin_zero. reflexivity.
Qed.
