(** The geometry of paths and of everything sampled from a trajectory. *)
From Coq Require Import Reals Lra Psatz List Bool Lia.
From Flocq Require Import Core.
From Verif Require Import Base MathModel MathReal MathLinModel MathVec MathLinProof TotpModel TotpSpec TotpProof TotpScalar TotpRealSpec TotpReal TotpLimits TotpArc TotpPathSpec TotpPath TotpBlend TotpChain TotpPoly.
Local Open Scope R_scope.

Lemma near_mono d d' ws q : d <= d' -> near_polyline d ws q -> near_polyline d' ws q.
Proof.
  intros H. induction ws as [|p [|q' r] IH]; cbn [near_polyline]; auto. intros [(t & T & B)|N]; [left; exists t; split; [exact T|lra]|right; now apply IH].
Qed.
Lemma near_first n p q r dev : length p = n -> length q = n -> 0 <= dev -> near_polyline dev (p :: q :: r) p.
Proof.
  intros Hp Hq Hd. left. exists 0. split; [lra|]. replace (between p q 0) with p by (unfold between; veq n; ring). rewrite (dist_refl n) by exact Hp. exact Hd.
Qed.
Lemma near_last n dev : 0 <= dev -> forall r p q, Forall (fun w => length w = n) (p :: q :: r) -> near_polyline dev (p :: q :: r) (last (q :: r) []).
Proof.
  intros Hd. induction r as [|x r IH]; intros p q D; inversion_clear D as [|? ? Lp D']; assert (Lq : length q = n) by (inversion D'; assumption).
  - left. exists 1. split; [lra|]. cbn [last]. replace (between p q 1) with q by (unfold between; veq n; ring). rewrite (dist_refl n) by exact Lq. exact Hd.
  - right. apply IH. exact D'.
Qed.
Lemma dim_nonzero n a b : length a = n -> length b = n -> 0 < dist a b -> n <> 0%nat.
Proof.
  intros Ha Hb H ->. destruct a; [|discriminate]. destruct b; [|discriminate]. unfold dist, norm in H. cbn in H. rewrite sqrt_0 in H. lra.
Qed.
Lemma last_leg_dim n : forall ws, Forall (fun w => length w = n) ws -> 0 < last_leg ws -> n <> 0%nat.
Proof.
  induction ws as [|p [|q r] IH]; intros D H; [cbn in H; lra..|]. inversion_clear D as [|? ? Lp D']. assert (Lq : length q = n) by (inversion D'; assumption).
  destruct r; [cbn in H; now apply (dim_nonzero n p q)|]. apply IH; assumption.
Qed.
Lemma last_dim n : forall r q, Forall (fun w => length w = n) (q :: r) -> length (last (q :: r) ([] : list R)) = n.
Proof. induction r as [|x r IH]; intros q D; inversion_clear D; [assumption|]. now apply IH. Qed.

Lemma path_geometry n dev ws : well_posed n dev ws ->
  exists p cs e, MakePath xa xextras (map fin ws) (XFin dev) = Ok p /\ traces p cs /\ path_dim n p /\ n <> 0%nat /\
    cs <> [] /\ Forall (good n) cs /\ 0 <= e <= (if Rlt_dec 0 dev then tiny else 0) /\
    chain e (hd [] ws) cs (last ws []) /\ eval cu_q cs 0 = hd [] ws /\
    (forall s, 0 <= s <= total cs -> near_polyline (Rmax 0 dev) ws (eval cu_q cs s)) /\
    (forall s c q, GetConfig xa xextras p s = Ok c -> c = fin q -> near_polyline (Rmax 0 dev) ws q) /\
    (dev <= 0 -> total cs = polyline_length ws /\ forall s, 0 <= s <= total cs -> eval cu_q cs s = polyline_at ws s) /\
    (0 < dev -> Forall (on_curves dev cs) (removelast (tl ws))) /\
    (0 < dev -> forall a b r, ws = a :: b :: r -> starts_along (direction a b) cs /\ (forall e, 0 <= e -> clear_turns e ws -> smooth e cs) /\ ends_along ws cs).
Proof.
  intros (L & D & HP & HB). destruct ws as [|c1 [|c2 rest]]; [cbn in L; lia..|]. cbn [hd tl].
  assert (L1 : length c1 = n) by (inversion D; assumption). assert (D' : Forall (fun w => length w = n) (c2 :: rest)) by (inversion D; assumption). assert (L2 : length c2 = n) by (inversion D'; assumption).
  change (last (c1 :: c2 :: rest) []) with (last (c2 :: rest) ([] : list R)).
  pose proof (last_dim n _ _ D') as LD.
  destruct (Rlt_dec 0 dev) as [P|P].
  - destruct (HB P) as (LL & NR). assert (NZ : n <> 0%nat).
    { destruct LL as (LL & _). pose proof tiny_pos. apply (dim_nonzero n c1 c2); auto. lra. }
    assert (B0 : between c1 c2 0 = c1) by (unfold between; veq n; ring).
    destruct (loop_blend n dev P rest c1 c2 (between c1 c2 0) 0 D LL NR ltac:(lra) eq_refl)
      as (gs & cs & EP & TR & _ & GD & CH & ST & FI & LA & NE & CO & SA & SMO & EA). rewrite B0 in *.
    destruct (path_loop_dim xa xextras ltac:(apply xleb_le; lra) (XFin dev) (map fin (c2 :: rest)) (fin c1) (fin c1) gs eq_refl EP) as (SD & _).
    rewrite fin_length, L1 in SD.
    destruct (MakePath_traces n (fin c1) (fin c2) (map fin rest) dev gs cs EP SD TR) as (p & MP & TC & PD & SM & PL).
    destruct (FI eq_refl) as (g & r & b & E1 & M1 & Lb & _). destruct LA as (r' & g' & a & E2 & M2 & La).
    destruct (ST eq_refl) as (c & cr & EC & Q0).
    assert (EV : forall s, 0 <= s <= total cs -> near_polyline (Rmax 0 dev) (c1 :: c2 :: rest) (eval cu_q cs s)).
    { rewrite Rmax_right by lra. intros s S. apply (eval_forall n (near_polyline dev (c1 :: c2 :: rest)) cu_q cs); auto. rewrite EC. discriminate. }
    exists p, cs, tiny. pose proof tiny_pos. repeat (split; [first [exact MP|exact TC|exact PD|exact NZ|exact GD|exact CH|lra|exact EV|rewrite EC; discriminate]|]).
    split; [rewrite EC in *; inversion_clear GD as [|? ? (GP & _) _]; rewrite eval_0 by exact GP; exact Q0|]. split; [exact EV|]. split; [|split; [lra|split; [intros _; exact CO|intros _ a0 b0 r0 E; injection E as <- <- <-; auto]]].
    intros s q' q GC EQ.
    destruct (config_any n p gs cs c1 b _ a r g r' g' s q' q NZ TC TR SM PL E1 M1 L1 Lb E2 M2 La LD GC EQ) as [->|[->|(s' & S' & ->)]].
    + apply (near_first n); auto. apply Rmax_l.
    + apply (near_last n); auto. apply Rmax_l.
    + now apply EV.
  - assert (P' : dev <= 0) by lra. pose proof (last_leg_dim n _ D (HP P')) as NZ.
    destruct (loop_plain n dev P' rest c1 c2 D (HP P')) as (gs & cs & EP & TR & GD & CH & (c & cr & EC & Q0) & (g & r & E1 & M1) & (r' & g' & a & E2 & M2 & La) & TT & PE).
    destruct (path_loop_dim xa xextras ltac:(apply xleb_le; lra) (XFin dev) (map fin (c2 :: rest)) (fin c1) (fin c1) gs eq_refl EP) as (SD & _).
    rewrite fin_length, L1 in SD.
    destruct (MakePath_traces n (fin c1) (fin c2) (map fin rest) dev gs cs EP SD TR) as (p & MP & TC & PD & SM & PL).
    assert (EV : forall s, 0 <= s <= total cs -> near_polyline (Rmax 0 dev) (c1 :: c2 :: rest) (eval cu_q cs s)).
    { rewrite Rmax_left by lra. intros s S. rewrite PE by exact S. apply (polyline_near n); [exact D|exact L|rewrite <- TT; exact S]. }
    exists p, cs, 0. repeat (split; [first [exact MP|exact TC|exact PD|exact NZ|exact GD|exact CH|lra|exact EV|rewrite EC; discriminate]|]).
    split; [rewrite EC in *; inversion_clear GD as [|? ? (GP & _) _]; rewrite eval_0 by exact GP; exact Q0|]. split; [exact EV|].
    split; [|split; [intros _; split; [exact TT|exact PE]|split; lra]]. intros s q' q GC EQ.
    destruct (config_any n p gs cs c1 c2 _ a r g r' g' s q' q NZ TC TR SM PL E1 M1 L1 L2 E2 M2 La LD GC EQ) as [->|[->|(s' & S' & ->)]].
    + apply (near_first n); auto. apply Rmax_l.
    + apply (near_last n); auto. apply Rmax_l.
    + now apply EV.
Qed.

Lemma parametrize_path {A} (ar : arith A) ex fuel ws vm am dev dt tr : ParametrizePathTOTP ar ex fuel ws vm am dev dt = Ok tr ->
  MakePath ar ex ws dev = Ok (tr_path tr).
Proof.
  unfold ParametrizePathTOTP. intros H. binds H.
  repeat match type of H with (if ?c then _ else _) = Ok _ => destruct c; [discriminate|] end. binds H. injection H as <-. exact E.
Qed.
Lemma sample_config {A} (ar : arith A) ex h id o t pos vel t' h' : h id = Some o ->
  GetPositionVelocityTimePoint ar ex h id t = Ok (pos, vel, t', h') ->
  exists s, GetConfig ar ex (tr_path (ob_trajectory o)) s = Ok pos.
Proof.
  intros E. unfold GetPositionVelocityTimePoint. rewrite E. intros H. binds H. destruct r as [[l k] c]. destruct k as [|k']; [discriminate|].
  binds H. repeat match type of H with (if ?c then _ else _) = Ok _ => destruct c; [discriminate|] end. injection H as <- <- <- <-.
  unfold sample_between in E3. binds E3. injection E3 as <-. cbn [fst]. eauto.
Qed.
(** Everything that is sampled lies near the polyline. *)
Lemma samples_near n dev ws fuel vm am dt tr : well_posed n dev ws ->
  ParametrizePathTOTP xa xextras fuel (map fin ws) vm am (XFin dev) dt = Ok tr ->
  forall h id o t q vel t' h', h id = Some o -> ob_trajectory o = tr ->
  GetPositionVelocityTimePoint xa xextras h id t = Ok (fin q, vel, t', h') -> near_polyline (Rmax 0 dev) ws q.
Proof.
  intros W P h id o t q vel t' h' E ET G. destruct (path_geometry n dev ws W) as (p & cs & e & MP & _ & _ & _ & _ & _ & _ & _ & _ & _ & N & _).
  apply parametrize_path in P. rewrite MP in P. injection P as P.
  destruct (sample_config _ _ _ _ _ _ _ _ _ _ E G) as (s & S). rewrite ET, <- P in S. eapply N; eauto.
Qed.
