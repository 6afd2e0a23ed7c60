(** The direction of a blended path. *)
From Coq Require Import Reals Lra Psatz List Bool Lia.
From Flocq Require Import Core.
From Verif Require Import Base MathModel MathReal MathLinModel MathVec MathLinProof TotpModel TotpProof TotpScalar TotpRealSpec TotpReal TotpLimits TotpArc TotpPathSpec TotpPath TotpBlend TotpChain TotpGeometry.
Local Open Scope R_scope.

Lemma norm_cons x v : norm (x :: v) <= Rabs x + norm v.
Proof.
  pose proof (norm_nonneg v) as N. pose proof (Rabs_pos x) as X. unfold norm at 1.
  rewrite <- (sqrt_Rsqr (Rabs x + norm v)) by lra. apply sqrt_le_1_alt.
  change (dot (x :: v) (x :: v)) with (x * x + dot v v). rewrite <- norm_sq. unfold Rsqr.
  pose proof (Rsqr_abs x) as E. unfold Rsqr in E. nra.
Qed.
Lemma norm_le_all e v : 0 <= e -> (forall i, Rabs (nth i v 0) <= e) -> norm v <= INR (length v) * e.
Proof.
  intros He. induction v as [|x v IH]; intros H.
  - cbn [length INR]. unfold norm. change (dot [] []) with 0. rewrite sqrt_0. lra.
  - pose proof (norm_cons x v) as N. specialize (IH (fun i => H (S i))). pose proof (H 0%nat) as H0. cbn [nth] in H0. cbn [length]. rewrite S_INR. lra.
Qed.
(** A curve that is differentiable in every coordinate is continuous. *)
Lemma common_delta n (P : nat -> R -> Prop) : (forall i d d', P i d -> d' <= d -> P i d') ->
  (forall i, (i < n)%nat -> exists d, 0 < d /\ P i d) -> exists d, 0 < d /\ forall i, (i < n)%nat -> P i d.
Proof.
  intros M. induction n as [|n IH]; intros H.
  - exists 1. split; [lra|]. intros i Hi. lia.
  - destruct IH as (d & D & A); [intros i Hi; apply H; lia|]. destruct (H n) as (d' & D' & A'); [lia|].
    exists (Rmin d d'). split; [now apply Rmin_glb_lt|]. intros i Hi. destruct (Nat.eq_dec i n) as [->|].
    + eapply M; [exact A'|apply Rmin_r].
    + eapply M; [apply A; lia|apply Rmin_l].
Qed.
Lemma curve_continuous n (f f' : R -> list R) : (forall s, length (f s) = n) ->
  (forall i s, derivable_pt_lim (fun s => nth i (f s) 0) s (nth i (f' s) 0)) ->
  forall s eps, 0 < eps -> exists delta, 0 < delta /\ forall s', Rabs (s' - s) < delta -> dist (f s') (f s) <= eps.
Proof.
  intros L D s eps He. pose proof (pos_INR n) as NP. set (e := eps / (INR n + 1)).
  assert (EP : 0 < e) by (apply Rdiv_lt_0_compat; lra).
  destruct (common_delta n (fun i d => forall s', Rabs (s' - s) < d -> Rabs (nth i (f s') 0 - nth i (f s) 0) <= e)) as (d & DP & H).
  { intros i d d' H LE s' S'. apply H. lra. }
  { intros i Hi. assert (C : continuity_pt (fun s => nth i (f s) 0) s).
    { apply derivable_continuous_pt. exists (nth i (f' s) 0). apply D. }
    destruct (C e EP) as (a & A & B). exists a. split; [exact A|]. intros s' S'. destruct (Req_dec s s') as [<-|NE].
    - rewrite Rminus_eq_0, Rabs_R0. lra.
    - left. apply (B s'). split; [split; [exact I|exact NE]|exact S']. }
  exists d. split; [exact DP|]. intros s' S'. unfold dist.
  apply Rle_trans with (INR (length (vsub (f s') (f s))) * e).
  - apply norm_le_all; [lra|]. intros i. destruct (Nat.lt_ge_cases i n) as [K|K].
    + rewrite (nth_sub n) by apply L. now apply H.
    + rewrite nth_overflow; [rewrite Rabs_R0; lra|]. rewrite (sub_dim n) by apply L. exact K.
  - rewrite (sub_dim n) by apply L. unfold e. apply (Rmult_le_reg_r (INR n + 1)); [lra|].
    replace (INR n * (eps / (INR n + 1)) * (INR n + 1)) with (INR n * eps) by (field; lra). nra.
Qed.

Lemma smooth_eval n e cs : 0 <= e -> cs <> [] -> Forall (good n) cs -> smooth e cs -> forall s eps, 0 <= s <= total cs -> 0 < eps ->
  exists delta, 0 < delta /\ forall s', 0 <= s' <= total cs -> Rabs (s' - s) < delta -> dist (eval cu_t cs s') (eval cu_t cs s) <= eps + e.
Proof.
  intros He. induction cs as [|c [|c' r] IH]; intros N G C s eps S EP; [congruence| |].
  - inversion_clear G as [|? ? (_ & CD & _ & _ & _ & DT) _].
    destruct (curve_continuous n (cu_t c) (cu_k c) ltac:(intros x; apply CD) DT s eps EP) as (d & D & H).
    exists d. split; [exact D|]. intros s' S' B. cbn [eval]. specialize (H s' B). lra.
  - inversion_clear G as [|? ? (CP & CD & _ & _ & _ & DT) G2]. destruct C as (C1 & C2).
    pose proof (fun x => curve_continuous n (cu_t c) (cu_k c) ltac:(intros y; apply CD) DT x eps EP) as CC.
    destruct (Rlt_or_le s (cu_len c)) as [L|L].
    + destruct (CC s) as (d & D & H). exists (Rmin d (cu_len c - s)). split; [apply Rmin_glb_lt; lra|]. intros s' S' B. rewrite !eval_cons2.
      pose proof (Rmin_l d (cu_len c - s)). pose proof (Rmin_r d (cu_len c - s)).
      assert (s' < cu_len c) by (apply Rabs_def2 in B; lra).
      destruct (Rlt_dec s' (cu_len c)), (Rlt_dec s (cu_len c)); try lra. specialize (H s' ltac:(lra)). lra.
    + destruct (IH ltac:(discriminate) G2 C2 (s - cu_len c) eps) as (d1 & D1 & H1); [cbn [total] in *; lra|exact EP|].
      destruct (Rle_lt_or_eq_dec (cu_len c) s L) as [L'|E].
      * exists (Rmin d1 (s - cu_len c)). split; [apply Rmin_glb_lt; lra|]. intros s' S' D.
        pose proof (Rmin_l d1 (s - cu_len c)). pose proof (Rmin_r d1 (s - cu_len c)).
        assert (cu_len c < s') by (apply Rabs_def2 in D; lra). rewrite !eval_cons2.
        destruct (Rlt_dec s' (cu_len c)), (Rlt_dec s (cu_len c)); try lra.
        apply H1; [cbn [total] in *; lra|]. replace (s' - cu_len c - (s - cu_len c)) with (s' - s) by ring. lra.
      * destruct (CC s) as (d & D & H). exists (Rmin d d1). split; [now apply Rmin_glb_lt|]. intros s' S' B.
        pose proof (Rmin_l d d1). pose proof (Rmin_r d d1). rewrite !eval_cons2. destruct (Rlt_dec s (cu_len c)); [lra|].
        destruct (Rlt_dec s' (cu_len c)) as [LL|LL].
        -- replace (s - cu_len c) with 0 by lra. inversion G2 as [|? ? (CP' & CD' & _) _]; subst. rewrite eval_0 by exact CP'.
           specialize (H s' ltac:(lra)).
           pose proof (dist_triangle n (cu_t c s') (cu_t c (cu_len c)) (cu_t c' 0)) as T.
           specialize (T ltac:(apply CD) ltac:(apply CD) ltac:(apply CD')). lra.
        -- apply H1; [cbn [total] in *; lra|]. replace (s' - cu_len c - (s - cu_len c)) with (s' - s) by ring. lra.
Qed.
Lemma eval_last F n r c : Forall (good n) (r ++ [c]) -> eval F (r ++ [c]) (total (r ++ [c])) = F c (cu_len c).
Proof.
  induction r as [|c0 r IH]; intros G.
  - cbn. now rewrite Rplus_0_r.
  - inversion_clear G as [|? ? G1 G2]. destruct (r ++ [c]) as [|c1 l] eqn:E; [destruct r; discriminate|].
    cbn [app]. rewrite E. rewrite eval_cons2.
    inversion G2 as [|? ? (G3 & _) G4]; subst. pose proof (total_nonneg n _ G4).
    destruct (Rlt_dec (total (c0 :: c1 :: l)) (cu_len c0)) as [K|K]; [cbn [total] in K; lra|].
    rewrite <- (IH G2). f_equal. cbn [total]. ring.
Qed.
Lemma clear_tiny ws : clear_turns tiny ws.
Proof.
  induction ws as [|p [|q [|r t]] IH]; cbn [clear_turns]; auto. split; [|exact IH].
  destruct (Rle_or_lt tiny (dist (direction p q) (direction q r))); [now left|right; lra].
Qed.

Lemma path_smooth n dev ws e : 0 < dev -> well_posed n dev ws -> 0 <= e -> clear_turns e ws ->
  exists p len q q' q'', MakePath xarith xextras (map fin ws) (XFin dev) = Ok p /\ describes p len q q' q'' /\
    (forall a b r, ws = a :: b :: r -> q' 0 = direction a b) /\
    (forall r a b, ws = r ++ [a; b] -> q' len = direction a b) /\
    (forall s eps, 0 <= s <= len -> 0 < eps -> exists delta, 0 < delta /\ forall s', 0 <= s' <= len -> Rabs (s' - s) < delta ->
       dist (q' s') (q' s) <= eps + e).
Proof.
  intros P W He CT. destruct (path_geometry n dev ws W) as (p & cs & e' & MP & TR & PD & NZ & NE & G & HE & CH & E0 & NR & _ & PO & BL & SMO).
  exists p, (total cs), (eval cu_q cs), (eval cu_t cs), (eval cu_k cs). split; [exact MP|]. split; [exact TR|].
  pose proof W as (L2 & _). specialize (SMO P).
  split; [|split].
  - intros a b r E. destruct (SMO a b r E) as ((c & cr & -> & T) & _). inversion_clear G as [|? ? (GP & _) _]. now rewrite eval_0.
  - intros r a b E. destruct ws as [|w1 [|w2 ws]]; [cbn in L2; lia..|]. destruct (SMO w1 w2 ws eq_refl) as (_ & _ & EA).
    destruct (EA r a b E) as (cr & c & -> & T). now rewrite (eval_last _ n).
  - destruct ws as [|w1 [|w2 ws]]; [cbn in L2; lia..|]. destruct (SMO w1 w2 ws eq_refl) as (_ & SM & _).
    apply (smooth_eval n); auto.
Qed.
