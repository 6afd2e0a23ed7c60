(** Sampled velocities as derivatives, for steps in any order. *)
From Coq Require Import Reals Lra Psatz List Bool Lia.
From Coquelicot Require Import Coquelicot.
From Flocq Require Import Core.
From Verif Require Import Base MathModel MathReal MathLinModel MathVec MathLinProof TotpModel TotpSpec TotpProof TotpQuery TotpScalar TotpRealSpec TotpReal TotpLimits TotpArc TotpPathSpec TotpPath TotpBlend TotpChain TotpPoly TotpGeometry TotpMotionSpec TotpSample.
Local Open Scope R_scope.

Notation timed3 := (fun x : R * R * R => mkTimed (XFin (fst (fst x))) (XFin (snd (fst x))) (XFin (snd x))).
Lemma back_of (l : list (R * R * R)) : l <> [] -> exists r, rev (map timed3 l) = timed3 (last l (0, 0, 0)) :: r.
Proof.
  intros N. destruct (exists_last N) as (r & x & ->). rewrite last_last, map_app, rev_app_distr. cbn [map rev app]. eauto.
Qed.
Lemma position_walk t : forall (l : list (@timed xr)) x r, Forall (fun y => xleb (t_time y) (XFin t) = true) l -> xleb (t_time x) (XFin t) = false ->
  position xa (l ++ x :: r) (XFin t) = length l.
Proof.
  induction l as [|y l IH]; intros x r HL Hx; cbn [app position length]; change (aleb xa) with xleb.
  - now rewrite Hx.
  - inversion HL; subst. rewrite H1. f_equal. now apply IH.
Qed.
Lemma leg_place tr l t g : steps_are tr l -> leg_at l t g -> exists before after,
  tr_steps tr = before ++ timed_of (l_p0 g) (l_v0 g) (l_t0 g) :: timed_of (l_p1 g) (l_v1 g) (l_t1 g) :: after /\
  place xa tr (XFin t) = S (length before).
Proof.
  intros E (before & after & EL & H). exists (map timed3 before), (map timed3 after).
  assert (ES : tr_steps tr = map timed3 before ++ timed_of (l_p0 g) (l_v0 g) (l_t0 g) :: timed_of (l_p1 g) (l_v1 g) (l_t1 g) :: map timed3 after).
  { rewrite E, EL, map_app. reflexivity. }
  split; [exact ES|]. unfold place. destruct (back_of l) as (r & R); [rewrite EL; now destruct before|].
  unfold steps_are in E. rewrite E at 1. rewrite R. cbn [t_time]. change (aleb xa) with xleb. unfold step_time in H.
  destruct H as [(D & EA)|(D & T1 & F)].
  - rewrite (proj2 (xleb_le _ _)) by exact D. rewrite ES, EA, app_length. cbn. lia.
  - rewrite (proj2 (xleb_gt _ _)) by exact D. rewrite ES. change (?b ++ ?a :: ?c :: ?d) with (b ++ [a] ++ c :: d). rewrite app_assoc, position_walk.
    + rewrite app_length. cbn. lia.
    + apply Forall_app in F as (F1 & F2). apply Forall_app. split.
      * apply Forall_map. eapply Forall_impl; [|exact F1]. intros x. cbn. now intros ?%xleb_le.
      * repeat constructor. cbn. apply xleb_le. inversion F2; assumption.
    + cbn. now apply xleb_gt.
Qed.
Lemma answer_at tr l cs g t : built xa tr -> steps_are tr l -> leg_at l t g -> traces (tr_path tr) cs ->
  l_t0 g <> l_t1 g -> 0 <= t < big -> 0 <= leg_position g t <= total cs ->
  sampled tr t (eval cu_q cs (leg_position g t)) (vscale (leg_velocity g t) (eval cu_t cs (leg_position g t))).
Proof.
  intros B ES HL TR L HB S. destruct (leg_place tr l t g ES HL) as (before & after & E & P).
  unfold sampled. change xarith with xa. rewrite xfirst by (auto; apply ordinary_fin; lra).
  unfold spec_answer. rewrite P. unfold raw_get.
  rewrite E at 1. rewrite nth_error_app2 by lia. replace (Datatypes.S (length before) - length before)%nat with 1%nat by lia. cbn [nth_error bind].
  rewrite E at 1. rewrite nth_error_app2, Nat.sub_diag by lia. cbn [nth_error bind].
  rewrite (sample_leg (tr_path tr) cs TR g t L S). reflexivity.
Qed.
(** The leg does not change near a time at which no step is. *)
Lemma gap (l : list R) t : ~ In t l -> exists d, 0 < d /\ forall u x, Rabs (u - t) < d -> In x l -> (x <= t -> x <= u) /\ (t < x -> u < x).
Proof.
  induction l as [|y l IH]; intros N.
  - exists 1. split; [lra|]. intros u x _ [].
  - destruct IH as (d & Hd & H); [intros K; apply N; now right|].
    assert (Y : y <> t) by (intros ->; apply N; now left).
    exists (Rmin d (Rabs (y - t))). split; [apply Rmin_glb_lt; [exact Hd|apply Rabs_pos_lt; lra]|].
    intros u x HU [<-|I].
    + assert (K : Rabs (u - t) < Rabs (y - t)) by (eapply Rlt_le_trans; [exact HU|apply Rmin_r]).
      unfold Rabs in K. destruct (Rcase_abs (u - t)), (Rcase_abs (y - t)); split; intros; lra.
    + apply H; [|exact I]. eapply Rlt_le_trans; [exact HU|apply Rmin_l].
Qed.
Lemma leg_at_near l t g : ~ In t (map step_time l) -> leg_at l t g -> exists d, 0 < d /\ forall u, Rabs (u - t) < d -> leg_at l u g.
Proof.
  intros N (before & after & EL & H). destruct (gap _ t N) as (d & Hd & G). exists d. split; [exact Hd|].
  assert (IL : In (last l (0, 0, 0)) l). { destruct (exists_last (l := l)) as (r & x & ->); [rewrite EL; now destruct before|]. rewrite last_last. apply in_app_iff. right. now left. }
  intros u U. exists before, after. split; [exact EL|]. cbv zeta in *.
  assert (GE : forall x, In x l -> (step_time x <= t -> step_time x <= u) /\ (t < step_time x -> u < step_time x)).
  { intros x I. apply G; [exact U|]. now apply in_map. }
  destruct H as [(D & EA)|(D & T1 & F)]; [left|right].
  - split; [now apply GE|exact EA].
  - split; [now apply GE|]. split.
    + apply (GE (l_p1 g, l_v1 g, l_t1 g)); [|exact T1]. rewrite EL. apply in_app_iff. right. right. now left.
    + rewrite Forall_forall in *. intros x I. apply GE; [|now apply F]. rewrite EL. change (?b ++ ?a :: ?c :: ?d) with (b ++ [a] ++ c :: d). rewrite app_assoc. apply in_app_iff. now left.
Qed.
(** There is always one. *)
Lemma leg_exists (l : list (R * R * R)) t : (2 <= length l)%nat -> step_time (hd (0, 0, 0) l) <= t -> exists g, leg_at l t g.
Proof.
  intros L2 H0. destruct (Rle_lt_dec (step_time (last l (0, 0, 0))) t) as [D|D].
  - destruct (exists_last (l := l)) as (r & y & E); [now destruct l|]. destruct (exists_last (l := r)) as (r' & x & E').
    { intros ->. rewrite E in L2. cbn in L2. lia. }
    exists (mkLeg (fst (fst x)) (snd (fst x)) (snd x) (fst (fst y)) (snd (fst y)) (snd y)). exists r', []. cbn [l_p0 l_v0 l_t0 l_p1 l_v1 l_t1].
    destruct x as [[x1 x2] x3], y as [[y1 y2] y3]. cbn [fst snd]. split; [rewrite E, E', <- app_assoc; reflexivity|]. left. auto.
  - assert (S : forall l, l <> [] -> step_time (hd (0, 0, 0) l) <= t -> t < step_time (last l (0, 0, 0)) ->
      exists before x y after, l = before ++ x :: y :: after /\ Forall (fun z => step_time z <= t) (before ++ [x]) /\ t < step_time y).
    { clear. induction l as [|x l IH]; intros N H0 D; [congruence|]. destruct l as [|y l]; [cbn in *; lra|].
      destruct (Rle_lt_dec (step_time y) t) as [K|K].
      - destruct (IH ltac:(discriminate) K) as (b & x' & y' & a & E & F & Y); [exact D|]. exists (x :: b), x', y', a. rewrite E. split; [reflexivity|]. split; [|exact Y].
        cbn [app]. constructor; [exact H0|exact F].
      - exists [], x, y, l. split; [reflexivity|]. split; [cbn [app]; constructor; [exact H0|constructor]|exact K]. }
    destruct (S l) as (b & x & y & a & E & F & Y); auto; [now destruct l|].
    exists (mkLeg (fst (fst x)) (snd (fst x)) (snd x) (fst (fst y)) (snd (fst y)) (snd y)). exists b, a. cbn [l_p0 l_v0 l_t0 l_p1 l_v1 l_t1].
    destruct x as [[x1 x2] x3], y as [[y1 y2] y3]. cbn [fst snd]. split; [exact E|]. right. auto.
Qed.

Lemma derivative_at n tr l cs g t : built xa tr -> steps_are tr l -> leg_at l t g -> traces (tr_path tr) cs -> cs <> [] -> Forall (good n) cs ->
  ~ In t (map step_time l) -> l_t0 g <> l_t1 g -> 0 < t < big -> 0 < leg_position g t < total cs ->
  (forall k, (k < length cs)%nat -> leg_position g t <> total (firstn k cs)) ->
  exists d, 0 < d /\ (forall u, Rabs (u - t) < d -> exists q v, sampled tr u q v) /\
  forall Q V, (forall u, Rabs (u - t) < d -> sampled tr u (Q u) (V u)) ->
  forall i, derivable_pt_lim (fun u => nth i (Q u) 0) t (nth i (V t) 0).
Proof.
  intros B ES HL TR N G NS L HB S J.
  destruct (leg_at_near l t g NS HL) as (d1 & Hd1 & NR).
  assert (CT : exists d, 0 < d /\ forall u, Rabs (u - t) < d -> 0 <= leg_position g u <= total cs).
  { assert (CO : continuity_pt (leg_position g) t) by (apply derivable_continuous_pt; eexists; apply leg_lim).
    destruct (CO (Rmin (leg_position g t) (total cs - leg_position g t))) as (d & Hd & HD); [apply Rmin_glb_lt; lra|].
    exists d. split; [exact Hd|]. intros u Hu. destruct (Req_dec t u) as [<-|NE]; [lra|].
    assert (K : Rabs (leg_position g u - leg_position g t) < Rmin (leg_position g t) (total cs - leg_position g t)).
    { apply HD. split; [split; [exact I|exact NE]|exact Hu]. }
    pose proof (Rmin_l (leg_position g t) (total cs - leg_position g t)). pose proof (Rmin_r (leg_position g t) (total cs - leg_position g t)).
    apply Rabs_def2 in K. lra. }
  destruct CT as (d2 & Hd2 & CT).
  set (d' := Rmin d1 (Rmin d2 (Rmin t (big - t)))).
  assert (D' : 0 < d') by (unfold d'; repeat apply Rmin_glb_lt; lra).
  assert (A : forall u, Rabs (u - t) < d' -> sampled tr u (eval cu_q cs (leg_position g u)) (vscale (leg_velocity g u) (eval cu_t cs (leg_position g u)))).
  { intros u Hu. unfold d' in Hu. repeat (apply Rmin_Rgt_l in Hu as (? & Hu)).
    apply (answer_at tr l cs g u); auto. apply Rabs_def2 in Hu, H1. lra. }
  exists d'. split; [exact D'|]. split; [intros u Hu; do 2 eexists; now apply A|].
  intros Q V HQ i.
  assert (ED : derivable_pt_lim (fun s => nth i (eval cu_q cs s) 0) (leg_position g t) (nth i (eval cu_t cs (leg_position g t)) 0)).
  { apply (eval_derivative n); auto. eapply Forall_impl; [|exact G]. intros c (_ & _ & _ & _ & D & _). exact D. }
  pose proof (derivable_pt_lim_comp _ _ _ _ _ (leg_lim g t) ED) as C.
  assert (T0 : Rabs (t - t) < d') by (replace (t - t) with 0 by ring; rewrite Rabs_R0; exact D').
  assert (VT : nth i (V t) 0 = nth i (eval cu_t cs (leg_position g t)) 0 * leg_velocity g t).
  { destruct (sampled_fun tr t _ _ _ _ (HQ t T0) (A t T0)) as (_ & ->). rewrite nth_vscale. ring. }
  rewrite VT.
  apply (lim_local (fun u => nth i (eval cu_q cs (leg_position g u)) 0) _ t _ d' D'); [|exact C].
  intros u Hu. destruct (sampled_fun tr u _ _ _ _ (HQ u Hu) (A u Hu)) as (-> & _). reflexivity.
Qed.
(** At time zero. *)
Lemma first_at n ws tr l cs g : built xa tr -> steps_are tr l -> 0 < step_time (last l (0, 0, 0)) -> first_leg tr g ->
  traces (tr_path tr) cs -> cs <> [] -> Forall (good n) cs -> eval cu_q cs 0 = hd [] ws -> (forall s, length (eval cu_t cs s) = n) ->
  sampled tr 0 (hd [] ws) (repeat 0 n).
Proof.
  intros B ES D (L & after & E) TR N G E0 LT. pose proof B as [_ F _]. rewrite E in F. injection F as P0 V0 T0.
  assert (P0' : l_p0 g = 0) by exact P0. assert (V0' : l_v0 g = 0) by exact V0. assert (T0' : l_t0 g = 0) by exact T0.
  assert (PS : leg_position g 0 = 0) by (unfold leg_position; rewrite P0', V0', T0'; ring).
  assert (VS : leg_velocity g 0 = 0) by (unfold leg_velocity; rewrite V0', T0'; ring).
  pose proof (total_nonneg n cs G).
  assert (LA : leg_at l 0 g).
  { unfold steps_are in ES. rewrite E in ES. destruct l as [|[[x1 x2] x3] [|[[y1 y2] y3] l]]; try discriminate. cbn [map fst snd] in ES.
    injection ES as <- <- <- <- <- <- _. exists [], l. split; [reflexivity|]. right. split; [exact D|]. split; [lra|]. cbn. constructor; [cbn; lra|constructor]. }
  pose proof (answer_at tr l cs g 0 B ES LA TR ltac:(lra)) as A. rewrite PS, VS, E0 in A.
  replace (repeat 0 n) with (vscale 0 (eval cu_t cs 0)).
  - apply A; [split; [lra|unfold big; apply IZR_lt; reflexivity]|lra].
  - clear A. assert (LS := LT 0). unfold vscale. rewrite <- LS. generalize (eval cu_t cs 0). clear. induction l; cbn; [reflexivity|]. f_equal; [ring|assumption].
Qed.

(** The derivative of the sampled velocity. *)
Lemma velocity_lim g t : derivable_pt_lim (leg_velocity g) t (leg_acceleration g).
Proof. unfold leg_velocity. set (a := leg_acceleration g). apply is_derive_Reals. auto_derive; [trivial|]. ring. Qed.
Lemma acceleration_at n tr l cs g t : built xa tr -> steps_are tr l -> leg_at l t g -> traces (tr_path tr) cs -> cs <> [] -> Forall (good n) cs ->
  ~ In t (map step_time l) -> l_t0 g <> l_t1 g -> 0 < t < big -> 0 < leg_position g t < total cs ->
  (forall k, (k < length cs)%nat -> leg_position g t <> total (firstn k cs)) ->
  exists d q1 q2, 0 < d /\ GetTangent xa xextras (tr_path tr) (XFin (leg_position g t)) = Ok (fin q1) /\
  GetCurvature xa xextras (tr_path tr) (XFin (leg_position g t)) = Ok (fin q2) /\ (forall u, Rabs (u - t) < d -> exists q v, sampled tr u q v) /\
  forall Q V, (forall u, Rabs (u - t) < d -> sampled tr u (Q u) (V u)) ->
  forall i, (i < n)%nat -> derivable_pt_lim (fun u => nth i (V u) 0) t (nth i (joint_acceleration q1 q2 (leg_velocity g t) (leg_acceleration g)) 0).
Proof.
  intros B ES HL TR N G NS L HB S J.
  destruct (leg_at_near l t g NS HL) as (d1 & Hd1 & NR).
  assert (CT : exists d, 0 < d /\ forall u, Rabs (u - t) < d -> 0 <= leg_position g u <= total cs).
  { assert (CO : continuity_pt (leg_position g) t) by (apply derivable_continuous_pt; eexists; apply leg_lim).
    destruct (CO (Rmin (leg_position g t) (total cs - leg_position g t))) as (d & Hd & HD); [apply Rmin_glb_lt; lra|].
    exists d. split; [exact Hd|]. intros u Hu. destruct (Req_dec t u) as [<-|NE]; [lra|].
    assert (K : Rabs (leg_position g u - leg_position g t) < Rmin (leg_position g t) (total cs - leg_position g t)).
    { apply HD. split; [split; [exact I|exact NE]|exact Hu]. }
    pose proof (Rmin_l (leg_position g t) (total cs - leg_position g t)). pose proof (Rmin_r (leg_position g t) (total cs - leg_position g t)).
    apply Rabs_def2 in K. lra. }
  destruct CT as (d2 & Hd2 & CT).
  set (d' := Rmin d1 (Rmin d2 (Rmin t (big - t)))).
  assert (D' : 0 < d') by (unfold d'; repeat apply Rmin_glb_lt; lra).
  assert (A : forall u, Rabs (u - t) < d' -> sampled tr u (eval cu_q cs (leg_position g u)) (vscale (leg_velocity g u) (eval cu_t cs (leg_position g u)))).
  { intros u Hu. unfold d' in Hu. repeat (apply Rmin_Rgt_l in Hu as (? & Hu)).
    apply (answer_at tr l cs g u); auto. apply Rabs_def2 in Hu, H1. lra. }
  pose proof TR as (_ & TR'). destruct (TR' (leg_position g t) ltac:(lra)) as (_ & ET & EK).
  exists d', (eval cu_t cs (leg_position g t)), (eval cu_k cs (leg_position g t)). split; [exact D'|]. split; [exact ET|]. split; [exact EK|].
  split; [intros u Hu; do 2 eexists; now apply A|].
  intros Q V HQ i Hi.
  assert (ED : derivable_pt_lim (fun s => nth i (eval cu_t cs s) 0) (leg_position g t) (nth i (eval cu_k cs (leg_position g t)) 0)).
  { apply (eval_derivative n); auto. eapply Forall_impl; [|exact G]. intros c (_ & _ & _ & _ & _ & D). exact D. }
  pose proof (derivable_pt_lim_comp _ _ _ _ _ (leg_lim g t) ED) as C.
  pose proof (derivable_pt_lim_mult _ _ _ _ _ (velocity_lim g t) C) as M.
  assert (LT : length (eval cu_t cs (leg_position g t)) = n) by now apply eval_t_dim.
  assert (LK : length (eval cu_k cs (leg_position g t)) = n).
  { apply (eval_forall n (fun v => length v = n) cu_k cs N G); [|lra]. eapply Forall_impl; [|exact G]. intros c (_ & D & _). intros u _. apply D. }
  replace (nth i (joint_acceleration _ _ _ _) 0) with
    (leg_acceleration g * comp (fun s => nth i (eval cu_t cs s) 0) (leg_position g) t + leg_velocity g t * (nth i (eval cu_k cs (leg_position g t)) 0 * leg_velocity g t)).
  2: { unfold joint_acceleration, comp. rewrite nth_vadd by (unfold vscale; rewrite !map_length; lia). rewrite !nth_vscale. ring. }
  apply (lim_local (mult_fct (leg_velocity g) (comp (fun s => nth i (eval cu_t cs s) 0) (leg_position g))) _ t _ d' D'); [|exact M].
  intros u Hu. destruct (sampled_fun tr u _ _ _ _ (HQ u Hu) (A u Hu)) as (_ & ->). rewrite nth_vscale. reflexivity.
Qed.
