(** Planning with related functions gives related runs (used for C188: telling changes nothing). *)
From Verif Require Import Base Effect RrtModel RrtSpec RrtTellSpec.
Local Open Scope Z_scope.

Definition sim {W1 W2 A} (R : W1 -> W2 -> Prop) (m : eff W1 A) (m' : eff W2 A) : Prop :=
  forall s s', R s s' -> fst (m s) = fst (m' s') /\ R (snd (m s)) (snd (m' s')).
Definition also {T W1 W2} (R : W1 -> W2 -> Prop) (s : T * W1) (s' : T * W2) : Prop := fst s = fst s' /\ R (snd s) (snd s').
Definition osim {W1 W2 A B} (R : W1 -> W2 -> Prop) (f : option (A -> eff W1 B)) (f' : option (A -> eff W2 B)) : Prop :=
  match f, f' with Some f, Some f' => forall a, sim R (f a) (f' a) | None, None => True | _, _ => False end.

Section Sim.
Context {W1 W2 : Type} (R : W1 -> W2 -> Prop).
Lemma sim_ret {A} (a : A) : sim R (ret a) (ret a). Proof. intros s s' H. split; [reflexivity|exact H]. Qed.
Lemma sim_lift {A} (a : outcome A) : sim R (lift a) (lift a). Proof. intros s s' H. split; [reflexivity|exact H]. Qed.
Lemma sim_bind {A B} (m : eff W1 A) m' (f : A -> eff W1 B) f' : sim R m m' -> (forall a, sim R (f a) (f' a)) -> sim R (ebind m f) (ebind m' f').
Proof.
  intros Hm Hf s s' H. destruct (Hm s s' H) as [E H']. unfold ebind. destruct (m s) as [o u], (m' s') as [o' u']. cbn [fst snd] in *. subst o'.
  destruct o; try (split; [reflexivity|exact H']). exact (Hf a u u' H').
Qed.
Lemma sim_call {A B} (f : option (A -> eff W1 B)) f' a : osim R f f' -> sim R (call f a) (call f' a).
Proof. destruct f, f'; cbn; try contradiction; [intros H; apply H|intros _; apply sim_lift]. Qed.
Context {T : Type}.
Lemma sim_on_snd {A} (m : eff W1 A) m' : sim R m m' -> sim (also (T := T) R) (on_snd m) (on_snd m').
Proof.
  intros Hm [t w] [t' w'] [E H]. cbn [fst snd] in *. subst t'. unfold on_snd. cbn [fst snd]. destruct (Hm w w' H) as [E' H'].
  destruct (m w), (m' w'). cbn [fst snd] in *. split; [exact E'|split; [reflexivity|exact H']].
Qed.
Lemma sim_on_fst {A} (m : eff T A) : sim (also R) (on_fst m) (on_fst m).
Proof.
  intros [t w] [t' w'] [E H]. cbn [fst snd] in *. subst t'. unfold on_fst. cbn [fst snd]. destruct (m t). split; [reflexivity|split; [reflexivity|exact H]].
Qed.
End Sim.

Section Rrt.
Context {S Sample W1 W2 : Type} (R : W1 -> W2 -> Prop).
Notation RT := (also (T := rrt_tree S) R).
Definition related (cb : rrt_callbacks S Sample W1) (cb' : rrt_callbacks S Sample W2) : Prop :=
  sim R (sampling_fn cb) (sampling_fn cb') /\
  (forall t s, sim R (nearest_neighbor_fn cb t s) (nearest_neighbor_fn cb' t s)) /\
  (forall s x, sim R (forward_propagation_fn cb s x) (forward_propagation_fn cb' s x)) /\
  osim RT (state_added_callback_fn cb) (state_added_callback_fn cb') /\
  (forall s, sim R (check_goal_reached_fn cb s) (check_goal_reached_fn cb' s)) /\
  osim RT (goal_reached_callback_fn cb) (goal_reached_callback_fn cb') /\
  (forall n, sim R (termination_check_fn cb n) (termination_check_fn cb' n)).
Variables (cb : rrt_callbacks S Sample W1) (cb' : rrt_callbacks S Sample W2).
Hypothesis H : related cb cb'.
Lemma sim_tree : sim RT the_tree the_tree.
Proof. intros [t w] [t' w'] [E G]. cbn in *. subst. split; [reflexivity|split; [reflexivity|exact G]]. Qed.
Ltac go := repeat first [apply sim_ret|apply sim_lift|apply sim_tree|apply sim_on_fst|(apply sim_bind; [|intros ?])|apply sim_on_snd|apply sim_call].
Lemma initial_goals_sim : forall fuel idx goals, sim RT (initial_goals cb fuel idx goals) (initial_goals cb' fuel idx goals).
Proof.
  destruct H as (H1 & H2 & H3 & H4 & H5 & H6 & H7). induction fuel as [|fuel IH]; intros; cbn [initial_goals]; go.
  - destruct (idx <? TreeSize a); go.
  - destruct (idx <? TreeSize a); go; [apply H5|]. destruct a1; go; auto.
Qed.
Lemma add_propagated_sim nearest : forall props mapping goals, sim RT (add_propagated cb nearest mapping props goals) (add_propagated cb' nearest mapping props goals).
Proof.
  destruct H as (H1 & H2 & H3 & H4 & H5 & H6 & H7). induction props as [|[c r] props IH]; intros; cbn [add_propagated]; go.
  - destruct (0 <=? r); go.
  - destruct (state_added_callback_fn cb), (state_added_callback_fn cb'); cbn in H4; try contradiction; [apply H4|go].
  - apply H5.
  - destruct a4; go; [|apply IH|apply IH]. destruct (goal_reached_callback_fn cb), (goal_reached_callback_fn cb'); cbn in H6; try contradiction; [apply H6|go].
Qed.
Lemma rrt_loop_sim : forall fuel c goals, sim RT (rrt_loop cb fuel c goals) (rrt_loop cb' fuel c goals).
Proof.
  pose proof H as (H1 & H2 & H3 & H4 & H5 & H6 & H7). induction fuel as [|fuel IH]; intros; cbn [rrt_loop]; go; try apply H7.
  - destruct a0; go.
  - destruct a0; go; [|destruct a0; apply IH]. destruct c as [[total succ] fail]. unfold rrt_iteration. go; [exact H1|apply H2|apply H3|].
    destruct a4; go. apply add_propagated_sim.
Qed.
Lemma multi_sim fuel : sim RT (RRTPlanMultiPath cb fuel) (RRTPlanMultiPath cb' fuel).
Proof.
  unfold RRTPlanMultiPath. go. destruct (length a =? 0)%nat; go; [apply initial_goals_sim|apply rrt_loop_sim|]. destruct a1 as [[[total succ] fail] goals]. go.
Qed.
End Rrt.

(** ** Single path *)
Definition flagged {W1 W2} (R : W1 -> W2 -> Prop) (s : W1 * bool) (s' : W2 * bool) : Prop := R (fst s) (fst s') /\ snd s = snd s'.
Lemma flag_on_fst {W1 W2 A} (R : W1 -> W2 -> Prop) (m : eff W1 A) m' : sim R m m' -> sim (flagged R) (on_fst m) (on_fst m').
Proof.
  intros Hm [w b] [w' b'] [E H]. cbn [fst snd] in *. subst b'. unfold on_fst. cbn [fst snd]. destruct (Hm w w' E) as [E' H'].
  destruct (m w), (m' w'). cbn [fst snd] in *. split; [exact E'|split; [exact H'|reflexivity]].
Qed.
Lemma flag_beside {T W1 W2 A} (R : W1 -> W2 -> Prop) (m : eff (T * W1) A) m' : sim (also R) m m' -> sim (also (flagged R)) (beside m) (beside m').
Proof.
  intros Hm [t [w b]] [t' [w' b']] [E [H F]]. cbn [fst snd] in *. subst t' b'. unfold beside. destruct (Hm (t, w) (t, w') (conj eq_refl H)) as [E' [G H']].
  destruct (m (t, w)) as [o [u v]], (m' (t, w')) as [o' [u' v']]. cbn [fst snd] in *. split; [exact E'|split; [exact G|split; [exact H'|reflexivity]]].
Qed.
Lemma flag_get {W1 W2} (R : W1 -> W2 -> Prop) : sim (flagged R) (on_snd get) (on_snd get).
Proof. intros [w b] [w' b'] [E H]. cbn [fst snd] in *. subst. split; [reflexivity|split; [exact E|reflexivity]]. Qed.
Lemma flag_put {T W1 W2} (R : W1 -> W2 -> Prop) x : sim (also (T := T) (flagged R)) (on_snd (on_snd (put x))) (on_snd (on_snd (put x))).
Proof. intros [t [w b]] [t' [w' b']] [E [H F]]. cbn [fst snd] in *. subst. split; [reflexivity|split; [reflexivity|split; [exact H|reflexivity]]]. Qed.
Lemma single_related {S Sample W1 W2} (R : W1 -> W2 -> Prop) (cb : rrt_callbacks S Sample W1) cb' :
  related R cb cb' -> related (flagged R) (single_callbacks cb) (single_callbacks cb').
Proof.
  intros (H1 & H2 & H3 & H4 & H5 & H6 & H7). unfold related. cbn.
  split; [now apply flag_on_fst|]. split; [intros; now apply flag_on_fst|]. split; [intros; now apply flag_on_fst|].
  split. { destruct (state_added_callback_fn cb), (state_added_callback_fn cb'); cbn in *; try contradiction; auto. intros a. now apply flag_beside. }
  split; [intros; now apply flag_on_fst|]. split.
  - intros a. apply sim_bind; [apply flag_put|intros _]. destruct (goal_reached_callback_fn cb), (goal_reached_callback_fn cb'); cbn in *; try contradiction; [now apply flag_beside|apply sim_ret].
  - intros n. apply sim_bind; [apply flag_get|]. intros [|]; [apply sim_ret|now apply flag_on_fst].
Qed.
Lemma single_sim {S Sample W1 W2} (R : W1 -> W2 -> Prop) (cb : rrt_callbacks S Sample W1) cb' fuel :
  related R cb cb' -> sim (also R) (RRTPlanSinglePath cb fuel) (RRTPlanSinglePath cb' fuel).
Proof.
  intros H [t w] [t' w'] [E G]. cbn [fst snd] in *. subst t'. unfold RRTPlanSinglePath. cbn [fst snd].
  destruct (multi_sim _ _ _ (single_related _ _ _ H) fuel (t, (w, false)) (t, (w', false)) (conj eq_refl (conj G eq_refl))) as [E1 [E2 [E3 E4]]].
  destruct (RRTPlanMultiPath (single_callbacks cb) fuel (t, (w, false))) as [o [u [v x]]], (RRTPlanMultiPath (single_callbacks cb') fuel (t, (w', false))) as [o' [u' [v' x']]].
  cbn [fst snd] in *. subst. split; [reflexivity|split; [reflexivity|exact E3]].
Qed.

(** ** Two trees *)
Section Bi.
Context {S W1 W2 : Type} (R : W1 -> W2 -> Prop).
Notation RT := (also (T := rrt_tree S) R).
Notation RTT := (also (T := rrt_tree S * rrt_tree S) R).
Definition bi_related (cb : birrt_callbacks S W1) (cb' : birrt_callbacks S W2) : Prop :=
  (forall st gt a, sim R (select_sample_type_fn cb st gt a) (select_sample_type_fn cb' st gt a)) /\
  sim R (state_sampling_fn cb) (state_sampling_fn cb') /\
  (forall t a, sim R (tree_sampling_fn cb t a) (tree_sampling_fn cb' t a)) /\
  (forall t s a, sim R (bi_nearest_neighbor_fn cb t s a) (bi_nearest_neighbor_fn cb' t s a)) /\
  (forall s x a, sim R (propagation_fn cb s x a) (propagation_fn cb' s x a)) /\
  osim RT (bi_state_added_callback_fn cb) (bi_state_added_callback_fn cb') /\
  (forall s g a, sim R (states_connected_fn cb s g a) (states_connected_fn cb' s g a)) /\
  osim RTT (goal_bridge_callback_fn cb) (goal_bridge_callback_fn cb') /\
  (forall st gt a, sim R (select_active_tree_fn cb st gt a) (select_active_tree_fn cb' st gt a)) /\
  (forall n m, sim R (bi_termination_check_fn cb n m) (bi_termination_check_fn cb' n m)).
Variables (cb : birrt_callbacks S W1) (cb' : birrt_callbacks S W2).
Hypothesis H : bi_related cb cb'.
Lemma sim_start : sim RTT start_tree start_tree.
Proof. intros [t w] [t' w'] [E G]. cbn in *. subst. split; [reflexivity|split; [reflexivity|exact G]]. Qed.
Lemma sim_goal : sim RTT goal_tree goal_tree.
Proof. intros [t w] [t' w'] [E G]. cbn in *. subst. split; [reflexivity|split; [reflexivity|exact G]]. Qed.
Lemma sim_active {A} a (m : eff (rrt_tree S * W1) A) m' : sim RT m m' -> sim RTT (on_active a m) (on_active a m').
Proof.
  intros Hm [[st gt] w] [t' w'] [E G]. cbn [fst snd] in *. subst t'. unfold on_active. destruct a.
  - destruct (Hm (st, w) (st, w') (conj eq_refl G)) as [E' [F H']]. destruct (m (st, w)) as [o [u v]], (m' (st, w')) as [o' [u' v']]. cbn [fst snd] in *. subst. split; [reflexivity|split; [reflexivity|exact H']].
  - destruct (Hm (gt, w) (gt, w') (conj eq_refl G)) as [E' [F H']]. destruct (m (gt, w)) as [o [u v]], (m' (gt, w')) as [o' [u' v']]. cbn [fst snd] in *. subst. split; [reflexivity|split; [reflexivity|exact H']].
Qed.
Ltac go := repeat first [apply sim_ret|apply sim_lift|apply sim_start|apply sim_goal|apply sim_on_fst|(apply sim_bind; [|intros ?])|apply sim_on_snd|apply sim_call|apply sim_active].
Lemma initial_bridges_inner_sim si : forall fuel gi bridges, sim RTT (initial_bridges_inner cb fuel si gi bridges) (initial_bridges_inner cb' fuel si gi bridges).
Proof.
  destruct H as (H1 & H2 & H3 & H4 & H5 & H6 & H7 & H8 & H9 & HA). induction fuel as [|fuel IH]; intros; cbn [initial_bridges_inner]; go.
  - destruct (gi <? TreeSize a); go.
  - destruct (gi <? TreeSize a); go; [apply H7|]. destruct a3; go; auto.
Qed.
Lemma initial_bridges_sim : forall fuel si bridges, sim RTT (initial_bridges cb fuel si bridges) (initial_bridges cb' fuel si bridges).
Proof.
  induction fuel as [|fuel IH]; intros; cbn [initial_bridges]; go.
  - destruct (si <? TreeSize a); go.
  - destruct (si <? TreeSize a); go; [apply initial_bridges_inner_sim|auto].
Qed.
Lemma add_bi_propagated_sim a target nearest : forall props mapping bridges,
  sim RTT (add_bi_propagated cb a target nearest mapping props bridges) (add_bi_propagated cb' a target nearest mapping props bridges).
Proof.
  destruct H as (H1 & H2 & H3 & H4 & H5 & H6 & H7 & H8 & H9 & HA). induction props as [|[c r] props IH]; intros; cbn [add_bi_propagated]; go.
  - destruct (0 <=? r); go.
  - destruct (bi_state_added_callback_fn cb), (bi_state_added_callback_fn cb'); cbn in H6; try contradiction; [apply sim_active, H6|go].
  - destruct target as [[ti ts]|]; [|apply IH]. go.
    + destruct a; go.
    + apply H7.
    + destruct a5; go; [|destruct (goal_bridge_callback_fn cb), (goal_bridge_callback_fn cb'); cbn in H8; try contradiction; [apply H8|go]|apply IH|apply IH]. destruct a; go.
Qed.
Lemma birrt_loop_sim : forall fuel a c bridges, sim RTT (birrt_loop cb fuel a c bridges) (birrt_loop cb' fuel a c bridges).
Proof.
  pose proof H as (H1 & H2 & H3 & H4 & H5 & H6 & H7 & H8 & H9 & HA). induction fuel as [|fuel IH]; intros; cbn [birrt_loop]; go; try apply HA.
  - destruct a2; go.
  - destruct a2; go; [|destruct a2 as [[? ?] ?]; apply IH]. destruct c as [si gi total succ fail swaps states sols]. unfold birrt_iteration. go; [apply H1| | ].
    + destruct a4; go; [destruct a; go|apply H3|exact H2].
    + destruct a5 as [ts target]. go; [destruct a; go|apply H4|apply H5| |].
      * destruct a8; go. apply add_bi_propagated_sim.
      * destruct a9 as [[? ?] ?]. go. apply H9.
Qed.
Lemma bi_multi_sim fuel : sim RTT (BiRRTPlanMultiPath cb fuel) (BiRRTPlanMultiPath cb' fuel).
Proof.
  unfold BiRRTPlanMultiPath. go. destruct (length a =? 0)%nat; go. destruct (length a0 =? 0)%nat; go; [apply initial_bridges_sim|apply birrt_loop_sim|].
  destruct a2 as [c bridges]. go.
Qed.
End Bi.
Lemma bi_single_related {S W1 W2} (R : W1 -> W2 -> Prop) (cb : birrt_callbacks S W1) cb' :
  bi_related R cb cb' -> bi_related (flagged R) (bi_single_callbacks cb) (bi_single_callbacks cb').
Proof.
  intros (H1 & H2 & H3 & H4 & H5 & H6 & H7 & H8 & H9 & HA). unfold bi_related. cbn.
  split; [intros; now apply flag_on_fst|]. split; [intros; now apply flag_on_fst|]. split; [intros; now apply flag_on_fst|]. split; [intros; now apply flag_on_fst|]. split; [intros; now apply flag_on_fst|].
  split. { destruct (bi_state_added_callback_fn cb), (bi_state_added_callback_fn cb'); cbn in *; try contradiction; auto. intros a. now apply flag_beside. }
  split; [intros; now apply flag_on_fst|]. split.
  { intros a. apply sim_bind; [apply flag_put|intros _]. destruct (goal_bridge_callback_fn cb), (goal_bridge_callback_fn cb'); cbn in *; try contradiction; [now apply flag_beside|apply sim_ret]. }
  split; [intros; now apply flag_on_fst|].
  intros n m. apply sim_bind; [apply flag_get|]. intros [|]; [apply sim_ret|now apply flag_on_fst].
Qed.
Lemma bi_single_sim {S W1 W2} (R : W1 -> W2 -> Prop) (cb : birrt_callbacks S W1) cb' fuel :
  bi_related R cb cb' -> sim (also R) (BiRRTPlanSinglePath cb fuel) (BiRRTPlanSinglePath cb' fuel).
Proof.
  intros H [t w] [t' w'] [E G]. cbn [fst snd] in *. subst t'. unfold BiRRTPlanSinglePath. cbn [fst snd].
  destruct (bi_multi_sim _ _ _ (bi_single_related _ _ _ H) fuel (t, (w, false)) (t, (w', false)) (conj eq_refl (conj G eq_refl))) as [E1 [E2 [E3 E4]]].
  destruct (BiRRTPlanMultiPath (bi_single_callbacks cb) fuel (t, (w, false))) as [o [u [v x]]], (BiRRTPlanMultiPath (bi_single_callbacks cb') fuel (t, (w', false))) as [o' [u' [v' x']]].
  cbn [fst snd] in *. subst. split; [reflexivity|split; [reflexivity|exact E3]].
Qed.

(** ** Telling *)
Definition logs {W L} (s : W * L) (s' : W) : Prop := fst s = s'.
Lemma logs_on_fst {W L A} (m : eff W A) : sim (logs (L := L)) (on_fst m) m.
Proof. intros [w l] w' E. unfold logs in E. cbn in E. subst w'. unfold on_fst. cbn [fst snd]. destruct (m w). split; reflexivity. Qed.
Lemma logs_reporting {T W E} (e : E) (f : eff (T * W) unit) : sim (also (logs (L := list E))) (reporting e f) f.
Proof.
  intros [t [w l]] [t' w'] [E1 E2]. unfold logs in E2. cbn in E1, E2. subst. unfold reporting, report_to, ebind, on_snd, get, put, beside. cbn [fst snd].
  destruct (f (t', w')) as [o [u v]]. cbn. repeat split; reflexivity.
Qed.
Lemma telling_related {S Sample W} (cb : rrt_callbacks S Sample W) : related logs (telling cb) cb.
Proof.
  unfold related. cbn. split; [intros; apply logs_on_fst|]. split; [intros; apply logs_on_fst|]. split; [intros; apply logs_on_fst|]. split; [destruct (state_added_callback_fn cb); cbn; [intros a; apply logs_reporting|exact I]|].
  split; [intros; apply logs_on_fst|]. split; [destruct (goal_reached_callback_fn cb); cbn; [intros a; apply logs_reporting|exact I]|]. intros. apply logs_on_fst.
Qed.
Lemma bi_telling_related {S W} (cb : birrt_callbacks S W) : bi_related logs (bi_telling cb) cb.
Proof.
  unfold bi_related. cbn. split; [intros; apply logs_on_fst|]. split; [intros; apply logs_on_fst|]. split; [intros; apply logs_on_fst|]. split; [intros; apply logs_on_fst|]. split; [intros; apply logs_on_fst|]. split; [destruct (bi_state_added_callback_fn cb); cbn; [intros a; apply logs_reporting|exact I]|].
  split; [intros; apply logs_on_fst|]. split; [destruct (goal_bridge_callback_fn cb); cbn; [intros a; apply logs_reporting|exact I]|]. split; [intros; apply logs_on_fst|]. intros. apply logs_on_fst.
Qed.
(** The run that is told of is the run that would have happened: any outcome, any final state. *)
Lemma same_run {T W L A} (m : eff (T * (W * L)) A) (m' : eff (T * W) A) t w l r t' w' l' :
  sim (also logs) m m' -> m (t, (w, l)) = (r, (t', (w', l'))) -> m' (t, w) = (r, (t', w')).
Proof.
  intros H E. destruct (H (t, (w, l)) (t, w) (conj eq_refl eq_refl)) as [E1 [E2 E3]]. rewrite E in *. unfold logs in E3. cbn [fst snd] in *. subst.
  destruct (m' (t, w)) as [o [u v]]. reflexivity.
Qed.
