(** Proofs about RRT planning runs: record of calls, end of planning, one path
    per goal node (C43, C44). *)
From Verif Require Import Base Effect ParallelismModel ParallelismProof RrtModel RrtSpec RrtProof RrtPlan.
Local Open Scope Z_scope.

(** ** The record of a run *)
Section Log.
Context {S Sample W : Type}.
Notation tree := (list (rrt_node S)).
Notation world := (tree * W)%type.
Variable log : W -> list rrt_event.
Variable cb : rrt_callbacks S Sample W.
Hypothesis INS : instrumented log cb.
Definition any {A} : stop -> A -> Prop := fun _ _ => True.
Definition logged (L : list rrt_event) (s : world) : Prop := log (snd s) = L.

Lemma quiet_hoare {A} (m : eff W A) L : quiet log m -> hoare (logged L) (on_snd m) (fun _ => logged L) any.
Proof.
  intros Q [t w] H. unfold on_snd, logged, any in *. cbn [fst snd] in *. specialize (Q w).
  destruct (m w) as [[a|e| |] w']; cbn in *; try exact I; congruence.
Qed.
Lemma quiet_tree_hoare {A} (m : eff world A) L : quiet_tree log m -> hoare (logged L) m (fun _ => logged L) any.
Proof.
  intros Q s H. unfold logged, any in *. specialize (Q s).
  destruct (m s) as [[a|e| |] w']; cbn in *; try exact I; congruence.
Qed.
Lemma records_hoare {A} (m : eff W A) ev L : records log ev m ->
  hoare (logged L) (on_snd m) (fun a => logged (L ++ [ev a])) any.
Proof.
  intros Q [t w] H. unfold on_snd, logged, any in *. cbn [fst snd] in *. specialize (Q w).
  destruct (m w) as [[a|e| |] w']; cbn in *; try exact I. rewrite (Q a w' eq_refl). congruence.
Qed.
Lemma lift_hoare {A} (x : outcome A) (P : world -> Prop) : hoare P (lift x) (fun a s => x = Ok a /\ P s) any.
Proof. apply hoare_lift. intros s H. destruct x; try exact I. auto. Qed.
Lemma tree_logged L : hoare (logged L) (the_tree : eff world tree) (fun _ => logged L) any.
Proof. intros s H. exact H. Qed.
Lemma fst_logged {A} (m : eff tree A) L : hoare (logged L) (on_fst m) (fun _ => logged L) any.
Proof. intros [t w] H. unfold on_fst, any. cbn [fst snd]. destruct (m t) as [[a|e| |] t']; try exact I. exact H. Qed.

Lemma initial_logged L fuel : forall idx goals,
  hoare (logged L) (initial_goals cb fuel idx goals) (fun _ => logged L) any.
Proof.
  induction fuel as [|f IH]; intros idx goals; cbn [initial_goals];
    (eapply hoare_bind; [apply tree_logged|]; intros t; apply hoare_if; intros _; [|apply hoare_ret; auto]).
  { intros s H. exact I. }
  eapply hoare_bind; [apply lift_hoare|]. intros n. apply hoare_pure. intros _.
  eapply hoare_bind; [apply quiet_hoare, (ins_goal _ _ INS)|]. intros [|]; [|apply IH].
  eapply hoare_bind; [|intros ?; apply IH].
  destruct (goal_reached_callback_fn cb) as [g|] eqn:E; cbn [call].
  - apply quiet_tree_hoare. exact (ins_reached _ _ INS g idx E).
  - intros s H. exact I.
Qed.

Lemma propagated_logged L nearest props : forall mapping goals,
  hoare (logged L) (add_propagated cb nearest mapping props goals) (fun _ => logged L) any.
Proof.
  induction props as [|[c r] props IH]; intros mapping goals; cbn [add_propagated]; [apply hoare_ret; auto|].
  eapply hoare_bind with (Q := fun _ => logged L).
  { destruct (0 <=? r); [eapply hoare_post; [apply lift_hoare|intros a s [_ H]; exact H]|apply hoare_ret; auto]. }
  intros parent. eapply hoare_bind; [apply fst_logged|]. intros i. cbv zeta.
  eapply hoare_bind with (Q := fun _ => logged L).
  { destruct (state_added_callback_fn cb) as [g|] eqn:E; [|apply hoare_ret; auto].
    apply quiet_tree_hoare. exact (ins_added _ _ INS g i E). }
  intros ?. eapply hoare_bind; [apply tree_logged|]. intros t.
  eapply hoare_bind; [apply lift_hoare|]. intros n. apply hoare_pure. intros _.
  eapply hoare_bind; [apply quiet_hoare, (ins_goal _ _ INS)|]. intros [|]; [|apply IH].
  eapply hoare_bind; [|intros ?; apply IH].
  destruct (goal_reached_callback_fn cb) as [g|] eqn:E; [|apply hoare_ret; auto].
  apply quiet_tree_hoare. exact (ins_reached _ _ INS g i E).
Qed.

Lemma iteration_logged L c goals :
  hoare (logged L) (rrt_iteration cb c goals)
    (fun r s => fst (fst (fst r)) = fst (fst c) + 1 /\ logged (L ++ [Sampled]) s) any.
Proof.
  destruct c as [[total succ] fail]. unfold rrt_iteration.
  eapply hoare_bind; [apply (records_hoare _ (fun _ => Sampled)), (ins_sample _ _ INS)|]. intros x. cbv zeta beta.
  eapply hoare_bind; [apply tree_logged|]. intros t.
  eapply hoare_bind; [apply quiet_hoare, (ins_nearest _ _ INS)|]. intros i.
  eapply hoare_bind; [apply lift_hoare|]. intros n. apply hoare_pure. intros _.
  eapply hoare_bind; [apply quiet_hoare, (ins_prop _ _ INS)|]. intros [|p props].
  - apply hoare_ret. intros s H. auto.
  - eapply hoare_bind; [apply propagated_logged|]. intros g. apply hoare_ret. intros s H. auto.
Qed.

Definition round (n : Z) : list rrt_event := [Checked n false; Sampled].
Lemma loop_logged fuel : forall L c goals,
  hoare (logged L) (rrt_loop cb fuel c goals)
    (fun r s => exists sizes, fst (fst (fst r)) = fst (fst c) + Z.of_nat (length sizes) /\
       logged (L ++ flat_map round sizes ++ [Checked (TreeSize (fst s)) true]) s) any.
Proof.
  induction fuel as [|f IH]; intros L c goals; cbn [rrt_loop];
   (eapply hoare_bind with (Q := fun t s => t = fst s /\ logged L s); [intros s H; cbn; auto|]; intros t;
    eapply hoare_bind with (Q := fun b s => t = fst s /\ logged (L ++ [Checked (TreeSize t) b]) s);
     [apply hoare_snd; intros t1; intros w [E H]; cbn [fst] in E;
      pose proof (records_hoare _ _ L (ins_stop _ _ INS (TreeSize t)) (t1, w) H) as R; unfold on_snd in R; cbn [fst snd] in R;
      destruct (termination_check_fn cb (TreeSize t) w) as [[b|e| |] w']; [split; [exact E|exact R]|exact I..]|];
    intros b; destruct b).
  - apply hoare_ret. intros s [-> H]. exists []. cbn. split; [lia|exact H].
  - intros s H. exact I.
  - apply hoare_ret. intros s [-> H]. exists []. cbn. split; [lia|exact H].
  - eapply hoare_bind.
    + eapply hoare_pre; [apply (iteration_logged (L ++ [Checked (TreeSize t) false]) c goals)|]. intros s [_ H]. exact H.
    + intros [c' goals']. cbn [fst snd]. apply hoare_pure. intros C.
      eapply hoare_post; [apply IH|]. intros r s (sizes & E & H). exists (TreeSize t :: sizes). split; [cbn [length]; lia|].
      unfold logged in *. rewrite H. cbn. rewrite <- !app_assoc. reflexivity.
Qed.

Lemma plan_logged fuel t w paths stats t' w' :
  RRTPlanMultiPath cb fuel (t, w) = (Ok (paths, stats), (t', w')) ->
  exists sizes, Z.of_nat (length sizes) = total_samples stats /\
    log w' = log w ++ flat_map round sizes ++ [Checked (total_states stats) true].
Proof.
  intros H.
  assert (X : hoare (logged (log w)) (RRTPlanMultiPath cb fuel)
    (fun r s => exists sizes, Z.of_nat (length sizes) = total_samples (snd r) /\
      logged (log w ++ flat_map round sizes ++ [Checked (total_states (snd r)) true]) s) any).
  { unfold RRTPlanMultiPath. eapply hoare_bind; [apply tree_logged|]. intros t1. apply hoare_if; intros _; [intros s ?; exact I|].
    eapply hoare_bind; [apply initial_logged|]. intros goals.
    eapply hoare_bind; [apply (loop_logged fuel (log w) (0, 0, 0) goals)|]. intros [[[total succ] fail] g]. cbn [fst snd].
    eapply hoare_bind; [apply hoare_tree|]. intros t2. eapply hoare_bind; [apply lift_hoare|]. intros ps. apply hoare_pure. intros _.
    apply hoare_ret. intros s [-> (sizes & E & HL)]. exists sizes. cbn. split; [lia|exact HL]. }
  exact (hoare_ok _ _ _ _ (t, w) (paths, stats) (t', w') X eq_refl H).
Qed.
End Log.

(** ** Planning ends *)
Section Ends.
Context {S Sample W : Type}.
Notation tree := (list (rrt_node S)).
Notation world := (tree * W)%type.
Variable measure : W -> nat.
Variable cb : rrt_callbacks S Sample W.
Hypothesis CD : counts_down measure cb.
Definition ends_at : stop -> world -> Prop := fun e _ => e <> Endless.
Definition below (m : nat) (s : world) : Prop := (measure (snd s) <= m)%nat.

Lemma cd_hoare {A} (x : eff W A) m : comes_back x /\ not_above measure x ->
  hoare (below m) (on_snd x) (fun _ => below m) ends_at.
Proof.
  intros [C N] [t w] H. unfold on_snd, below, ends_at in *. cbn [fst snd] in *. specialize (C w). specialize (N w).
  destruct (x w) as [[a|e| |] w']; cbn in *; try discriminate; [lia|congruence].
Qed.
Lemma cd_tree_hoare {A} (x : eff world A) m : comes_back x /\ not_above (fun s : world => measure (snd s)) x ->
  hoare (below m) x (fun _ => below m) ends_at.
Proof.
  intros [C N] s H. unfold below, ends_at in *. specialize (C s). specialize (N s).
  destruct (x s) as [[a|e| |] w']; cbn in *; try discriminate; [lia|congruence].
Qed.
Lemma cd_get (t : tree) i m : hoare (below m) (lift (GetTreeNode t i)) (fun _ => below m) ends_at.
Proof.
  apply hoare_lift. intros s H. destruct (get_tree_node_cases t i) as [(n & -> & _)|[-> _]]; [exact H|discriminate].
Qed.

Lemma add_connect_ends (v : S) p t : fst (AddNodeAndConnect v p t) <> Diverge.
Proof.
  unfold AddNodeAndConnect, ebind, get, put, lift, ret.
  destruct (get_tree_node_cases (t ++ [mkRrtNode v p []]) p) as [(n & -> & _)|[-> _]]; [|discriminate].
  unfold at_set. destruct (set_nth _ _ _); discriminate.
Qed.

Lemma propagated_ends m nearest props : forall mapping goals,
  hoare (below m) (add_propagated cb nearest mapping props goals) (fun _ => below m) ends_at.
Proof.
  induction props as [|[c r] props IH]; intros mapping goals; cbn [add_propagated]; [apply hoare_ret; auto|].
  eapply hoare_bind with (Q := fun _ => below m).
  { destruct (0 <=? r); [|apply hoare_ret; auto]. apply hoare_lift. intros s H. unfold at_get.
    destruct (nth_error _ _); [exact H|discriminate]. }
  intros parent. eapply hoare_bind with (Q := fun _ => below m).
  { intros [t w] H. unfold on_fst. cbn [fst snd]. pose proof (add_connect_ends c parent t) as X.
    destruct (AddNodeAndConnect c parent t) as [[a|e| |] t']; cbn in *; try discriminate; [exact H|congruence]. }
  intros i. cbv zeta.
  eapply hoare_bind with (Q := fun _ => below m).
  { destruct (state_added_callback_fn cb) as [g|] eqn:E; [|apply hoare_ret; auto].
    apply cd_tree_hoare. exact (cd_added _ _ CD g i E). }
  intros ?. eapply hoare_bind with (Q := fun _ => below m); [intros s H; exact H|]. intros t.
  eapply hoare_bind; [apply cd_get|]. intros n.
  eapply hoare_bind; [apply cd_hoare, (cd_goal _ _ CD)|]. intros [|]; [|apply IH].
  eapply hoare_bind; [|intros ?; apply IH].
  destruct (goal_reached_callback_fn cb) as [g|] eqn:E; [|apply hoare_ret; auto].
  apply cd_tree_hoare. exact (cd_reached _ _ CD g i E).
Qed.

Lemma iteration_ends m c goals : hoare (below m) (rrt_iteration cb c goals) (fun _ => below m) ends_at.
Proof.
  destruct c as [[total succ] fail]. unfold rrt_iteration.
  eapply hoare_bind; [apply cd_hoare, (cd_sample _ _ CD)|]. intros x. cbv zeta.
  eapply hoare_bind with (Q := fun _ => below m); [intros s H; exact H|]. intros t.
  eapply hoare_bind; [apply cd_hoare, (cd_nearest _ _ CD)|]. intros i.
  eapply hoare_bind; [apply cd_get|]. intros n.
  eapply hoare_bind; [apply cd_hoare, (cd_prop _ _ CD)|]. intros [|p props].
  - apply hoare_ret. auto.
  - eapply hoare_bind; [apply propagated_ends|]. intros g. apply hoare_ret. auto.
Qed.

Lemma loop_ends fuel : forall c goals, hoare (below fuel) (rrt_loop cb fuel c goals) (fun _ _ => True) ends_at.
Proof.
  induction fuel as [|f IH]; intros c goals; cbn [rrt_loop];
   (eapply hoare_bind with (Q := fun _ s => (measure (snd s) <= _)%nat); [intros s H; exact H|]; intros t).
  - eapply hoare_bind with (Q := fun b s => b = true).
    { intros [t1 w] H. cbn [snd] in H. unfold on_snd. cbn [fst snd].
      destruct (cd_stop _ _ CD (TreeSize t)) as [C N]. specialize (C w). specialize (N w).
      destruct (termination_check_fn cb (TreeSize t) w) as [[[|]|e| |] w']; cbn in *; try discriminate; try reflexivity; try congruence.
      specialize (N w' eq_refl). lia. }
    intros b. intros s ->. exact I.
  - eapply hoare_bind with (Q := fun b s => b = true \/ below f s).
    { intros [t1 w] H. cbn [snd] in H. unfold on_snd, below. cbn [fst snd].
      destruct (cd_stop _ _ CD (TreeSize t)) as [C N]. specialize (C w). specialize (N w).
      destruct (termination_check_fn cb (TreeSize t) w) as [[[|]|e| |] w']; cbn in *; try discriminate; try congruence; [left; reflexivity|].
      right. specialize (N w' eq_refl). lia. }
    intros [|]; [apply hoare_ret; auto|].
    eapply hoare_bind.
    + eapply hoare_pre; [apply (iteration_ends f c goals)|]. intros s [C|H]; [discriminate|exact H].
    + intros [c' goals']. apply IH.
Qed.

Hypothesis READS : forall f i, goal_reached_callback_fn cb = Some f -> reads_tree (f i).
Lemma initial_ends m t fuel : forall idx goals, TreeSize t - idx <= Z.of_nat fuel ->
  hoare (fun s => fst s = t /\ below m s) (initial_goals cb fuel idx goals) (fun _ => below m) ends_at.
Proof.
  induction fuel as [|f IH]; intros idx goals F; cbn [initial_goals];
    (eapply hoare_bind with (Q := fun t1 s => t1 = t /\ fst s = t /\ below m s); [intros s [E H]; cbn; auto|];
     intros t1; apply hoare_pure; intros ->; destruct (Z.ltb_spec idx (TreeSize t)) as [L|L];
     [|apply hoare_ret; intros s [_ H]; exact H]).
  { lia. }
  eapply hoare_bind with (Q := fun _ s => fst s = t /\ below m s).
  { apply hoare_lift. intros s H. destruct (get_tree_node_cases t idx) as [(n & -> & _)|[-> _]]; [exact H|discriminate]. }
  intros n. eapply hoare_bind with (Q := fun _ s => fst s = t /\ below m s).
  { intros [t1 w] [E H]. pose proof (cd_hoare _ m (cd_goal _ _ CD (state_value n)) (t1, w) H) as X. unfold on_snd in *. cbn [fst snd] in *.
    destruct (check_goal_reached_fn cb (state_value n) w) as [[a|e| |] w']; cbn in *; auto. }
  intros [|]; [|apply IH; lia].
  eapply hoare_bind; [|intros ?; apply IH; lia].
  destruct (goal_reached_callback_fn cb) as [g|] eqn:EG; cbn [call].
  - intros s [E H]. pose proof (cd_tree_hoare _ m (cd_reached _ _ CD g idx EG) s H) as X. specialize (READS g idx eq_refl s).
    destruct (g idx s) as [[a|e| |] s']; cbn in *; auto. split; [congruence|exact X].
  - intros s H. discriminate.
Qed.

Lemma plan_ends fuel t w : linked_tree t ->
  keeps_tree_opt false (fun _ => True) (fun _ _ => True) (state_added_callback_fn cb) ->
  keeps_tree_opt false (fun _ => True) (fun _ _ => True) (goal_reached_callback_fn cb) ->
  (measure w <= fuel)%nat -> (length t <= fuel)%nat ->
  fst (RRTPlanMultiPath cb fuel (t, w)) <> Diverge.
Proof.
  intros LT K1 K2 M F.
  assert (SND : sound_tree false (fun _ : S => True) (fun _ _ : S => True) t).
  { split; [exact LT|]. split; [discriminate|]. auto. }
  assert (X : hoare (fun s => s = (t, w)) (RRTPlanMultiPath cb fuel) (fun _ _ => True) ends_at).
  { unfold RRTPlanMultiPath. eapply hoare_bind; [apply hoare_tree|]. intros t1. apply hoare_if; intros _; [intros s ?; discriminate|].
    set (INV := inv false (fun _ : S => True) (fun _ _ => True) t).
    eapply hoare_bind with (Q := fun goals s => below fuel s /\ INV (fst s) /\ Forall (goal_at (fun _ => True) (fst s)) goals).
    { intros s [_ ->].
      pose proof (initial_ends fuel t fuel 0 [] ltac:(unfold TreeSize; lia) (t, w) (conj eq_refl M)) as A.
      pose proof (initial_spec (Sample := Sample) false (fun _ => True) (fun _ _ => True) (fun _ => True) cb ltac:(repeat intro; exact I)
        K2 t fuel 0 [] ltac:(lia) (t, w)) as B.
      specialize (B (conj (conj SND (extends_refl t)) (Forall_nil _))).
      destruct (initial_goals cb fuel 0 [] (t, w)) as [[a|e| |] s']; auto. }
    intros goals.
    eapply hoare_bind with (Q := fun r s => INV (fst s) /\ Forall (goal_at (fun _ => True) (fst s)) (snd r)).
    { intros s (B & I & G). pose proof (loop_ends fuel (0, 0, 0) goals s B) as A.
      pose proof (loop_spec (Sample := Sample) false (fun _ => True) (fun _ _ => True) (fun _ => True) cb
        ltac:(intros ? ? ? ? ? _ k c r _; auto) ltac:(repeat intro; exact Logic.I) K1 K2 t fuel (0, 0, 0) goals eq_refl s (conj I G)) as C.
      destruct (rrt_loop cb fuel (0, 0, 0) goals s) as [[a|e| |] s']; auto. destruct C as (_ & ? & ?). auto. }
    intros [[[total succ] fail] g]. cbn [snd].
    eapply hoare_bind; [apply hoare_tree|]. intros t2.
    eapply hoare_bind with (Q := fun _ _ => True); [|intros ?; apply hoare_ret; auto].
    apply hoare_lift. intros s [-> [HI G]].
    destruct (paths_spec false (fun _ => True) (fun _ _ => True) (fun _ => True) (fst s) (proj1 HI) g G) as (ps & -> & _). exact I. }
  specialize (X (t, w) eq_refl). intros E. destruct (RRTPlanMultiPath cb fuel (t, w)) as [[a|e| |] s']; cbn in E; try discriminate.
  apply X. reflexivity.
Qed.
End Ends.

(** ** One path for every goal node *)
Section Every.
Context {S Sample W : Type}.
Notation tree := (list (rrt_node S)).
Notation world := (tree * W)%type.
Variable goal : S -> bool.
Variable cb : rrt_callbacks S Sample W.
Hypothesis PURE : forall s w b w', check_goal_reached_fn cb s w = (Ok b, w') -> b = goal s.
Hypothesis READ1 : forall f i, state_added_callback_fn cb = Some f -> reads_tree (f i).
Hypothesis READ2 : forall f i, goal_reached_callback_fn cb = Some f -> reads_tree (f i).

Definition goal_index (t : tree) (i : Z) : bool :=
  match nth_error t (Z.to_nat i) with Some n => goal (state_value n) | None => false end.
Definition goals_below (t : tree) (k : Z) : list Z := filter (goal_index t) (seqZ 0 k).

Lemma goals_below_S t k : 0 <= k -> goals_below t (k + 1) = goals_below t k ++ (if goal_index t k then [k] else []).
Proof.
  intros K. unfold goals_below. rewrite (seqZ_split 0 k (k + 1)) by lia. rewrite seqZ_one, filter_app. reflexivity.
Qed.

Lemma goals_below_values (t t' : tree) k : (forall i, 0 <= i < k -> option_map state_value (nth_error t (Z.to_nat i)) = option_map state_value (nth_error t' (Z.to_nat i))) ->
  goals_below t k = goals_below t' k.
Proof.
  intros H. unfold goals_below. apply filter_ext_in. intros i Hi. apply seqZ_in in Hi. specialize (H i Hi).
  unfold goal_index. destruct (nth_error t _), (nth_error t' _); cbn in H; congruence.
Qed.

Lemma add_connect_values (v : S) p (t : tree) i (t' : tree) : AddNodeAndConnect v p t = (Ok i, t') ->
  i = TreeSize t /\ TreeSize t' = TreeSize t + 1 /\
  (forall k, 0 <= k < TreeSize t -> option_map state_value (nth_error t (Z.to_nat k)) = option_map state_value (nth_error t' (Z.to_nat k))) /\
  option_map state_value (nth_error t' (Z.to_nat (TreeSize t))) = Some v.
Proof.
  unfold AddNodeAndConnect, ebind, get, put, lift, ret.
  destruct (get_tree_node_cases (t ++ [mkRrtNode v p []]) p) as [(n & E & Hn)|[E _]]; rewrite E; [|discriminate].
  unfold at_set. destruct (set_nth _ _ _) as [t2|] eqn:ES; [|discriminate].
  apply set_nth_some in ES as [L ->]. rewrite size_snoc. intros H. injection H as <- <-.
  split; [lia|]. split; [unfold TreeSize; rewrite upd_length, app_length; cbn; lia|].
  assert (V : forall k, option_map state_value (nth_error (upd (t ++ [mkRrtNode v p []]) (Z.to_nat p) (AddChildIndex n (TreeSize t + 1 - 1))) k) =
                        option_map state_value (nth_error (t ++ [mkRrtNode v p []]) k)).
  { intros k. rewrite nth_error_upd. destruct (Nat.eq_dec (Z.to_nat p) k) as [<-|]; [|reflexivity].
    destruct (lt_dec _ _); [|lia]. destruct Hn as [_ Hn]. rewrite Hn. cbn. rewrite add_child_value. reflexivity. }
  split.
  - intros k Hk. rewrite V. rewrite nth_error_app1; [reflexivity|]. unfold TreeSize in Hk. lia.
  - rewrite V. rewrite nth_error_app2; unfold TreeSize; rewrite Nat2Z.id; [|lia]. rewrite Nat.sub_diag. reflexivity.
Qed.

Definition complete (goals : list Z) (s : world) : Prop := goals = goals_below (fst s) (TreeSize (fst s)).

Lemma reads_hoare {A} (m : eff world A) (P : tree -> Prop) : reads_tree m ->
  hoare (fun s => P (fst s)) m (fun _ s => P (fst s)) any.
Proof. intros R s H. specialize (R s). unfold any. destruct (m s) as [[a|e| |] s']; cbn in *; try exact I. rewrite R. exact H. Qed.

Lemma check_hoare v (P : tree -> Prop) :
  hoare (fun s : world => P (fst s)) (on_snd (check_goal_reached_fn cb v)) (fun b s => b = goal v /\ P (fst s)) any.
Proof.
  eapply hoare_weaken; [apply (hoare_known _ P)|auto| |].
  - intros b s [(w & w' & E) H]. split; [exact (PURE _ _ _ _ E)|exact H].
  - intros e s H. exact I.
Qed.

Lemma goal_index_at t i n : tree_at t i n -> goal_index t i = goal (state_value n).
Proof. intros [_ E]. unfold goal_index. rewrite E. reflexivity. Qed.

Lemma initial_complete fuel : forall idx goals, 0 <= idx ->
  hoare (fun s => goals = goals_below (fst s) idx /\ idx <= TreeSize (fst s)) (initial_goals cb fuel idx goals) complete any.
Proof.
  induction fuel as [|f IH]; intros idx goals I0; cbn [initial_goals];
    (eapply hoare_bind; [apply hoare_tree|]; intros t; destruct (Z.ltb_spec idx (TreeSize t)) as [L|L];
     [|apply hoare_ret; intros s [-> [-> H]]; unfold complete; f_equal; lia]).
  { intros s H. exact I. }
  set (P := fun t1 : tree => goals = goals_below t1 idx /\ idx < TreeSize t1).
  eapply hoare_bind with (Q := fun n s => tree_at (fst s) idx n /\ P (fst s)).
  { apply hoare_lift. intros s [-> [H1 H2]]. destruct (get_tree_node_cases (fst s) idx) as [(n & -> & Hn)|[-> _]]; [|exact I].
    unfold P. auto. }
  intros n. eapply hoare_bind; [apply (check_hoare (state_value n) (fun t1 => tree_at t1 idx n /\ P t1))|].
  intros b. apply hoare_pure. intros ->. destruct (goal (state_value n)) eqn:EG.
  - eapply hoare_bind with (Q := fun _ s => tree_at (fst s) idx n /\ P (fst s)).
    + destruct (goal_reached_callback_fn cb) as [g|] eqn:E; cbn [call]; [|intros s H; exact I].
      apply (reads_hoare _ (fun t1 => tree_at t1 idx n /\ P t1)). exact (READ2 g idx eq_refl).
    + intros ?. eapply hoare_pre; [apply IH; lia|]. intros s (Hn & -> & H2).
      rewrite goals_below_S by lia. rewrite (goal_index_at _ _ _ Hn), EG. split; [reflexivity|lia].
  - eapply hoare_pre; [apply IH; lia|]. intros s (Hn & -> & H2).
    rewrite goals_below_S by lia. rewrite (goal_index_at _ _ _ Hn), EG, app_nil_r. split; [reflexivity|lia].
Qed.

Lemma propagated_complete nearest props : forall mapping goals,
  hoare (complete goals) (add_propagated cb nearest mapping props goals) complete any.
Proof.
  induction props as [|[c r] props IH]; intros mapping goals; cbn [add_propagated]; [apply hoare_ret; auto|].
  eapply hoare_bind with (Q := fun _ => complete goals).
  { destruct (0 <=? r); [|apply hoare_ret; auto]. apply hoare_lift. intros s H. unfold at_get.
    destruct (nth_error _ _); [exact H|exact I]. }
  intros parent.
  set (P := fun (i : Z) (t1 : tree) => 0 <= i /\ TreeSize t1 = i + 1 /\ goals = goals_below t1 i /\ goal_index t1 i = goal c).
  eapply hoare_bind with (Q := fun i s => P i (fst s)).
  { intros [t w] H. unfold on_fst, any. cbn [fst snd]. destruct (AddNodeAndConnect c parent t) as [[i|e| |] t'] eqn:E; try exact I.
    apply add_connect_values in E as (-> & E2 & V & VN). unfold P. split; [unfold TreeSize; lia|]. split; [exact E2|]. cbn [fst].
    split.
    - unfold complete in H. cbn in H. rewrite H. apply goals_below_values. exact V.
    - unfold goal_index. destruct (nth_error t' _); [cbn in VN; congruence|discriminate VN]. }
  intros i. cbv zeta.
  eapply hoare_bind with (Q := fun _ s => P i (fst s)).
  { destruct (state_added_callback_fn cb) as [g|] eqn:E; [|apply hoare_ret; auto]. apply (reads_hoare _ (P i)). exact (READ1 g i eq_refl). }
  intros ?. eapply hoare_bind; [apply hoare_tree|]. intros t.
  eapply hoare_bind with (Q := fun n s => tree_at (fst s) i n /\ P i (fst s)).
  { apply hoare_lift. intros s [-> H]. destruct (get_tree_node_cases (fst s) i) as [(n & -> & Hn)|[-> _]]; [auto|exact I]. }
  intros n. eapply hoare_bind; [apply (check_hoare (state_value n) (fun t1 => tree_at t1 i n /\ P i t1))|].
  intros b. apply hoare_pure. intros ->. destruct (goal (state_value n)) eqn:EG.
  - eapply hoare_bind with (Q := fun _ s => tree_at (fst s) i n /\ P i (fst s)).
    + destruct (goal_reached_callback_fn cb) as [g|] eqn:E; [|apply hoare_ret; auto].
      apply (reads_hoare _ (fun t1 => tree_at t1 i n /\ P i t1)). exact (READ2 g i eq_refl).
    + intros ?. eapply hoare_pre; [apply IH|]. intros s (Hn & I0 & E2 & -> & GI). unfold complete.
      rewrite E2, goals_below_S by lia. rewrite (goal_index_at _ _ _ Hn), EG. reflexivity.
  - eapply hoare_pre; [apply IH|]. intros s (Hn & I0 & E2 & -> & GI). unfold complete.
    rewrite E2, goals_below_S by lia. rewrite (goal_index_at _ _ _ Hn), EG, app_nil_r. reflexivity.
Qed.

Lemma iteration_complete c goals : hoare (complete goals) (rrt_iteration cb c goals) (fun r => complete (snd r)) any.
Proof.
  destruct c as [[total succ] fail]. unfold rrt_iteration.
  set (P := fun t1 : tree => goals = goals_below t1 (TreeSize t1)).
  assert (K : forall A (m : eff W A), hoare (complete goals) (on_snd m) (fun _ => complete goals) any).
  { intros A m. eapply hoare_weaken; [apply (hoare_known m P)|auto|intros a s [_ H]; exact H|intros e s H; exact I]. }
  eapply hoare_bind; [apply K|]. intros x. cbv zeta.
  eapply hoare_bind with (Q := fun _ => complete goals); [intros s H; exact H|]. intros t.
  eapply hoare_bind; [apply K|]. intros i.
  eapply hoare_bind with (Q := fun _ => complete goals).
  { apply hoare_lift. intros s H. destruct (get_tree_node_cases t i) as [(n & -> & Hn)|[-> _]]; [exact H|exact I]. }
  intros n. eapply hoare_bind; [apply K|]. intros [|p props].
  - apply hoare_ret. auto.
  - eapply hoare_bind; [apply propagated_complete|]. intros g. apply hoare_ret. auto.
Qed.

Lemma loop_complete fuel : forall c goals, hoare (complete goals) (rrt_loop cb fuel c goals) (fun r => complete (snd r)) any.
Proof.
  induction fuel as [|f IH]; intros c goals; cbn [rrt_loop];
   (eapply hoare_bind with (Q := fun _ => complete goals); [intros s H; exact H|]; intros t;
    eapply hoare_bind with (Q := fun _ => complete goals);
      [eapply hoare_weaken; [apply (hoare_known _ (fun t1 : tree => goals = goals_below t1 (TreeSize t1)))|auto|intros a s [_ H]; exact H|intros e s H; exact I]|];
    intros [|]; [apply hoare_ret; auto|]).
  - intros s H. exact I.
  - eapply hoare_bind; [apply iteration_complete|]. intros [c' g]. apply IH.
Qed.

Lemma paths_of_goals (t : tree) : forall goals paths, ExtractSolutionPaths t goals = Ok paths -> Forall2 (path_to t) goals paths.
Proof.
  induction goals as [|g goals IH]; intros paths H; cbn in H; [injection H as <-; constructor|].
  destruct (ExtractSolutionPath t g) as [p|e| |] eqn:E; try discriminate. cbn in H.
  destruct (ExtractSolutionPaths t goals) as [ps|e| |] eqn:E2; try discriminate. cbn in H. injection H as <-.
  constructor; [apply extract_path; exact E|auto].
Qed.

Lemma plan_every fuel s paths stats t' w' :
  RRTPlanMultiPath cb fuel s = (Ok (paths, stats), (t', w')) ->
  Forall2 (path_to t') (filter (goal_index t') (seqZ 0 (TreeSize t'))) paths.
Proof.
  intros H.
  assert (X : hoare (fun _ => True) (RRTPlanMultiPath cb fuel)
    (fun r s => Forall2 (path_to (fst s)) (goals_below (fst s) (TreeSize (fst s))) (fst r)) any).
  { unfold RRTPlanMultiPath. eapply hoare_bind; [apply hoare_tree|]. intros t1. apply hoare_if; intros _; [intros ? ?; exact I|].
    eapply hoare_bind.
    { eapply hoare_pre; [apply (initial_complete fuel 0 [] ltac:(lia))|]. intros s1 _. split; [reflexivity|unfold TreeSize; lia]. }
    intros goals. eapply hoare_bind; [apply (loop_complete fuel (0, 0, 0) goals)|]. intros [[[total succ] fail] g]. cbn [snd].
    eapply hoare_bind; [apply hoare_tree|]. intros t2. eapply hoare_bind; [apply lift_hoare|]. intros ps. apply hoare_pure. intros E.
    apply hoare_ret. intros s1 [-> HC]. cbn [fst]. rewrite <- HC. apply paths_of_goals. exact E. }
  exact (hoare_ok _ _ _ _ _ _ _ X I H).
Qed.
End Every.
