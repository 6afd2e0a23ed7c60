(** The single-path planners (C43, C45) and omitted callbacks (C46). *)
From Coq Require Import FunctionalExtensionality.
From Verif Require Import Base Effect ParallelismModel RrtModel RrtSpec RrtProof RrtPlan BiRrtProof.
Local Open Scope Z_scope.

Lemma on_fst_ok {T W A} (m : eff T A) (s : T * W) a s' : on_fst m s = (Ok a, s') ->
  exists t, m (fst s) = (Ok a, t) /\ s' = (t, snd s).
Proof. unfold on_fst. destruct (m (fst s)) as [r t]. intros E. injection E as -> <-. eauto. Qed.

Lemma beside_tree {T W V A} (m : eff (T * W) A) (t : T) (w : W) (v : V) :
  fst (snd (beside m (t, (w, v)))) = fst (snd (m (t, w))).
Proof. unfold beside. destruct (m (t, w)) as [r [t' w']]. reflexivity. Qed.

Section Single.
Context {S Sample W : Type}.
Notation tree := (list (rrt_node S)).
Variable once : bool.
Variables (root : S -> Prop) (edge : S -> S -> Prop) (accepted : S -> Prop).
Variable cb : rrt_callbacks S Sample W.
Hypothesis PROP : propagates edge (forward_propagation_fn cb).
Hypothesis GOAL : accepts accepted (check_goal_reached_fn cb).
Hypothesis KEEP1 : keeps_tree_opt once root edge (state_added_callback_fn cb).
Hypothesis KEEP2 : keeps_tree_opt once root edge (goal_reached_callback_fn cb).

Lemma single_prop : propagates edge (forward_propagation_fn (single_callbacks cb)).
Proof. intros s x [w v] props w' H. apply on_fst_ok in H as (w1 & H & _). exact (PROP _ _ _ _ _ H). Qed.
Lemma single_goal : accepts accepted (check_goal_reached_fn (single_callbacks cb)).
Proof. intros s [w v] w' H. apply on_fst_ok in H as (w1 & H & _). exact (GOAL _ _ _ H). Qed.
Lemma single_keep1 : keeps_tree_opt once root edge (state_added_callback_fn (single_callbacks cb)).
Proof.
  intros g E i t [w v] So. cbn in E. destruct (state_added_callback_fn cb) as [f|] eqn:EF; [|discriminate].
  injection E as <-. rewrite beside_tree. exact (KEEP1 f eq_refl i t w So).
Qed.
Lemma single_keep2 : keeps_tree_opt once root edge (goal_reached_callback_fn (single_callbacks cb)).
Proof.
  intros g E i t [w v] So. cbn in E. injection E as <-. unfold ebind, on_snd, put. cbn [fst snd].
  destruct (goal_reached_callback_fn cb) as [f|] eqn:EF.
  - rewrite beside_tree. exact (KEEP2 f eq_refl i t w So).
  - cbn. split; [exact So|apply extends_refl].
Qed.

Lemma single_spec fuel t w path stats t' w' : sound_tree once root edge t ->
  RRTPlanSinglePath cb fuel (t, w) = (Ok (path, stats), (t', w')) ->
  sound_tree once root edge t' /\ tree_extends t t' /\
  (solutions stats = 0 /\ path = [] \/ 0 < solutions stats /\ good_path root edge accepted t' path) /\
  total_samples stats = successful_samples stats + failed_samples stats /\ total_states stats = TreeSize t'.
Proof.
  intros So. unfold RRTPlanSinglePath. cbn [fst snd].
  pose proof (plan_spec once root edge accepted (single_callbacks cb) single_prop single_goal single_keep1 single_keep2 t fuel
     (t, (w, false)) (conj So (extends_refl t))) as H.
  destruct (RRTPlanMultiPath (single_callbacks cb) fuel (t, (w, false))) as [[[ps st]|e| |] [t1 [w1 v1]]]; cbn; intros E; try discriminate.
  injection E as <- <- <- <-. cbn [fst snd] in H. destruct H as ((A & B) & F & C & D & N). split; [exact A|]. split; [exact B|].
  split; [|auto]. destruct ps as [|p ps]; [left; cbn in N; auto|right]. inversion F; subst. split; [rewrite N; cbn; lia|assumption].
Qed.
Lemma single_tree fuel t w : sound_tree once root edge t ->
  sound_tree once root edge (fst (snd (RRTPlanSinglePath cb fuel (t, w)))) /\
  tree_extends t (fst (snd (RRTPlanSinglePath cb fuel (t, w)))).
Proof.
  intros So. unfold RRTPlanSinglePath. cbn [fst snd].
  pose proof (plan_spec once root edge accepted (single_callbacks cb) single_prop single_goal single_keep1 single_keep2 t fuel
     (t, (w, false)) (conj So (extends_refl t))) as H.
  destruct (RRTPlanMultiPath (single_callbacks cb) fuel (t, (w, false))) as [[[ps st]|e| |] [t1 [w1 v1]]]; cbn in *; apply H.
Qed.
End Single.

Section BiSingle.
Context {S W : Type}.
Notation tree := (list (rrt_node S)).
Notation trees := (tree * tree)%type.
Variable once : bool.
Variables (root : active_tree -> S -> Prop) (edge : active_tree -> S -> S -> Prop) (joins : S -> S -> Prop).
Variable cb : birrt_callbacks S W.
Hypothesis BC : birrt_contract once root edge joins cb.

Lemma bi_single_contract : birrt_contract once root edge joins (bi_single_callbacks cb).
Proof.
  split.
  - intros a s x [w v] props w' H. apply on_fst_ok in H as (w1 & H & _). exact (bc_prop _ _ _ _ _ BC a _ _ _ _ _ H).
  - intros s g [w v] w' H. apply on_fst_ok in H as (w1 & H & _). exact (bc_start _ _ _ _ _ BC _ _ _ _ H).
  - intros s g [w v] w' H. apply on_fst_ok in H as (w1 & H & _). exact (bc_goal _ _ _ _ _ BC _ _ _ _ H).
  - intros f E i a t [w v] So. cbn in E. destruct (bi_state_added_callback_fn cb) as [g|] eqn:EF; [|discriminate].
    injection E as <-. rewrite beside_tree. exact (bc_added _ _ _ _ _ BC g EF i a t w So).
  - intros f E i p [w v] So. cbn in E. injection E as <-. unfold ebind, on_snd, put. cbn [fst snd].
    destruct (goal_bridge_callback_fn cb) as [g|] eqn:EF.
    + rewrite beside_tree. exact (bc_bridge _ _ _ _ _ BC g EF i p w So).
    + cbn. split; [exact So|apply trees_extend_refl].
Qed.

Lemma bi_single_spec fuel (p : trees) w path stats p' w' : sound_trees once root edge p ->
  BiRRTPlanSinglePath cb fuel (p, w) = (Ok (path, stats), (p', w')) ->
  sound_trees once root edge p' /\ trees_extend p p' /\
  (bi_solutions stats = 0 /\ path = [] \/ 0 < bi_solutions stats /\ good_bridge_path root edge joins p' path) /\
  bi_counted stats.
Proof.
  intros So. unfold BiRRTPlanSinglePath. cbn [fst snd].
  pose proof (bi_plan_spec once root edge joins (bi_single_callbacks cb) bi_single_contract p fuel
     (p, (w, false)) (conj So (trees_extend_refl p))) as H.
  destruct (BiRRTPlanMultiPath (bi_single_callbacks cb) fuel (p, (w, false))) as [[[ps st]|e| |] [p1 [w1 v1]]]; cbn; intros E; try discriminate.
  injection E as <- <- <- <-. cbn [fst snd] in H. destruct H as ((A & B) & F & C & D & N). split; [exact A|]. split; [exact B|].
  split; [|exact C]. destruct ps as [|q ps]; [left; cbn in N; auto|right]. inversion F; subst. split; [rewrite N; cbn; lia|assumption].
Qed.
End BiSingle.

(** ** Omitted callbacks (C46) *)
Section Omitted.
Context {S Sample W : Type}.
Notation tree := (list (rrt_node S)).
Variable cb : rrt_callbacks S Sample W.

Lemma omit_state_added fuel s :
  RRTPlanMultiPath (with_state_added None cb) fuel s = RRTPlanMultiPath (with_state_added no_op cb) fuel s.
Proof. reflexivity. Qed.

Lemma initial_no_goal (t : tree) f1 : (forall n w w', In n t -> check_goal_reached_fn cb (state_value n) w <> (Ok true, w')) ->
  forall fuel idx goals w,
  initial_goals (with_goal_reached None cb) fuel idx goals (t, w) =
  initial_goals (with_goal_reached f1 cb) fuel idx goals (t, w).
Proof.
  intros NG. induction fuel as [|f IH]; intros idx goals w; cbn [initial_goals]; [reflexivity|].
  unfold the_tree, ebind, get, ret, lift, on_snd. cbn [fst snd].
  destruct (idx <? TreeSize t); [|reflexivity].
  destruct (get_tree_node_cases t idx) as [(n & -> & Hn)|[-> _]]; [|reflexivity].
  cbn [check_goal_reached_fn with_goal_reached fst snd].
  destruct (check_goal_reached_fn cb (state_value n) w) as [[[|]|e| |] w'] eqn:EC; try reflexivity.
  - elim (NG n w w'); [|exact EC]. eapply nth_error_In. exact (proj2 Hn).
  - apply IH.
Qed.

Lemma omit_goal_reached fuel (t : tree) w :
  (forall n w w', In n t -> check_goal_reached_fn cb (state_value n) w <> (Ok true, w')) ->
  RRTPlanMultiPath (with_goal_reached None cb) fuel (t, w) = RRTPlanMultiPath (with_goal_reached no_op cb) fuel (t, w).
Proof.
  intros NG. unfold RRTPlanMultiPath, the_tree, ebind, get, ret. cbn [fst snd].
  destruct (length t =? 0)%nat; [reflexivity|]. rewrite (initial_no_goal t no_op NG). reflexivity.
Qed.

Lemma omit_goal_reached_single fuel s :
  RRTPlanSinglePath (with_goal_reached None cb) fuel s = RRTPlanSinglePath (with_goal_reached no_op cb) fuel s.
Proof.
  reflexivity.
Qed.
End Omitted.

Section BiOmitted.
Context {S W : Type}.
Notation tree := (list (rrt_node S)).
Variable cb : birrt_callbacks S W.

Lemma on_active_nothing a : on_active a (ret tt) = @ret (tree * tree * W) unit tt.
Proof. apply functional_extensionality. intros [[st gt] w]. destruct a; reflexivity. Qed.

Notation cbN := (with_bi_state_added None cb).
Notation cbS := (with_bi_state_added no_op cb).
Lemma add_bi_same : add_bi_propagated cbN = add_bi_propagated cbS.
Proof.
  apply functional_extensionality. intros a. apply functional_extensionality. intros target.
  apply functional_extensionality. intros nearest. apply functional_extensionality. intros mapping.
  apply functional_extensionality. intros props. revert mapping.
  induction props as [|[c r] props IH]; intros mapping; apply functional_extensionality; intros bridges; [reflexivity|].
  cbn [add_bi_propagated bi_state_added_callback_fn with_bi_state_added no_op]. rewrite on_active_nothing.
  f_equal. apply functional_extensionality. intros parent. f_equal. apply functional_extensionality. intros i. cbv zeta.
  f_equal. apply functional_extensionality. intros _. rewrite IH. reflexivity.
Qed.
Lemma bi_iteration_same : birrt_iteration cbN = birrt_iteration cbS.
Proof. unfold birrt_iteration. rewrite add_bi_same. reflexivity. Qed.
Lemma bi_loop_same fuel : birrt_loop cbN fuel = birrt_loop cbS fuel.
Proof.
  induction fuel as [|f IH]; [reflexivity|].
  apply functional_extensionality. intros a. apply functional_extensionality. intros c. apply functional_extensionality. intros bridges.
  cbn [birrt_loop]. rewrite bi_iteration_same, IH. reflexivity.
Qed.
Lemma omit_bi_state_added fuel s : BiRRTPlanMultiPath cbN fuel s = BiRRTPlanMultiPath cbS fuel s.
Proof. unfold BiRRTPlanMultiPath. rewrite bi_loop_same. reflexivity. Qed.

Notation gN := (with_goal_bridge None cb).
Notation gS := (with_goal_bridge no_op cb).
Section NoBridge.
Variables st gt : tree.
Hypothesis NB : forall n m w w', In n st -> In m gt -> states_connected_fn cb (state_value n) (state_value m) START_TREE w <> (Ok true, w').

Lemma inner_same : forall fuel si gi bridges w,
  initial_bridges_inner gN fuel si gi bridges (st, gt, w) = initial_bridges_inner gS fuel si gi bridges (st, gt, w) /\
  fst (snd (initial_bridges_inner gN fuel si gi bridges (st, gt, w))) = (st, gt).
Proof.
  induction fuel as [|f IH]; intros si gi bridges w; cbn [initial_bridges_inner];
    unfold goal_tree, start_tree, ebind, get, ret, lift, on_snd; cbn [fst snd]; (destruct (gi <? TreeSize gt); [|split; reflexivity]);
    [split; reflexivity|].
  cbn [fst snd]. destruct (get_tree_node_cases st si) as [(n & -> & Hn)|[-> _]]; [|split; reflexivity].
  destruct (get_tree_node_cases gt gi) as [(m & -> & Hm)|[-> _]]; [|split; reflexivity].
  cbn [states_connected_fn with_goal_bridge fst snd].
  destruct (states_connected_fn cb (state_value n) (state_value m) START_TREE w) as [[[|]|e| |] w'] eqn:EC; try (split; reflexivity).
  - elim (NB n m w w'); [eapply nth_error_In; exact (proj2 Hn)|eapply nth_error_In; exact (proj2 Hm)|exact EC].
  - apply IH.
Qed.
Lemma outer_same : forall fuel si bridges w,
  initial_bridges gN fuel si bridges (st, gt, w) = initial_bridges gS fuel si bridges (st, gt, w).
Proof.
  induction fuel as [|f IH]; intros si bridges w; cbn [initial_bridges]; [reflexivity|].
  unfold start_tree, ebind, get, ret. cbn [fst snd].
  destruct (si <? TreeSize st); [|reflexivity].
  destruct (inner_same f si 0 bridges w) as [E1 E2]. rewrite <- E1.
  destruct (initial_bridges_inner gN f si 0 bridges (st, gt, w)) as [[l|e| |] [p w']]; try reflexivity.
  cbn in E2. subst p. apply IH.
Qed.
Lemma omit_goal_bridge fuel w : BiRRTPlanMultiPath gN fuel (st, gt, w) = BiRRTPlanMultiPath gS fuel (st, gt, w).
Proof.
  unfold BiRRTPlanMultiPath, start_tree, goal_tree, ebind, get, ret. cbn [fst snd].
  destruct (length st =? 0)%nat; [reflexivity|].
  cbn [fst snd]. destruct (length gt =? 0)%nat; [reflexivity|]. rewrite outer_same. reflexivity.
Qed.
End NoBridge.

Lemma omit_goal_bridge_single fuel s : BiRRTPlanSinglePath gN fuel s = BiRRTPlanSinglePath gS fuel s.
Proof.
  reflexivity.
Qed.
End BiOmitted.
