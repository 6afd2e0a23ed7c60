(** The statements of Prop_Rrt.v from the lemmas about the planners, and planners
    that run. *)
From Coq Require Import Reals Lra.
From Flocq Require Import Core BinarySingleNaN.
From Verif Require Import Base Double DoubleFacts Effect SerializationModel SerializationSpec SerializationProof SerializationProof2
  GraphModel GraphSpec GraphProof2 UtilitySpec KnnModel KnnSpec KnnProof
  RrtModel RrtSpec RrtProof RrtPlan RrtPlan2 BiRrtProof RrtCheck RrtSerial RrtSingle
  RrtHelperModel RrtHelperSpec RrtHelperProof.
Local Open Scope Z_scope.

(** ** Planning *)
Section Plans.
Context {S Sample W : Type}.
Notation tree := (list (rrt_node S)).
Variables (once : bool) (root : S -> Prop) (edge : S -> S -> Prop).

Lemma anything_accepted (f : S -> eff W bool) : accepts (fun _ => True) f.
Proof. intros x w w' _. exact I. Qed.

Lemma plan_keeps (cb : rrt_callbacks S Sample W) fuel (t : tree) w :
  propagates edge (forward_propagation_fn cb) ->
  keeps_tree_opt once root edge (state_added_callback_fn cb) ->
  keeps_tree_opt once root edge (goal_reached_callback_fn cb) ->
  sound_tree once root edge t ->
  let t' := fst (snd (RRTPlanMultiPath cb fuel (t, w))) in
  sound_tree once root edge t' /\ tree_extends t t'.
Proof.
  intros P K1 K2 So. cbv zeta.
  pose proof (plan_spec once root edge (fun _ => True) cb P (anything_accepted _) K1 K2 t fuel (t, w) (conj So (extends_refl t))) as H.
  destruct (RRTPlanMultiPath cb fuel (t, w)) as [[r|e| |] [t' w']]; [exact (proj1 H)|exact H|exact H|exact H].
Qed.

Lemma single_keeps (cb : rrt_callbacks S Sample W) fuel (t : tree) w :
  propagates edge (forward_propagation_fn cb) ->
  keeps_tree_opt once root edge (state_added_callback_fn cb) ->
  keeps_tree_opt once root edge (goal_reached_callback_fn cb) ->
  sound_tree once root edge t ->
  let t' := fst (snd (RRTPlanSinglePath cb fuel (t, w))) in
  sound_tree once root edge t' /\ tree_extends t t'.
Proof.
  intros P K1 K2 So. cbv zeta. apply (single_tree once root edge (fun _ => True) cb); auto. apply anything_accepted.
Qed.

Lemma plan_paths accepted (cb : rrt_callbacks S Sample W) fuel (t : tree) w paths stats t' w' :
  propagates edge (forward_propagation_fn cb) -> accepts accepted (check_goal_reached_fn cb) ->
  keeps_tree_opt once root edge (state_added_callback_fn cb) ->
  keeps_tree_opt once root edge (goal_reached_callback_fn cb) ->
  sound_tree once root edge t ->
  RRTPlanMultiPath cb fuel (t, w) = (Ok (paths, stats), (t', w')) ->
  forall path, In path paths ->
    starts_with root path /\ ends_with accepted path /\ consecutive edge path /\ exists i, path_to t' i path.
Proof.
  intros P A K1 K2 So E path HI.
  pose proof (plan_spec once root edge accepted cb P A K1 K2 t fuel (t, w) (conj So (extends_refl t))) as H.
  rewrite E in H. destruct H as (_ & F & _). rewrite Forall_forall in F. exact (F path HI).
Qed.

Lemma single_path accepted (cb : rrt_callbacks S Sample W) :
  propagates edge (forward_propagation_fn cb) -> accepts accepted (check_goal_reached_fn cb) ->
  keeps_tree_opt once root edge (state_added_callback_fn cb) ->
  keeps_tree_opt once root edge (goal_reached_callback_fn cb) ->
  forall fuel t w path stats t' w', sound_tree once root edge t ->
  RRTPlanSinglePath cb fuel (t, w) = (Ok (path, stats), (t', w')) ->
  (solutions stats = 0 /\ path = []) \/
  (0 < solutions stats /\ starts_with root path /\ ends_with accepted path /\ consecutive edge path /\ exists i, path_to t' i path).
Proof.
  intros P A K1 K2 fuel t w path stats t' w' So E.
  destruct (single_spec once root edge accepted cb P A K1 K2 fuel t w path stats t' w' So E) as (_ & _ & H & _). exact H.
Qed.
End Plans.

Lemma sound_of_linked {S} (t : list (rrt_node S)) : linked_tree t -> sound_tree false (fun _ => True) (fun _ _ => True) t.
Proof. intros L. split; [exact L|]. split; [discriminate|]. split; auto. Qed.

Lemma plan_stats {S Sample W} (cb : rrt_callbacks S Sample W) fuel t w paths stats t' w' :
  keeps_tree_opt false (fun _ => True) (fun _ _ => True) (state_added_callback_fn cb) ->
  keeps_tree_opt false (fun _ => True) (fun _ _ => True) (goal_reached_callback_fn cb) ->
  linked_tree t -> RRTPlanMultiPath cb fuel (t, w) = (Ok (paths, stats), (t', w')) ->
  total_samples stats = successful_samples stats + failed_samples stats /\
  total_states stats = TreeSize t' /\ solutions stats = Z.of_nat (length paths).
Proof.
  intros K1 K2 L E.
  assert (P : propagates (fun _ _ => True) (forward_propagation_fn cb)).
  { intros s x w1 props w2 _ k c r _. split; auto. }
  pose proof (plan_spec false (fun _ => True) (fun _ _ => True) (fun _ => True) cb P (anything_accepted _) K1 K2 t fuel (t, w)
    (conj (sound_of_linked t L) (extends_refl t))) as H.
  rewrite E in H. exact (proj2 (proj2 H)).
Qed.

Section BiPlans.
Context {S W : Type}.
Notation tree := (list (rrt_node S)).
Variables (once : bool) (root : active_tree -> S -> Prop) (edge : active_tree -> S -> S -> Prop) (joins : S -> S -> Prop).
Variable cb : birrt_callbacks S W.
Hypothesis BC : birrt_contract once root edge joins cb.

Lemma trees_extend_refl (p : tree * tree) : trees_extend p p.
Proof. intros a. apply extends_refl. Qed.

Lemma bi_plan_keeps fuel p w : sound_trees once root edge p ->
  let p' := fst (snd (BiRRTPlanMultiPath cb fuel (p, w))) in
  sound_trees once root edge p' /\ trees_extend p p'.
Proof.
  intros So. cbv zeta.
  pose proof (bi_plan_spec once root edge joins cb BC p fuel (p, w) (conj So (trees_extend_refl p))) as H.
  destruct (BiRRTPlanMultiPath cb fuel (p, w)) as [[r|e| |] [p' w']]; [exact (proj1 H)|exact H|exact H|exact H].
Qed.

Lemma good_bridge (p : tree * tree) path : good_bridge_path root edge joins p path ->
  bridge_path joins p path /\ exists start_path goal_path, path = start_path ++ rev goal_path /\
    starts_with (root START_TREE) start_path /\ consecutive (edge START_TREE) start_path /\
    starts_with (root GOAL_TREE) goal_path /\ consecutive (edge GOAL_TREE) goal_path.
Proof.
  intros (sp & gp & s & g & E & A1 & A2 & A3 & B1 & B2 & B3 & J & si & gi & P1 & P2).
  split; [exists si, gi, sp, gp, s, g; auto 10|exists sp, gp; auto 10].
Qed.

Lemma bi_paths fuel p w paths stats p' w' : sound_trees once root edge p ->
  BiRRTPlanMultiPath cb fuel (p, w) = (Ok (paths, stats), (p', w')) ->
  Forall (fun path => bridge_path joins p' path /\ exists start_path goal_path, path = start_path ++ rev goal_path /\
    starts_with (root START_TREE) start_path /\ consecutive (edge START_TREE) start_path /\
    starts_with (root GOAL_TREE) goal_path /\ consecutive (edge GOAL_TREE) goal_path) paths /\
  bi_solutions stats = Z.of_nat (length paths) /\ bi_total_states stats = TreeSize (fst p') + TreeSize (snd p') /\
  bi_total_samples stats = bi_successful_samples stats + bi_failed_samples stats /\
  bi_total_samples stats = start_tree_active_iterations stats + goal_tree_active_iterations stats /\
  0 <= active_tree_swaps stats <= bi_total_samples stats.
Proof.
  intros So E.
  pose proof (bi_plan_spec once root edge joins cb BC p fuel (p, w) (conj So (trees_extend_refl p))) as H.
  rewrite E in H. cbn [fst snd] in H. destruct H as (_ & F & (C1 & C2 & C3) & T & N).
  split; [|auto]. revert F. apply Forall_impl. apply good_bridge.
Qed.

Lemma bi_single_path fuel p w path stats p' w' : sound_trees once root edge p ->
  BiRRTPlanSinglePath cb fuel (p, w) = (Ok (path, stats), (p', w')) ->
  (bi_solutions stats = 0 /\ path = []) \/ (0 < bi_solutions stats /\ bridge_path joins p' path).
Proof.
  intros So E. destruct (bi_single_spec once root edge joins cb BC fuel p w path stats p' w' So E) as (_ & _ & [H|[P G]] & _);
    [left; exact H|right]. split; [exact P|]. exact (proj1 (good_bridge _ _ G)).
Qed.
End BiPlans.

Lemma extract_total {S} (t : list (rrt_node S)) : linked_tree t ->
  (forall i, 0 <= i < TreeSize t -> exists path, ExtractSolutionPath t i = Ok path /\ path_to t i path) /\
  (forall i, ~ 0 <= i < TreeSize t -> ExtractSolutionPath t i = Throw OutOfRange).
Proof.
  intros L. split; [|intros i; apply extract_out]. intros i R. destruct (extract_ok t i L R) as [p E].
  exists p. split; [exact E|]. apply extract_path. exact E.
Qed.

(** ** Insertion (C47) *)
Lemma own_parent {S} (t : list (rrt_node S)) v :
  exists t', AddNodeAndConnect v (TreeSize t) t = (Ok (TreeSize t), t') /\
    t' = t ++ [mkRrtNode v (TreeSize t) [TreeSize t]] /\
    ~ linked_tree t' /\ ExtractSolutionPath t' (TreeSize t) = Diverge.
Proof.
  destruct (add_connect_self t v) as (t' & E & ->). eexists. split; [exact E|]. split; [reflexivity|].
  set (N := mkRrtNode v (TreeSize t) [TreeSize t]).
  assert (AT : tree_at (t ++ [N]) (TreeSize t) N).
  { split; [unfold TreeSize; lia|]. unfold TreeSize. rewrite Nat2Z.id, nth_error_app2, Nat.sub_diag by lia. reflexivity. }
  split.
  - intros [L _]. destruct (L _ _ AT) as [X _]; cbn in *; unfold TreeSize in *; lia.
  - assert (Wd : forall fuel, walk fuel (t ++ [N]) (TreeSize t) = Diverge).
    { assert (0 <=? TreeSize t = true) as LE by (unfold TreeSize; lia).
      induction fuel as [|f IH]; cbn [walk]; rewrite LE; [reflexivity|].
      rewrite (proj2 (get_tree_node _ _ _) AT). cbn [bind]. change (parent_index N) with (TreeSize t). rewrite IH. reflexivity. }
    unfold ExtractSolutionPath. rewrite (proj2 (get_tree_node _ _ _) AT). cbn [bind].
    change (parent_index N) with (TreeSize t). rewrite Wd. reflexivity.
Qed.

Lemma insertion {S} (t : list (rrt_node S)) v parent p : tree_at t parent p ->
  exists t', AddNodeAndConnect v parent t = (Ok (TreeSize t), t') /\
    TreeSize t' = TreeSize t + 1 /\
    tree_at t' (TreeSize t) (mkRrtNode v parent []) /\
    (forall i n, tree_at t i n -> i <> parent -> tree_at t' i n) /\
    (exists p', tree_at t' parent p' /\ state_value p' = state_value p /\ parent_index p' = parent_index p /\
       forall c, In c (child_indices p') <-> In c (child_indices p) \/ c = TreeSize t).
Proof.
  intros H. exists (added t v parent p). split; [apply add_connect_ok; exact H|]. split; [apply added_size|].
  split; [apply added_new; exact H|]. split.
  - intros i n Hi NE. apply added_at; auto.
  - exists (AddChildIndex p (TreeSize t)). split; [apply added_at; auto|].
    rewrite add_child_value, add_child_parent. split; [reflexivity|]. split; [reflexivity|]. intros c. apply add_child_in.
Qed.

(** ** Propagation functions (C48, C81) *)
Section Made.
Context {S W : Type}.
Variable distance_fn : S -> S -> eff W double.
Variable interpolate : S -> S -> double -> eff W S.
Variable valid : S -> S -> eff W bool.
Variable step : double.

Lemma extend_made (edge : S -> S -> Prop) : (forall a b w w', valid a b w = (Ok true, w') -> edge a b) ->
  forall f, MakeKinematicRRTExtendPropagationFunction distance_fn interpolate valid step = Ok f ->
  forall nearest sampled w props w', f nearest sampled w = (Ok props, w') ->
  joined edge nearest props /\ is_chain props /\ (length props <= 1)%nat.
Proof.
  intros V f. unfold MakeKinematicRRTExtendPropagationFunction. destruct (dle step d0); [discriminate|].
  intros E. apply Ok_inj in E. subst f. intros nearest sampled w props w'. apply extend_sound. exact V.
Qed.

Lemma extend_state f : MakeKinematicRRTExtendPropagationFunction distance_fn interpolate valid step = Ok f ->
  forall nearest sampled w props w', f nearest sampled w = (Ok props, w') ->
  exists d w1 x w2 ok, distance_fn nearest sampled w = (Ok d, w1) /\
    (if dlt step d && dlt (ddiv step d) one then interpolate nearest sampled (ddiv step d) w1 = (Ok x, w2)
     else x = sampled /\ w2 = w1) /\
    valid nearest x w2 = (Ok ok, w') /\ props = if ok : bool then [(x, -1)] else [].
Proof.
  unfold MakeKinematicRRTExtendPropagationFunction. destruct (dle step d0); [discriminate|].
  intros E. apply Ok_inj in E. subst f. intros nearest sampled w props w' H. unfold extend_propagation in H.
  apply ebind_ok in H as (d & w1 & ED & H). cbv zeta in H. apply ebind_ok in H as (x & w2 & EX & H).
  apply ebind_ok in H as (b & w3 & EV & H).
  assert (NO : dlt one one = false) by (vm_compute; reflexivity).
  exists d, w1, x, w2, b. split; [exact ED|]. split.
  { destruct (dlt step d); cbn [andb].
    - destruct (dlt (ddiv step d) one); [exact EX|]. injection EX as <- <-. auto.
    - rewrite NO in EX. injection EX as <- <-. auto. }
  destruct b; injection H as <- <-; auto.
Qed.

Lemma connect_made (edge : S -> S -> Prop) : (forall a b w w', valid a b w = (Ok true, w') -> edge a b) ->
  forall f, MakeKinematicRRTConnectPropagationFunction distance_fn interpolate valid step = Ok f ->
  forall nearest sampled w props w', f nearest sampled w = (Ok props, w') ->
  joined edge nearest props /\ is_chain props /\
  exists d w1, distance_fn nearest sampled w = (Ok d, w1) /\
    Z.of_nat (length props) <= Z.max 0 (step_bound d step) /\
    (Z.of_nat (length props) = Z.max 0 (step_bound d step) \/ arrived distance_fn valid step nearest sampled props).
Proof.
  intros V f. unfold MakeKinematicRRTConnectPropagationFunction. destruct (dle step d0); [discriminate|].
  intros E. apply Ok_inj in E. subst f. intros nearest sampled w props w'. apply connect_sound. exact V.
Qed.

Lemma bad_step : dle step d0 = true ->
  MakeKinematicRRTExtendPropagationFunction distance_fn interpolate valid step = Throw InvalidArgument /\
  MakeKinematicRRTConnectPropagationFunction distance_fn interpolate valid step = Throw InvalidArgument.
Proof.
  intros H. unfold MakeKinematicRRTExtendPropagationFunction, MakeKinematicRRTConnectPropagationFunction. rewrite H. auto.
Qed.

Lemma made_propagates (edge : S -> S -> Prop) : (forall a b w w', valid a b w = (Ok true, w') -> edge a b) ->
  forall f, MakeKinematicRRTExtendPropagationFunction distance_fn interpolate valid step = Ok f \/
            MakeKinematicRRTConnectPropagationFunction distance_fn interpolate valid step = Ok f ->
  propagates edge f.
Proof.
  intros V f [E|E] s x w props w' H.
  - exact (proj1 (extend_made edge V f E s x w props w' H)).
  - exact (proj1 (connect_made edge V f E s x w props w' H)).
Qed.

Hypothesis TD : forall a b, total (distance_fn a b).
Hypothesis TI : forall a b r, total (interpolate a b r).
Hypothesis TV : forall a b, total (valid a b).

Lemma connect_made_defined f : MakeKinematicRRTConnectPropagationFunction distance_fn interpolate valid step = Ok f ->
  forall nearest sampled w d w1, distance_fn nearest sampled w = (Ok d, w1) ->
  (is_finite (ddiv d step) = true -> - 2 ^ 31 <= step_bound d step < 2 ^ 31 ->
     exists props w', f nearest sampled w = (Ok props, w')) /\
  (is_finite (ddiv d step) = false \/ ~ (- 2 ^ 31 <= step_bound d step < 2 ^ 31) ->
     fst (f nearest sampled w) = UB).
Proof.
  unfold MakeKinematicRRTConnectPropagationFunction. destruct (dle step d0); [discriminate|].
  intros E. apply Ok_inj in E. subst f. intros nearest sampled w d w1 ED. apply (connect_defined distance_fn interpolate valid step TD TI TV _ _ _ _ _ ED).
Qed.
Lemma extend_made_defined f : MakeKinematicRRTExtendPropagationFunction distance_fn interpolate valid step = Ok f ->
  forall nearest sampled, total (f nearest sampled).
Proof.
  unfold MakeKinematicRRTExtendPropagationFunction. destruct (dle step d0); [discriminate|].
  intros E. apply Ok_inj in E. subst f. intros nearest sampled. apply extend_total; assumption.
Qed.
End Made.

(** ** Timeout (C85) *)
Lemma exceeded_exact timeout start now : 0 <= timeout <= 2 ^ 22 -> Z.abs (now - start) <= 2 ^ 53 ->
  time_exceeded (d_of_Z timeout) start now = (timeout * 1000000000 <? now - start).
Proof.
  intros T N. unfold time_exceeded.
  destruct (d_of_Z_exact timeout) as [V1 F1]; [lia|].
  destruct (d_of_Z_exact 1000000000) as [V2 F2]; [lia|].
  destruct (d_of_Z_exact (now - start)) as [V3 F3]; [exact N|].
  assert (B : Z.abs (timeout * 1000000000) <= 2 ^ 53) by lia.
  destruct (dmul_val (d_of_Z timeout) (d_of_Z 1000000000) F1 F2) as [V4 F4].
  { rewrite V1, V2, <- mult_IZR. rewrite <- abs_IZR. apply Rle_trans with (IZR (2 ^ 53)); [apply IZR_le; exact B|].
    change (2 ^ 53) with (radix2 ^ 53). rewrite IZR_Zpower by lia. apply bpow_le. lia. }
  rewrite V1, V2, <- mult_IZR, rnd64_IZR in V4 by exact B.
  destruct (Z.ltb_spec (timeout * 1000000000) (now - start)) as [L|L].
  - apply dlt_R; [exact F4|exact F3|]. rewrite V4, V3. apply IZR_lt. exact L.
  - apply Bool.not_true_is_false. intros H. apply dlt_R in H; [|exact F4|exact F3]. rewrite V4, V3 in H. apply lt_IZR in H. lia.
Qed.
Lemma timeout_rejects t : dle t d0 = true -> MakeTimeoutCheckHelper t = Throw RuntimeError.
Proof. intros H. unfold MakeTimeoutCheckHelper. rewrite H. reflexivity. Qed.
Lemma sample_timeout : exists h, MakeTimeoutCheckHelper (d_of_Z 2) = Ok h /\
  timeout_answers h [5; 7; 2000000005; 2000000006; 3000000000] = Ok [false; false; false; true; true].
Proof.
  exists (mkTimeout (d_of_Z 2) None).
  assert (E : MakeTimeoutCheckHelper (d_of_Z 2) = Ok (mkTimeout (d_of_Z 2) None)).
  { unfold MakeTimeoutCheckHelper. replace (dle (d_of_Z 2) d0) with false by (vm_compute; reflexivity). reflexivity. }
  split; [exact E|]. rewrite (timeout_run _ _ 5 _ E). cbn [map].
  rewrite !exceeded_exact by lia. reflexivity.
Qed.

(** ** Planners that run *)
Definition succ_edge (a b : Z) : Prop := b = a + 1.
Definition sample_tree : list (rrt_node Z) := [mkRrtNode 0 (-1) []].
Definition record_event (e : rrt_event) : eff (nat * list rrt_event) unit := fun w => (Ok tt, (fst w, snd w ++ [e])).
(** Every sample makes the newest node grow by two states; a state is a goal from
    3 on; planning stops when the counter is 0. *)
Definition sample_cb : rrt_callbacks Z unit (nat * list rrt_event) :=
  mkRrtCallbacks
    (record_event Sampled)
    (fun t _ => ret (TreeSize t - 1))
    (fun s _ => ret [(s + 1, -1); (s + 2, 0)])
    None
    (fun s => ret (3 <=? s))
    (Some (fun _ => ret tt))
    (fun n => fun w =>
       let stop := (fst w =? 0)%nat in (Ok stop, (Nat.pred (fst w), snd w ++ [Checked n stop]))).

Lemma sound_single {S} once (root : S -> Prop) edge (v : S) : root v -> sound_tree once root edge [mkRrtNode v (-1) []].
Proof.
  intros R.
  assert (AT : forall i n, tree_at [mkRrtNode v (-1) []] i n -> i = 0 /\ n = mkRrtNode v (-1) []).
  { intros i n [Hi E]. destruct (Z.to_nat i) as [|[|k]] eqn:K; cbn in E; [|discriminate|discriminate]. injection E as <-. split; [lia|reflexivity]. }
  split; [split|split; [|split]].
  - intros i n H. apply AT in H as [-> ->]. cbn. lia.
  - intros i n c H. apply AT in H as [-> ->]. intros [].
  - intros _ i n H. apply AT in H as [-> ->]. constructor.
  - intros i n H _. apply AT in H as [-> ->]. exact R.
  - intros i n p H H2. apply AT in H as [-> ->]. apply AT in H2 as [X _]. cbn in X. lia.
Qed.

Lemma keeps_nothing {S W I} once root edge : @keeps_tree_opt S W I unit once root edge None.
Proof. intros g H. discriminate. Qed.
Lemma keeps_noop {S W I} once root edge : @keeps_tree_opt S W I unit once root edge (Some (fun _ => ret tt)).
Proof. intros g H. injection H as <-. intros i t w So. split; [exact So|apply extends_refl]. Qed.

Lemma sample_rrt :
  propagates succ_edge (forward_propagation_fn sample_cb) /\ accepts (fun s => 3 <= s) (check_goal_reached_fn sample_cb) /\
  keeps_tree_opt true (eq 0) succ_edge (state_added_callback_fn sample_cb) /\
  keeps_tree_opt true (eq 0) succ_edge (goal_reached_callback_fn sample_cb) /\
  sound_tree true (eq 0) succ_edge sample_tree /\ instrumented snd sample_cb /\ counts_down fst sample_cb /\
  RRTPlanMultiPath sample_cb 5 (sample_tree, (2%nat, [])) =
   (Ok ([[0; 1; 2; 3]; [0; 1; 2; 3; 4]], mkRrtStats 2 2 0 5 2),
    ([mkRrtNode 0 (-1) [1]; mkRrtNode 1 0 [2]; mkRrtNode 2 1 [3]; mkRrtNode 3 2 [4]; mkRrtNode 4 3 []],
     (0%nat, [Checked 1 false; Sampled; Checked 3 false; Sampled; Checked 5 true]))).
Proof.
  split. { intros s x w props w' H. cbn in H. injection H as <- _. intros [|[|k]] c r E; cbn in E.
    - injection E as <- <-. split; [reflexivity|lia].
    - injection E as <- <-. split; [lia|]. intros c' r' _ E. cbn in E. injection E as <- <-. unfold succ_edge. lia.
    - destruct k; discriminate. }
  split. { intros x w w' H. cbn in H. injection H as H _. lia. }
  split; [apply keeps_nothing|]. split; [apply keeps_noop|]. split; [apply sound_single; reflexivity|].
  split. { split.
    - intros w a w' H. cbn in H. injection H as <- <-. reflexivity.
    - intros n w a w' H. cbn in H. injection H as <- <-. reflexivity.
    - intros t x w. reflexivity.
    - intros s x w. reflexivity.
    - intros s w. reflexivity.
    - intros f i H. discriminate.
    - intros f i H. cbn in H. injection H as <-. intros s. reflexivity. }
  split. { split.
    - split; intros w; cbn; [discriminate|lia].
    - intros n. split; [intros w; cbn; discriminate|]. intros w w' H. cbn in H. injection H as E <-. cbn.
      destruct (Nat.eqb_spec (fst w) 0); [discriminate|lia].
    - intros t x. split; intros w; cbn; [discriminate|lia].
    - intros s x. split; intros w; cbn; [discriminate|lia].
    - intros s. split; intros w; cbn; [discriminate|lia].
    - intros f i H. discriminate.
    - intros f i H. cbn in H. injection H as <-. split; intros w; cbn; [discriminate|lia]. }
  vm_compute. reflexivity.
Qed.

(** Two trees: the start tree grows upwards, the goal tree downwards; both are
    joined where states are neighbours. *)
Definition bi_sample_root (a : active_tree) (s : Z) : Prop := match a with START_TREE => s = 0 | GOAL_TREE => s = 4 end.
Definition bi_sample_edge (a : active_tree) (x y : Z) : Prop := match a with START_TREE => y = x + 1 | GOAL_TREE => y = x - 1 end.
Definition bi_sample_trees : list (rrt_node Z) * list (rrt_node Z) := ([mkRrtNode 0 (-1) []], [mkRrtNode 4 (-1) []]).
Definition bi_sample_cb : birrt_callbacks Z nat :=
  mkBiCallbacks
    (fun _ _ _ => ret TREE_SAMPLE)
    (ret 0)
    (fun t _ => ret (TreeSize t - 1))
    (fun t _ _ => ret (TreeSize t - 1))
    (fun s _ a => ret [(match a with START_TREE => s + 1 | GOAL_TREE => s - 1 end, -1)])
    None
    (fun s g a => ret (match a with START_TREE => s + 1 =? g | GOAL_TREE => g + 1 =? s end))
    None
    (fun _ _ a => ret (match a with START_TREE => GOAL_TREE | GOAL_TREE => START_TREE end))
    (fun _ _ => fun w => (Ok (w =? 0)%nat, Nat.pred w)).
Lemma sample_birrt :
  birrt_contract true bi_sample_root bi_sample_edge succ_edge bi_sample_cb /\
  sound_trees true bi_sample_root bi_sample_edge bi_sample_trees /\
  BiRRTPlanMultiPath bi_sample_cb 5 (bi_sample_trees, 3%nat) =
   (Ok ([[0; 1; 2; 3; 4]], mkBiStats 2 1 3 3 0 3 5 1),
    (([mkRrtNode 0 (-1) [1]; mkRrtNode 1 0 [2]; mkRrtNode 2 1 []], [mkRrtNode 4 (-1) [1]; mkRrtNode 3 0 []]), 0%nat)).
Proof.
  split; [|split; [|vm_compute; reflexivity]].
  - split.
    + intros a s x w props w' H. cbn in H. injection H as <- _. intros [|k] c r E; cbn in E; [|destruct k; discriminate].
      injection E as <- <-. split; [|lia]. intros _. destruct a; reflexivity.
    + intros s g w w' H. cbn in H. injection H as H _. unfold succ_edge. lia.
    + intros s g w w' H. cbn in H. injection H as H _. unfold succ_edge. lia.
    + intros f H. discriminate.
    + intros f H. discriminate.
  - intros [|]; apply sound_single; reflexivity.
Qed.

(** ** Omitted callbacks *)
Definition at_goal_cb : rrt_callbacks Z unit unit :=
  mkRrtCallbacks (ret tt) (fun _ _ => ret 0) (fun _ _ => ret []) None (fun _ => ret true) None (fun _ => ret true).
Lemma goal_reached_omitted : exists (cb : rrt_callbacks Z unit unit) (t : list (rrt_node Z)),
  linked_tree t /\ goal_reached_callback_fn cb = None /\
  (forall n, termination_check_fn cb n tt = (Ok true, tt)) /\
  (forall fuel, (1 <= fuel)%nat -> fst (RRTPlanMultiPath cb fuel (t, tt)) = Throw BadFunctionCall) /\
  (forall fuel, (1 <= fuel)%nat -> exists r, fst (RRTPlanMultiPath (with_goal_reached no_op cb) fuel (t, tt)) = Ok r).
Proof.
  exists at_goal_cb, sample_tree. split; [exact (proj1 (sound_single false (fun _ => True) (fun _ _ => True) 0 I))|].
  split; [reflexivity|]. split; [reflexivity|]. split.
  - intros [|f] H; [lia|]. reflexivity.
  - intros [|[|f]] H; [lia|eexists; reflexivity|eexists; reflexivity].
Qed.
Definition at_bridge_cb : birrt_callbacks Z unit :=
  mkBiCallbacks (fun _ _ _ => ret TREE_SAMPLE) (ret 0) (fun _ _ => ret 0) (fun _ _ _ => ret 0) (fun _ _ _ => ret [])
    None (fun _ _ _ => ret true) None (fun _ _ a => ret a) (fun _ _ => ret true).
Lemma goal_bridge_omitted : exists (cb : birrt_callbacks Z unit) (p : list (rrt_node Z) * list (rrt_node Z)),
  linked_tree (fst p) /\ linked_tree (snd p) /\ goal_bridge_callback_fn cb = None /\
  (forall n m, bi_termination_check_fn cb n m tt = (Ok true, tt)) /\
  (forall fuel, (2 <= fuel)%nat -> fst (BiRRTPlanMultiPath cb fuel (p, tt)) = Throw BadFunctionCall) /\
  (forall fuel, (2 <= fuel)%nat -> exists r, fst (BiRRTPlanMultiPath (with_goal_bridge no_op cb) fuel (p, tt)) = Ok r).
Proof.
  exists at_bridge_cb, bi_sample_trees.
  split; [exact (proj1 (sound_single false (fun _ => True) (fun _ _ => True) 0 I))|].
  split; [exact (proj1 (sound_single false (fun _ => True) (fun _ _ => True) 4 I))|].
  split; [reflexivity|]. split; [reflexivity|]. split.
  - intros [|[|f]] H; [lia|lia|]. reflexivity.
  - intros [|[|[|f]]] H; [lia|lia|eexists; reflexivity|eexists; reflexivity].
Qed.

Lemma sample_insertion : tree_at sample_tree 0 (mkRrtNode 0 (-1) []) /\
  AddNodeAndConnect 7 0 sample_tree = (Ok 1, [mkRrtNode 0 (-1) [1]; mkRrtNode 7 0 []]).
Proof. split; [split; [lia|reflexivity]|vm_compute; reflexivity]. Qed.

(** ** Points of a line, no edge beyond 3 *)
Definition line_distance (a b : Z) : eff unit double := ret (d_of_Z (Z.abs (b - a))).
Definition line_step (a b : Z) (_ : double) : eff unit Z := ret (a + Z.sgn (b - a)).
Definition line_valid (a b : Z) : eff unit bool := ret (b <=? 3).
Lemma sample_connect : exists f,
  MakeKinematicRRTConnectPropagationFunction line_distance line_step line_valid (d_of_Z 1) = Ok f /\
  f 0 5 tt = (Ok [(1, -1); (2, 0); (3, 1)], tt) /\ f 0 2 tt = (Ok [(1, -1); (2, 0)], tt).
Proof.
  exists (connect_propagation line_distance line_step line_valid (d_of_Z 1)).
  split; [|split; vm_compute; reflexivity].
  unfold MakeKinematicRRTConnectPropagationFunction. replace (dle (d_of_Z 1) d0) with false by (vm_compute; reflexivity). reflexivity.
Qed.

Definition sample_grown : list (rrt_node Z) :=
  [mkRrtNode 0 (-1) [1; 3]; mkRrtNode 1 0 [2]; mkRrtNode 2 1 []; mkRrtNode 5 0 []].
Lemma sample_tree_serial le :
  round_trips (SerializeMemcpyable (int64_rep le)) (DeserializeMemcpyable (int64_rep le)) int64_ok /\
  tree_ok 100 100 int64_ok sample_grown /\ linked_tree sample_grown /\ (3 <= TreeSize sample_grown) /\
  fits_vector (snd (SerializeTree le (SerializeMemcpyable (int64_rep le)) sample_grown [1%N]) ++ [2%N]).
Proof.
  split; [apply rt_memcpyable, int64_lawful|]. split.
  { unfold tree_ok. split; [|split; [reflexivity|vm_compute; discriminate]].
    unfold sample_grown. repeat (apply Forall_cons || apply Forall_nil || split || (vm_compute; congruence)). }
  split. { destruct (check_linkage_exact sample_grown) as (b & E & H). apply H. vm_compute in E. injection E as <-. reflexivity. }
  split; [vm_compute; discriminate|]. destruct le; vm_compute; reflexivity.
Qed.
Lemma sample_nearest : partial_sort_contract Z.ltb full_sort /\ order_laws Z.ltb /\
  linear_nearest_neighbor 99 full_sort (fun a b => Z.abs (a - b)) sample_grown 2 = Ok 2.
Proof. split; [apply full_sort_contract|]. split; [apply Z_order|]. vm_compute. reflexivity. Qed.

(** A source that always returns 1/2. *)
Definition half_source : eff unit double := ret (ddiv (d_of_Z 1) (d_of_Z 2)).
Lemma sample_sampling : unit_source half_source /\ total half_source /\
  exists f, MakeStateAndGoalsSamplingFunction (ret 7) [1; 2; 3] one half_source = Ok f /\ f tt = (Ok 2, tt).
Proof.
  split; [|split].
  - intros w x w' H. unfold half_source, ret in H. injection H as <- _.
    assert (F : is_finite (ddiv (d_of_Z 1) (d_of_Z 2)) = true) by (vm_compute; reflexivity).
    split; [exact F|]. split.
    + assert (L : dle d0 (ddiv (d_of_Z 1) (d_of_Z 2)) = true) by (vm_compute; reflexivity).
      apply dle_R in L; [exact L|reflexivity|exact F].
    + assert (L : dlt (ddiv (d_of_Z 1) (d_of_Z 2)) (d_of_Z 1) = true) by (vm_compute; reflexivity).
      destruct (d_of_Z_exact 1) as [V1 F1]; [lia|].
      apply dlt_R in L; [|exact F|exact F1]. rewrite V1 in L. exact L.
  - intros w. eexists _, _. reflexivity.
  - unfold MakeStateAndGoalsSamplingFunction.
    replace (dlt one d0 || dlt one one) with false by (vm_compute; reflexivity).
    eexists. split; [reflexivity|]. vm_compute. reflexivity.
Qed.
