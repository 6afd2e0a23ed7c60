(** Proofs about the RRT planner (C42-C44). *)
From Verif Require Import Base Effect ParallelismModel RrtModel RrtSpec RrtProof.
Local Open Scope Z_scope.

Lemma hoare_pure {S A} (phi : Prop) (P : S -> Prop) (m : eff S A) Q E :
  (phi -> hoare P m Q E) -> hoare (fun s => phi /\ P s) m Q E.
Proof. intros H s [Hp Hs]. exact (H Hp s Hs). Qed.

Lemma hoare_known {T W A} (m : eff W A) (Q : T -> Prop) :
  hoare (fun s => Q (fst s)) (on_snd m)
    (fun a s => (exists w w', m w = (Ok a, w')) /\ Q (fst s)) (fun _ s => Q (fst s)).
Proof.
  intros [t w] H. unfold on_snd. cbn [fst snd] in *. destruct (m w) as [[a|e| |] w'] eqn:E; cbn; eauto.
Qed.

Section Plan.
Context {S Sample W : Type}.
Notation tree := (list (rrt_node S)).
Notation world := (tree * W)%type.
Variable once : bool.
Variables (root : S -> Prop) (edge : S -> S -> Prop) (accepted : S -> Prop).
Variable cb : rrt_callbacks S Sample W.
Hypothesis PROP : propagates edge (forward_propagation_fn cb).
Hypothesis GOAL : accepts accepted (check_goal_reached_fn cb).
Hypothesis KEEP1 : keeps_tree_opt once root edge (state_added_callback_fn cb).
Hypothesis KEEP2 : keeps_tree_opt once root edge (goal_reached_callback_fn cb).
Variable t0 : tree.

Definition inv (t : tree) : Prop := sound_tree once root edge t /\ tree_extends t0 t.
Definition still {A} : A -> world -> Prop := fun _ s => inv (fst s).
Definition stable (R : tree -> Prop) : Prop := forall t t', tree_extends t t' -> R t -> R t'.
Definition goal_at (t : tree) (i : Z) : Prop := exists n, tree_at t i n /\ accepted (state_value n).
Definition state_at (t : tree) (i : Z) (s : S) : Prop := exists n, tree_at t i n /\ state_value n = s.

Lemma goal_at_stable i : stable (fun t => goal_at t i).
Proof. intros t t' E (n & H & A). destruct (E _ _ H) as (n' & H' & V & _). exists n'. split; [exact H'|congruence]. Qed.
Lemma goals_stable l : stable (fun t => Forall (goal_at t) l).
Proof. intros t t' E H. eapply Forall_impl; [|exact H]. intros i. apply goal_at_stable. exact E. Qed.
Lemma state_at_stable i s : stable (fun t => state_at t i s).
Proof. intros t t' E (n & H & A). destruct (E _ _ H) as (n' & H' & V & _). exists n'. split; [exact H'|congruence]. Qed.
Lemma stable_and R Q : stable R -> stable Q -> stable (fun t => R t /\ Q t).
Proof. intros HR HQ t t' E [A B]. split; [eapply HR; eauto|eapply HQ; eauto]. Qed.

Lemma hoare_tree P (E : stop -> world -> Prop) : hoare P (the_tree : eff world tree) (fun t s => t = fst s /\ P s) E.
Proof. intros s H. cbn. auto. Qed.

Lemma hoare_callback {A} (m : eff world A) R : keeps_tree once root edge m -> stable R ->
  hoare (fun s => inv (fst s) /\ R (fst s)) m (fun _ s => inv (fst s) /\ R (fst s)) still.
Proof.
  intros K HR [t w] [[I X] Q]. destruct (K t w I) as [I' X']. unfold still, inv.
  destruct (m (t, w)) as [[a|e| |] [t' w']]; cbn [fst snd] in *;
    first [split; [split; [exact I'|exact (extends_trans _ _ _ X X')]|exact (HR _ _ X' Q)]
          |split; [exact I'|exact (extends_trans _ _ _ X X')]].
Qed.

Lemma hoare_callback_opt (f : option (Z -> eff world unit)) i R : keeps_tree_opt once root edge f -> stable R ->
  hoare (fun s => inv (fst s) /\ R (fst s)) (match f with Some g => g i | None => ret tt end)
    (fun _ s => inv (fst s) /\ R (fst s)) still.
Proof.
  intros K HR. destruct f as [g|]; [apply hoare_callback; [exact (K g eq_refl i)|exact HR]|apply hoare_ret; auto].
Qed.
Lemma hoare_call (f : option (Z -> eff world unit)) i R : keeps_tree_opt once root edge f -> stable R ->
  hoare (fun s => inv (fst s) /\ R (fst s)) (call f i) (fun _ s => inv (fst s) /\ R (fst s)) still.
Proof.
  intros K HR. destruct f as [g|]; [apply hoare_callback; [exact (K g eq_refl i)|exact HR]|].
  intros s H. exact (proj1 H).
Qed.

(** The check of one node. *)
Lemma hoare_check n i (P : tree -> Prop) :
  (forall t, P t -> inv t) -> (forall t, P t -> tree_at t i n) ->
  hoare (fun s => P (fst s)) (on_snd (check_goal_reached_fn cb (state_value n)))
    (fun (b : bool) s => (b = true -> accepted (state_value n)) /\ P (fst s)) still.
Proof.
  intros HI HN. eapply hoare_weaken; [apply (hoare_known _ P)|auto| |].
  - intros b s [(w & w' & E) H]. split; [|exact H]. intros ->. exact (GOAL _ _ _ E).
  - intros e s H. exact (HI _ H).
Qed.

Lemma initial_spec fuel : forall idx goals, 0 <= idx ->
  hoare (fun s => inv (fst s) /\ Forall (goal_at (fst s)) goals) (initial_goals cb fuel idx goals)
    (fun goals' s => inv (fst s) /\ Forall (goal_at (fst s)) goals') still.
Proof.
  induction fuel as [|f IH]; intros idx goals I0; cbn [initial_goals].
  - eapply hoare_bind; [apply hoare_tree|]. intros t. apply hoare_if; intros B.
    + intros s [-> H]. exact (proj1 H).
    + apply hoare_ret. intros s [-> H]. exact H.
  - eapply hoare_bind; [apply hoare_tree|]. intros t. apply hoare_if; intros B.
    2:{ apply hoare_ret. intros s [-> H]. exact H. }
    eapply hoare_bind with (Q := fun n s => tree_at (fst s) idx n /\ inv (fst s) /\ Forall (goal_at (fst s)) goals).
    { apply hoare_lift. intros s [-> H]. destruct (tree_at_ex (fst s) idx) as [n Hn]; [lia|].
      rewrite (proj2 (get_tree_node _ _ _) Hn). auto. }
    intros n. eapply hoare_bind.
    { apply (hoare_check n idx (fun t => tree_at t idx n /\ inv t /\ Forall (goal_at t) goals)); tauto. }
    intros b. destruct b; cbn.
    + apply hoare_pure. intros HA. specialize (HA eq_refl).
      eapply hoare_bind.
      * eapply hoare_pre; [apply (hoare_call _ idx (fun t => Forall (goal_at t) (goals ++ [idx])) KEEP2); apply goals_stable|].
        intros s (Hn & Hi & HG). split; [exact Hi|]. apply Forall_app. split; [exact HG|]. constructor; [|constructor].
        exists n. auto.
      * intros ?. apply IH. lia.
    + eapply hoare_pre; [apply IH; lia|]. intros s (_ & _ & Hi & HG). auto.
Qed.

(** [mapping] holds the tree indices of the first propagated states. *)
Definition mapped (mapping : list Z) (done : list (S * Z)) (t : tree) : Prop :=
  length mapping = length done /\
  forall k i c r, nth_error mapping k = Some i -> nth_error done k = Some (c, r) -> state_at t i c.
Lemma mapped_stable m d : stable (mapped m d).
Proof.
  intros t t' E [L H]. split; [exact L|]. intros k i c r A B. eapply state_at_stable; [exact E|eauto].
Qed.

Lemma add_connect_hoare v parent (R : tree -> Prop) : stable R ->
  (forall t, R t -> exists p, tree_at t parent p /\ edge (state_value p) v) ->
  hoare (fun s : world => inv (fst s) /\ R (fst s)) (on_fst (AddNodeAndConnect v parent))
    (fun i s => inv (fst s) /\ R (fst s) /\ state_at (fst s) i v /\ 0 <= i) still.
Proof.
  intros HR HP [t w] [[I X] Q]. destruct (HP t Q) as (p & Hp & Ep). unfold on_fst. cbn [fst snd] in *.
  rewrite (add_connect_ok _ _ _ _ Hp).
  pose proof (added_extends t v parent p Hp) as X'.
  split; [split|split; [|split]].
  - apply added_sound; assumption.
  - eapply extends_trans; eauto.
  - cbn [fst]. eapply HR; eauto.
  - eexists. split; [apply added_new; exact Hp|reflexivity].
  - unfold TreeSize. lia.
Qed.

Lemma add_propagated_spec nearest from all : joined edge from all -> forall rest done mapping goals, all = done ++ rest ->
  hoare (fun s => inv (fst s) /\ state_at (fst s) nearest from /\ mapped mapping done (fst s) /\ Forall (goal_at (fst s)) goals)
    (add_propagated cb nearest mapping rest goals)
    (fun goals' s => inv (fst s) /\ Forall (goal_at (fst s)) goals') still.
Proof.
  intros J. induction rest as [|[c r] rest IH]; intros done mapping goals EA; cbn [add_propagated].
  { apply hoare_ret. tauto. }
  set (R := fun t => state_at t nearest from /\ mapped mapping done t /\ Forall (goal_at t) goals).
  assert (SR : stable R).
  { unfold R. apply stable_and; [apply state_at_stable|]. apply stable_and; [apply mapped_stable|apply goals_stable]. }
  destruct (J (length done) c r) as [J1 J2]. { rewrite EA, nth_error_app2, Nat.sub_diag by lia. reflexivity. }
  eapply hoare_bind with (Q := fun parent s => inv (fst s) /\ R (fst s) /\
     exists p, tree_at (fst s) parent p /\ edge (state_value p) c).
  { destruct (Z.leb_spec 0 r) as [P|P].
    - apply hoare_lift. intros s (Hi & HN & [ML MA] & HG). unfold at_get.
      destruct (nth_error mapping (Z.to_nat r)) as [i|] eqn:E; [|exact Hi].
      split; [exact Hi|]. split; [unfold R; unfold mapped; auto|].
      assert (LT : (Z.to_nat r < length done)%nat) by (rewrite <- ML; apply nth_error_Some; congruence).
      destruct (nth_error done (Z.to_nat r)) as [[c' r']|] eqn:ED.
      + destruct (MA _ _ _ _ E ED) as (n & Hn & Vn). exists n. split; [exact Hn|]. rewrite Vn. apply (J2 c' r' P).
        rewrite EA, nth_error_app1 by exact LT. exact ED.
      + apply nth_error_None in ED. lia.
    - apply hoare_ret. intros s (Hi & HN & HM & HG). split; [exact Hi|]. split; [unfold R; auto|].
      destruct HN as (n & Hn & Vn). exists n. split; [exact Hn|]. rewrite Vn. apply J1. exact P. }
  intros parent.
  eapply hoare_bind.
  { eapply hoare_pre.
    - apply (add_connect_hoare c parent (fun t => R t /\ exists p, tree_at t parent p /\ edge (state_value p) c)).
      + intros t t' E [HR (p & Hp & Ep)]. split; [eapply SR; eauto|]. destruct (E _ _ Hp) as (p' & Hp' & V & _).
        exists p'. split; [exact Hp'|congruence].
      + intros t [_ H]. exact H.
    - tauto. }
  intros i. cbv zeta.
  set (R' := fun t => state_at t nearest from /\ mapped (mapping ++ [i]) (done ++ [(c, r)]) t /\ Forall (goal_at t) goals /\ state_at t i c).
  assert (SR' : stable R').
  { unfold R'. repeat (apply stable_and; [first [apply state_at_stable|apply mapped_stable|apply goals_stable]|]). apply state_at_stable. }
  eapply hoare_bind.
  { eapply hoare_pre; [apply (hoare_callback_opt _ i R' KEEP1 SR')|].
    intros s (Hi & ((HN & [ML MA] & HG) & _) & HS & I0). split; [exact Hi|]. unfold R'. split; [exact HN|]. split; [|auto].
    split; [rewrite !app_length; cbn; lia|]. intros k j c' r' A B.
    destruct (Nat.lt_ge_cases k (length mapping)) as [L|L].
    - rewrite nth_error_app1 in A by lia. rewrite nth_error_app1 in B by lia. eauto.
    - rewrite nth_error_app2 in A by lia. rewrite nth_error_app2 in B by lia. rewrite <- ML in B.
      destruct (k - length mapping)%nat as [|m]; [|destruct m; discriminate]. cbn in A, B. injection A as <-. injection B as <- <-. exact HS. }
  intros ?. eapply hoare_bind; [apply hoare_tree|]. intros t.
  eapply hoare_bind with (Q := fun n s => tree_at (fst s) i n /\ inv (fst s) /\ R' (fst s)).
  { apply hoare_lift. intros s [-> [Hi HR]]. pose proof HR as (_ & _ & _ & (n & Hn & Vn)).
    rewrite (proj2 (get_tree_node _ _ _) Hn). auto. }
  intros n. eapply hoare_bind.
  { apply (hoare_check n i (fun t => tree_at t i n /\ inv t /\ R' t)); tauto. }
  assert (EA' : all = (done ++ [(c, r)]) ++ rest) by (rewrite EA, <- app_assoc; reflexivity).
  intros b. destruct b; cbn.
  - apply hoare_pure. intros HA. specialize (HA eq_refl).
    eapply hoare_bind.
    + eapply hoare_pre; [apply (hoare_callback_opt _ i (fun t => R' t /\ Forall (goal_at t) (goals ++ [i])) KEEP2)|].
      * apply stable_and; [exact SR'|apply goals_stable].
      * intros s (Hn & Hi & HR). split; [exact Hi|]. split; [exact HR|]. apply Forall_app. split; [apply HR|].
        constructor; [|constructor]. exists n. auto.
    + intros ?. eapply hoare_pre; [apply (IH (done ++ [(c, r)]) _ _ EA')|]. intros s (Hi & (HN & HM & _) & HG). auto.
  - eapply hoare_pre; [apply (IH (done ++ [(c, r)]) _ _ EA')|]. intros s (_ & _ & Hi & (HN & HM & HG & _)). auto.
Qed.

Definition counted (c : Z * Z * Z) : Prop := let '(total, succ, fail) := c in total = succ + fail.

Lemma iteration_spec c goals : counted c ->
  hoare (fun s => inv (fst s) /\ Forall (goal_at (fst s)) goals) (rrt_iteration cb c goals)
    (fun r s => counted (fst r) /\ inv (fst s) /\ Forall (goal_at (fst s)) (snd r)) still.
Proof.
  destruct c as [[total succ] fail]. intros C. unfold rrt_iteration.
  set (P := fun t => inv t /\ Forall (goal_at t) goals).
  eapply hoare_bind; [eapply hoare_weaken; [apply (hoare_known (sampling_fn cb) P)|auto|intros a s H; exact H|intros e s H; exact (proj1 H)]|].
  intros x. apply hoare_pure. intros _. eapply hoare_bind; [apply hoare_tree|]. intros t.
  eapply hoare_bind; [eapply hoare_weaken; [apply (hoare_known _ (fun t1 => t = t1 /\ P t1))|auto|intros a s H; exact H|intros e s H; exact (proj1 (proj2 H))]|].
  intros nearest. apply hoare_pure. intros _.
  eapply hoare_bind with (Q := fun n s => tree_at (fst s) nearest n /\ P (fst s)).
  { apply hoare_lift. intros s [-> H]. destruct (get_tree_node_cases (fst s) nearest) as [(n & -> & Hn)|[-> _]]; [auto|exact (proj1 H)]. }
  intros n.
  eapply hoare_bind; [eapply hoare_weaken; [apply (hoare_known _ (fun t1 => tree_at t1 nearest n /\ P t1))|auto|intros a s H; exact H|intros e s H; exact (proj1 (proj2 H))]|].
  intros props. apply hoare_pure. intros (w & w' & EP). apply PROP in EP.
  destruct props as [|pr props].
  - apply hoare_ret. intros s [_ [Hi HG]]. cbn in *. split; [lia|auto].
  - eapply hoare_bind.
    + eapply hoare_pre; [apply (add_propagated_spec nearest (state_value n) _ EP (pr :: props) [] [] goals eq_refl)|].
      intros s (Hn & Hi & HG). split; [exact Hi|]. split; [exists n; auto|]. split; [|exact HG].
      split; [reflexivity|]. intros [|k] i c r A; discriminate A.
    + intros goals'. apply hoare_ret. intros s [Hi HG]. cbn in *. split; [lia|auto].
Qed.

Lemma loop_spec fuel : forall c goals, counted c ->
  hoare (fun s => inv (fst s) /\ Forall (goal_at (fst s)) goals) (rrt_loop cb fuel c goals)
    (fun r s => counted (fst r) /\ inv (fst s) /\ Forall (goal_at (fst s)) (snd r)) still.
Proof.
  induction fuel as [|f IH]; intros c goals C; cbn [rrt_loop];
    (eapply hoare_bind; [apply hoare_tree|]; intros t;
     eapply hoare_bind;
       [eapply hoare_weaken; [apply (hoare_known (termination_check_fn cb (TreeSize t)) (fun t1 => t = t1 /\ inv t1 /\ Forall (goal_at t1) goals))|auto|intros a s H; exact H|intros e s H; exact (proj1 (proj2 H))]|];
     intros b; apply hoare_pure; intros _; destruct b).
  - apply hoare_ret. intros s [_ H]. auto.
  - intros s [_ H]. exact (proj1 H).
  - apply hoare_ret. intros s [_ H]. auto.
  - eapply hoare_bind.
    + eapply hoare_pre; [apply (iteration_spec c goals C)|]. intros s [_ H]. exact H.
    + intros [c' goals']. apply hoare_pure. intros C'. apply IH. exact C'.
Qed.

Definition good_path (t : tree) (path : list S) : Prop :=
  starts_with root path /\ ends_with accepted path /\ consecutive edge path /\ exists i, path_to t i path.

Lemma paths_spec t : sound_tree once root edge t -> forall goals, Forall (goal_at t) goals ->
  exists paths, ExtractSolutionPaths t goals = Ok paths /\ Forall (good_path t) paths /\ length paths = length goals.
Proof.
  intros So. induction goals as [|g goals IH]; intros H.
  - exists []. repeat split. constructor.
  - inversion H as [|x l (n & Hn & An) H2]; subst. destruct (IH H2) as (ps & E & F & L).
    destruct (extract_ok t g (proj1 So) (tree_at_range _ _ _ Hn)) as [p Ep].
    exists (p :: ps). cbn [ExtractSolutionPaths]. rewrite Ep. cbn [bind]. rewrite E. cbn [bind].
    apply extract_path in Ep. destruct (path_sound _ _ _ _ _ _ So Ep) as [Hs Hc].
    destruct (path_ends _ _ _ _ Ep Hn) as [r Er].
    split; [reflexivity|]. split; [|cbn; congruence]. constructor; [|exact F].
    split; [exact Hs|]. split; [exists (state_value n), r; auto|]. split; [exact Hc|eauto].
Qed.

Lemma plan_spec fuel :
  hoare (fun s => inv (fst s)) (RRTPlanMultiPath cb fuel)
    (fun r s => inv (fst s) /\ Forall (good_path (fst s)) (fst r) /\
       total_samples (snd r) = successful_samples (snd r) + failed_samples (snd r) /\
       total_states (snd r) = TreeSize (fst s) /\ solutions (snd r) = Z.of_nat (length (fst r))) still.
Proof.
  unfold RRTPlanMultiPath. eapply hoare_bind; [apply hoare_tree|]. intros t. apply hoare_if; intros _.
  { intros s [_ H]. exact H. }
  eapply hoare_bind.
  { eapply hoare_pre; [apply (initial_spec fuel 0 [] ltac:(lia))|]. intros s [_ H]. auto. }
  intros goals. eapply hoare_bind; [apply (loop_spec fuel (0, 0, 0) goals); reflexivity|].
  intros [[[total succ] fail] goals']. apply hoare_pure. cbn [counted fst snd]. intros C.
  eapply hoare_bind; [apply hoare_tree|]. intros t1.
  eapply hoare_bind with (Q := fun paths s => t1 = fst s /\ inv (fst s) /\ Forall (good_path (fst s)) paths).
  { apply hoare_lift. intros s [-> [Hi HG]]. destruct (paths_spec _ (proj1 Hi) _ HG) as (ps & -> & F & _). auto. }
  intros paths. apply hoare_ret. intros s (-> & Hi & F). cbn. auto.
Qed.
End Plan.
