(** Proofs about the bidirectional RRT planner (C42, C45). *)
From Verif Require Import Base Effect ParallelismModel RrtModel RrtSpec RrtProof RrtPlan.
Local Open Scope Z_scope.

Section Bi.
Context {S W : Type}.
Notation tree := (list (rrt_node S)).
Notation trees := (tree * tree)%type.
Notation world := (trees * W)%type.
Variable once : bool.
Variables (root : active_tree -> S -> Prop) (edge : active_tree -> S -> S -> Prop) (joins : S -> S -> Prop).
Variable cb : birrt_callbacks S W.
Hypothesis BC : birrt_contract once root edge joins cb.
Variable p0 : trees.

Definition binv (p : trees) : Prop := sound_trees once root edge p /\ trees_extend p0 p.
Definition bstill {A} : A -> world -> Prop := fun _ s => binv (fst s).
Definition bstable (R : trees -> Prop) : Prop := forall p p', trees_extend p p' -> R p -> R p'.
Definition pair_of (a : active_tree) (t o : tree) : trees :=
  match a with START_TREE => (t, o) | GOAL_TREE => (o, t) end.
Definition other (a : active_tree) : active_tree := match a with START_TREE => GOAL_TREE | GOAL_TREE => START_TREE end.

Lemma tree_of_pair a t o : tree_of a (pair_of a t o) = t.
Proof. destruct a; reflexivity. Qed.
Lemma other_of_pair a t o : tree_of (other a) (pair_of a t o) = o.
Proof. destruct a; reflexivity. Qed.
Lemma pair_of_tree a p : pair_of a (tree_of a p) (tree_of (other a) p) = p.
Proof. destruct a, p; reflexivity. Qed.
Lemma trees_extend_refl (p : trees) : trees_extend p p.
Proof. intros a. apply extends_refl. Qed.
Lemma trees_extend_trans (p1 p2 p3 : trees) : trees_extend p1 p2 -> trees_extend p2 p3 -> trees_extend p1 p3.
Proof. intros A B a. eapply extends_trans; [apply A|apply B]. Qed.
Lemma pair_extend a t t' o : tree_extends t t' -> trees_extend (pair_of a t o) (pair_of a t' o).
Proof. intros E b. destruct a, b; cbn; try exact E; apply extends_refl. Qed.

(** What is done to the active tree. *)
Lemma on_active_hoare {A} a (m : eff (tree * W) A) (P : trees -> Prop) (Q : A -> trees -> Prop) :
  (forall o, hoare (fun s => P (pair_of a (fst s) o)) m (fun x s => Q x (pair_of a (fst s) o)) (fun _ s => binv (pair_of a (fst s) o))) ->
  hoare (fun s : world => P (fst s)) (on_active a m) (fun x s => Q x (fst s)) bstill.
Proof.
  intros H [[st gt] w] HP. unfold bstill. destruct a; cbn in *.
  - specialize (H gt (st, w) HP). destruct (m (st, w)) as [[x|e| |] [t w']]; exact H.
  - specialize (H st (gt, w) HP). destruct (m (gt, w)) as [[x|e| |] [t w']]; exact H.
Qed.

Definition bridge_at (p : trees) (b : Z * Z) : Prop :=
  exists s g, state_at (fst p) (fst b) s /\ state_at (snd p) (snd b) g /\ joins s g.
Lemma bridge_stable b : bstable (fun p => bridge_at p b).
Proof.
  intros p p' E (s & g & A & B & J). exists s, g. split; [|split; [|exact J]].
  - eapply state_at_stable; [exact (E START_TREE)|exact A].
  - eapply state_at_stable; [exact (E GOAL_TREE)|exact B].
Qed.
Lemma bridges_stable l : bstable (fun p => Forall (bridge_at p) l).
Proof. intros p p' E H. eapply Forall_impl; [|exact H]. intros b. apply bridge_stable. exact E. Qed.
Lemma bstable_and R Q : bstable R -> bstable Q -> bstable (fun p => R p /\ Q p).
Proof. intros HR HQ p p' E [A B]. split; [eapply HR; eauto|eapply HQ; eauto]. Qed.
Lemma bstable_tree a (R : tree -> Prop) : stable R -> bstable (fun p => R (tree_of a p)).
Proof. intros H p p' E X. eapply H; [apply (E a)|exact X]. Qed.

Lemma start_hoare (P : trees -> Prop) (E : stop -> world -> Prop) :
  hoare (fun s : world => P (fst s)) (start_tree : eff world tree) (fun t s => t = fst (fst s) /\ P (fst s)) E.
Proof. intros s H. cbn. auto. Qed.
Lemma goal_hoare (P : trees -> Prop) (E : stop -> world -> Prop) :
  hoare (fun s : world => P (fst s)) (goal_tree : eff world tree) (fun t s => t = snd (fst s) /\ P (fst s)) E.
Proof. intros s H. cbn. auto. Qed.
Lemma active_hoare a (P : trees -> Prop) (E : stop -> world -> Prop) :
  hoare (fun s : world => P (fst s)) (active_of a : eff world tree) (fun t s => t = tree_of a (fst s) /\ P (fst s)) E.
Proof. intros s H. destruct a; cbn; auto. Qed.
Lemma target_hoare a (P : trees -> Prop) (E : stop -> world -> Prop) :
  hoare (fun s : world => P (fst s)) (target_of a : eff world tree) (fun t s => t = tree_of (other a) (fst s) /\ P (fst s)) E.
Proof. intros s H. destruct a; cbn; auto. Qed.

(** A user function that does not see the trees. *)
Lemma user_hoare {A} (m : eff W A) (P : trees -> Prop) : (forall p, P p -> binv p) ->
  hoare (fun s : world => P (fst s)) (on_snd m)
    (fun a s => (exists w w', m w = (Ok a, w')) /\ P (fst s)) bstill.
Proof.
  intros HI. eapply hoare_weaken; [apply (hoare_known m P)|auto|auto|]. intros e s H. exact (HI _ H).
Qed.

Lemma bridge_callback_hoare f i R : goal_bridge_callback_fn cb = Some f -> bstable R ->
  hoare (fun s : world => binv (fst s) /\ R (fst s)) (f i) (fun _ s => binv (fst s) /\ R (fst s)) bstill.
Proof.
  intros EF HR [p w] [[I X] Q]. destruct (bc_bridge _ _ _ _ _ BC f EF i p w I) as [I' X']. unfold bstill, binv.
  destruct (f i (p, w)) as [[a|e| |] [p' w']]; cbn [fst snd] in *;
    first [split; [split; [exact I'|exact (trees_extend_trans _ _ _ X X')]|exact (HR _ _ X' Q)]
          |split; [exact I'|exact (trees_extend_trans _ _ _ X X')]].
Qed.

Lemma get_node_hoare a t i (P : trees -> Prop) : (forall p, P p -> binv p) ->
  hoare (fun s : world => t = tree_of a (fst s) /\ P (fst s)) (lift (GetTreeNode t i))
    (fun n s => tree_at (tree_of a (fst s)) i n /\ P (fst s)) bstill.
Proof.
  intros HI. apply hoare_lift. intros s [-> H].
  destruct (get_tree_node_cases (tree_of a (fst s)) i) as [(n & -> & Hn)|[-> _]]; [auto|exact (HI _ H)].
Qed.

Lemma make_bridge_hoare si gi (P : trees -> Prop) : (forall p, P p -> binv p) ->
  hoare (fun s : world => P (fst s)) (lift (MakeGoalBridge si gi)) (fun b s => b = (si, gi) /\ P (fst s)) bstill.
Proof.
  intros HI. apply hoare_lift. intros s H. unfold MakeGoalBridge.
  destruct (si <? 0); [exact (HI _ H)|]. destruct (gi <? 0); [exact (HI _ H)|]. auto.
Qed.

Definition with_bridges (l : list (Z * Z)) (p : trees) : Prop := binv p /\ Forall (bridge_at p) l.

Lemma initial_inner_spec fuel : forall si gi bridges,
  hoare (fun s : world => with_bridges bridges (fst s)) (initial_bridges_inner cb fuel si gi bridges)
    (fun l s => with_bridges l (fst s)) bstill.
Proof.
  induction fuel as [|f IH]; intros si gi bridges; cbn [initial_bridges_inner];
    (eapply hoare_bind; [apply (goal_hoare (with_bridges bridges))|]; intros gt; apply hoare_if; intros _;
     [|apply hoare_ret; intros s [_ H]; exact H]).
  { intros s [_ H]. exact (proj1 H). }
  eapply hoare_bind; [apply (start_hoare (fun p => gt = snd p /\ with_bridges bridges p))|]. intros st.
  eapply hoare_bind with (Q := fun n s => tree_at (fst (fst s)) si n /\ gt = snd (fst s) /\ with_bridges bridges (fst s)).
  { apply (get_node_hoare START_TREE st si (fun p => gt = snd p /\ with_bridges bridges p)). intros p [_ H]. exact (proj1 H). }
  intros sn.
  eapply hoare_bind with (Q := fun n s => tree_at (snd (fst s)) gi n /\ tree_at (fst (fst s)) si sn /\ with_bridges bridges (fst s)).
  { eapply hoare_pre; [apply (get_node_hoare GOAL_TREE gt gi (fun p => tree_at (fst p) si sn /\ with_bridges bridges p))|].
    - intros p [_ H]. exact (proj1 H).
    - intros s (A & B & C). cbn. auto. }
  intros gn.
  eapply hoare_bind.
  { apply (user_hoare (states_connected_fn cb (state_value sn) (state_value gn) START_TREE)
      (fun p => tree_at (snd p) gi gn /\ tree_at (fst p) si sn /\ with_bridges bridges p)). intros p (_ & _ & H). exact (proj1 H). }
  intros b. apply hoare_pure. intros (w & w' & EC). destruct b.
  - apply (bc_start _ _ _ _ _ BC) in EC.
    eapply hoare_bind.
    { apply (make_bridge_hoare si gi (fun p => tree_at (snd p) gi gn /\ tree_at (fst p) si sn /\ with_bridges bridges p)).
      intros p (_ & _ & H). exact (proj1 H). }
    intros bridge. apply hoare_pure. intros ->.
    eapply hoare_bind with (Q := fun _ s => with_bridges (bridges ++ [(si, gi)]) (fst s)); [|intros ?; apply IH].
    destruct (goal_bridge_callback_fn cb) as [g|] eqn:EG; cbn [call].
    + eapply hoare_pre; [apply (bridge_callback_hoare g (si, gi, START_TREE) (fun p => Forall (bridge_at p) (bridges ++ [(si, gi)])) EG); apply bridges_stable|].
      intros s (A & B & C & D). split; [exact C|]. apply Forall_app. split; [exact D|]. constructor; [|constructor].
      exists (state_value sn), (state_value gn). split; [exists sn; auto|]. split; [exists gn; auto|exact EC].
    + intros s (_ & _ & H). exact (proj1 H).
  - eapply hoare_pre; [apply IH|]. intros s (_ & _ & H). exact H.
Qed.

Lemma initial_bridges_spec fuel : forall si bridges,
  hoare (fun s : world => with_bridges bridges (fst s)) (initial_bridges cb fuel si bridges)
    (fun l s => with_bridges l (fst s)) bstill.
Proof.
  induction fuel as [|f IH]; intros si bridges; cbn [initial_bridges];
    (eapply hoare_bind; [apply (start_hoare (with_bridges bridges))|]; intros st; apply hoare_if; intros _;
     [|apply hoare_ret; intros s [_ H]; exact H]).
  { intros s [_ H]. exact (proj1 H). }
  eapply hoare_bind.
  - eapply hoare_pre; [apply initial_inner_spec|]. intros s [_ H]. exact H.
  - intros l. apply IH.
Qed.

Lemma binv_pair a t o : binv (pair_of a t o) <->
  inv once (root a) (edge a) (tree_of a p0) t /\ inv once (root (other a)) (edge (other a)) (tree_of (other a) p0) o.
Proof.
  unfold binv, inv, sound_trees, trees_extend. split.
  - intros [A B]. pose proof (A a) as A1. pose proof (A (other a)) as A2. pose proof (B a) as B1. pose proof (B (other a)) as B2.
    rewrite tree_of_pair in A1, B1. rewrite other_of_pair in A2, B2. auto.
  - intros [[A1 B1] [A2 B2]]. split; intros b; (destruct a, b; cbn in *; assumption).
Qed.

Lemma active_part {A} a o (R : trees -> Prop) (m : eff (tree * W) A) Q E :
  (inv once (root (other a)) (edge (other a)) (tree_of (other a) p0) o ->
   hoare (fun s => inv once (root a) (edge a) (tree_of a p0) (fst s) /\ R (pair_of a (fst s) o)) m Q E) ->
  hoare (fun s => binv (pair_of a (fst s) o) /\ R (pair_of a (fst s) o)) m Q E.
Proof. intros H s [B X]. apply binv_pair in B as [B1 B2]. exact (H B2 s (conj B1 X)). Qed.

(** The node is added to the active tree. *)
Lemma bi_add_hoare a v parent (R : trees -> Prop) : bstable R ->
  (forall p, R p -> exists n, tree_at (tree_of a p) parent n /\ edge a (state_value n) v) ->
  hoare (fun s : world => binv (fst s) /\ R (fst s)) (on_active a (on_fst (AddNodeAndConnect v parent)))
    (fun i s => binv (fst s) /\ R (fst s) /\ state_at (tree_of a (fst s)) i v) bstill.
Proof.
  intros HR HP. apply (on_active_hoare a _ (fun p => binv p /\ R p) (fun i p => binv p /\ R p /\ state_at (tree_of a p) i v)).
  intros o. apply active_part. intros IO.
  eapply hoare_weaken;
    [apply (add_connect_hoare once (root a) (edge a) (tree_of a p0) v parent (fun t => R (pair_of a t o)))| | |].
  - intros t t' E B. eapply HR; [apply pair_extend; exact E|exact B].
  - intros t B. destruct (HP _ B) as (n & Hn & En). rewrite tree_of_pair in Hn. eauto.
  - auto.
  - intros i s (A & C & D & _). rewrite tree_of_pair. split; [apply binv_pair; auto|auto].
  - intros e s A. apply binv_pair. auto.
Qed.

(** The user's callback is given the active tree. *)
Lemma bi_added_hoare a i (R : trees -> Prop) : bstable R ->
  hoare (fun s : world => binv (fst s) /\ R (fst s))
    (match bi_state_added_callback_fn cb with Some f => on_active a (f (i, a)) | None => ret tt end)
    (fun _ s => binv (fst s) /\ R (fst s)) bstill.
Proof.
  intros HR. destruct (bi_state_added_callback_fn cb) as [f|] eqn:EF; [|apply hoare_ret; auto].
  apply (on_active_hoare a _ (fun p => binv p /\ R p) (fun _ p => binv p /\ R p)).
  intros o. apply active_part. intros IO.
  eapply hoare_weaken;
    [apply (hoare_callback once (root a) (edge a) (tree_of a p0) (f (i, a)) (fun t => R (pair_of a t o)))| | |].
  - exact (bc_added _ _ _ _ _ BC f EF i a).
  - intros t t' E B. eapply HR; [apply pair_extend; exact E|exact B].
  - auto.
  - intros x s [A C]. split; [apply binv_pair; auto|exact C].
  - intros e s A. apply binv_pair. auto.
Qed.

Lemma bi_propagated_spec a (target : option (Z * S)) nearest from (all : list (S * Z)) : joined (edge a) from all ->
  forall rest done mapping (bridges : list (Z * Z)), all = done ++ rest ->
  hoare (fun s : world => binv (fst s) /\ state_at (tree_of a (fst s)) nearest from /\ mapped mapping done (tree_of a (fst s)) /\ (forall i x, target = Some (i, x) -> state_at (tree_of (other a) (fst s)) i x) /\ Forall (bridge_at (fst s)) bridges)
    (add_bi_propagated cb a target nearest mapping rest bridges)
    (fun l s => with_bridges l (fst s)) bstill.
Proof.
  intros J. induction rest as [|[c r] rest IH]; intros done mapping bridges EA; cbn [add_bi_propagated].
  { apply hoare_ret. unfold with_bridges. tauto. }
  set (TG := fun p : trees => forall i x, target = Some (i, x) -> state_at (tree_of (other a) p) i x).
  assert (ST : bstable TG).
  { intros p p' E H i x ET. eapply state_at_stable; [apply (E (other a))|exact (H i x ET)]. }
  set (R := fun p : trees => state_at (tree_of a p) nearest from /\ mapped mapping done (tree_of a p) /\ TG p /\ Forall (bridge_at p) bridges).
  assert (SR : bstable R).
  { unfold R. apply bstable_and; [apply (bstable_tree a (fun t => state_at t nearest from)), state_at_stable|].
    apply bstable_and; [apply (bstable_tree a (mapped mapping done)), mapped_stable|]. apply bstable_and; [exact ST|apply bridges_stable]. }
  destruct (J (length done) c r) as [J1 J2]. { rewrite EA, nth_error_app2, Nat.sub_diag by lia. reflexivity. }
  eapply hoare_bind with (Q := fun parent s => binv (fst s) /\ R (fst s) /\ exists p, tree_at (tree_of a (fst s)) parent p /\ edge a (state_value p) c).
  { destruct (Z.leb_spec 0 r) as [P|P].
    - apply hoare_lift. intros s (Hi & HN & [ML MA] & HT & HG). unfold at_get.
      destruct (nth_error mapping (Z.to_nat r)) as [i|] eqn:E; [|exact Hi].
      split; [exact Hi|]. split; [unfold R; unfold mapped; auto 6|].
      assert (LT : (Z.to_nat r < length done)%nat) by (rewrite <- ML; apply nth_error_Some; congruence).
      destruct (nth_error done (Z.to_nat r)) as [[c' r']|] eqn:ED.
      + destruct (MA _ _ _ _ E ED) as (n & Hn & Vn). exists n. split; [exact Hn|]. rewrite Vn. apply (J2 c' r' P).
        rewrite EA, nth_error_app1 by exact LT. exact ED.
      + apply nth_error_None in ED. lia.
    - apply hoare_ret. intros s (Hi & HN & HM & HT & HG). split; [exact Hi|]. split; [unfold R; auto|].
      destruct HN as (n & Hn & Vn). exists n. split; [exact Hn|]. rewrite Vn. apply J1. exact P. }
  intros parent.
  eapply hoare_bind.
  { eapply hoare_pre.
    - apply (bi_add_hoare a c parent (fun t => R t /\ exists p, tree_at (tree_of a t) parent p /\ edge a (state_value p) c)).
      + intros t t' E [HR (p & Hp & Ep)]. split; [eapply SR; eauto|]. destruct (E a _ _ Hp) as (p' & Hp' & V & _).
        exists p'. split; [exact Hp'|congruence].
      + intros t [_ H]. exact H.
    - tauto. }
  intros i. cbv zeta.
  set (R' := fun p : trees => state_at (tree_of a p) nearest from /\ mapped (mapping ++ [i]) (done ++ [(c, r)]) (tree_of a p) /\ TG p /\ Forall (bridge_at p) bridges).
  assert (SR' : bstable R').
  { unfold R'. apply bstable_and; [apply (bstable_tree a (fun t => state_at t nearest from)), state_at_stable|].
    apply bstable_and; [apply (bstable_tree a (mapped _ _)), mapped_stable|]. apply bstable_and; [exact ST|apply bridges_stable]. }
  eapply hoare_bind.
  { eapply hoare_pre; [apply (bi_added_hoare a i R' SR')|].
    intros s (Hi & ((HN & [ML MA] & HT & HG) & _) & HS). split; [exact Hi|]. unfold R'. split; [exact HN|]. split; [|auto].
    split; [rewrite !app_length; cbn; lia|]. intros k j c' r' A B.
    destruct (Nat.lt_ge_cases k (length mapping)) as [L|L].
    - rewrite nth_error_app1 in A by lia. rewrite nth_error_app1 in B by lia. eauto.
    - rewrite nth_error_app2 in A by lia. rewrite nth_error_app2 in B by lia. rewrite <- ML in B.
      destruct (k - length mapping)%nat as [|m]; [|destruct m; discriminate]. cbn in A, B. injection A as <-. injection B as <- <-. exact HS. }
  intros ?.
  assert (EA' : all = (done ++ [(c, r)]) ++ rest) by (rewrite EA, <- app_assoc; reflexivity).
  assert (NEXT : hoare (fun s : world => binv (fst s) /\ R' (fst s)) (add_bi_propagated cb a target nearest (mapping ++ [i]) rest bridges)
           (fun l s => with_bridges l (fst s)) bstill) by (apply (IH (done ++ [(c, r)]) _ _ EA')).
  destruct target as [[ti ts]|]; [|exact NEXT].
  eapply hoare_bind; [apply (active_hoare a (fun p => binv p /\ R' p))|]. intros t.
  eapply hoare_bind; [apply (get_node_hoare a t i (fun p => binv p /\ R' p)); tauto|]. intros n.
  eapply hoare_bind.
  { apply (user_hoare (states_connected_fn cb (state_value n) ts a) (fun p => tree_at (tree_of a p) i n /\ binv p /\ R' p)). tauto. }
  intros b. apply hoare_pure. intros (w & w' & EC). destruct b; [|eapply hoare_pre; [exact NEXT|tauto]].
  set (B := match a with START_TREE => (i, ti) | GOAL_TREE => (ti, i) end).
  eapply hoare_bind with (Q := fun bridge s => bridge = B /\ tree_at (tree_of a (fst s)) i n /\ binv (fst s) /\ R' (fst s)).
  { unfold B. destruct a;
      apply (make_bridge_hoare _ _ (fun p => tree_at (tree_of _ p) i n /\ binv p /\ R' p)); tauto. }
  intros bridge. apply hoare_pure. intros ->.
  assert (BA : forall p, tree_at (tree_of a p) i n -> R' p -> bridge_at p B).
  { intros p Hn (_ & _ & HT & _). specialize (HT ti ts eq_refl). unfold B. destruct a; cbn in *.
    - exists (state_value n), ts. split; [exists n; auto|]. split; [exact HT|]. exact (bc_start _ _ _ _ _ BC _ _ _ _ EC).
    - exists ts, (state_value n). split; [exact HT|]. split; [exists n; auto|]. exact (bc_goal _ _ _ _ _ BC _ _ _ _ EC). }
  eapply hoare_bind with (Q := fun _ s => binv (fst s) /\ R' (fst s) /\ bridge_at (fst s) B).
  { destruct (goal_bridge_callback_fn cb) as [g|] eqn:EG.
    - eapply hoare_pre; [apply (bridge_callback_hoare g _ (fun p => R' p /\ bridge_at p B) EG); apply bstable_and; [exact SR'|apply bridge_stable]|].
      intros s (Hn & Hi & HR). auto.
    - apply hoare_ret. intros s (Hn & Hi & HR). auto. }
  intros ?. eapply hoare_pre; [apply (IH (done ++ [(c, r)]) _ _ EA')|].
  intros s (Hi & (HN & HM & HT & HG) & HB). split; [exact Hi|]. split; [exact HN|]. split; [exact HM|]. split; [exact HT|].
  apply Forall_app. split; [exact HG|]. constructor; [exact HB|constructor].
Qed.

Definition bi_counted (c : birrt_statistics) : Prop :=
  bi_total_samples c = bi_successful_samples c + bi_failed_samples c /\
  bi_total_samples c = start_tree_active_iterations c + goal_tree_active_iterations c /\
  0 <= active_tree_swaps c <= bi_total_samples c.

Lemma bi_iteration_spec a c bridges : bi_counted c ->
  hoare (fun s : world => with_bridges bridges (fst s)) (birrt_iteration cb a c bridges)
    (fun r s => bi_counted (snd (fst r)) /\ with_bridges (snd r) (fst s)) bstill.
Proof.
  destruct c as [si gi total succ fail swaps states sols]. intros C. unfold birrt_iteration. cbv zeta.
  set (P := with_bridges bridges).
  assert (HP : forall p, P p -> binv p) by (intros p H; exact (proj1 H)).
  eapply hoare_bind with (Q := fun _ s => P (fst s)); [intros s H; exact H|]. intros st.
  eapply hoare_bind with (Q := fun _ s => P (fst s)); [intros s H; exact H|]. intros gt.
  eapply hoare_bind; [apply (user_hoare _ P HP)|]. intros kind. apply hoare_pure. intros _.
  set (TG := fun (target : option (Z * S)) (p : trees) => forall i x, target = Some (i, x) -> state_at (tree_of (other a) p) i x).
  eapply hoare_bind with (Q := fun r s => TG (snd r) (fst s) /\ P (fst s)).
  { destruct kind.
    - eapply hoare_bind; [apply (target_hoare a P)|]. intros tt0.
      eapply hoare_bind; [apply (user_hoare _ (fun p => tt0 = tree_of (other a) p /\ P p)); intros p [_ H]; exact (HP _ H)|].
      intros i. apply hoare_pure. intros _.
      eapply hoare_bind; [apply (get_node_hoare (other a) tt0 i P HP)|]. intros n. apply hoare_ret.
      intros s [Hn H]. split; [|exact H]. intros j x E. cbn in E. injection E as <- <-. exists n. auto.
    - eapply hoare_bind; [apply (user_hoare _ P HP)|]. intros x. apply hoare_pure. intros _. apply hoare_ret.
      intros s H. split; [|exact H]. intros j y E. discriminate E. }
  intros [ts target]. cbn [snd].
  eapply hoare_bind; [apply (active_hoare a (fun p => TG target p /\ P p))|]. intros t.
  eapply hoare_bind.
  { apply (user_hoare _ (fun p => t = tree_of a p /\ TG target p /\ P p)). intros p (_ & _ & H). exact (HP _ H). }
  intros nearest. apply hoare_pure. intros _.
  eapply hoare_bind; [apply (get_node_hoare a t nearest (fun p => TG target p /\ P p)); intros p [_ H]; exact (HP _ H)|]. intros n.
  eapply hoare_bind.
  { apply (user_hoare _ (fun p => tree_at (tree_of a p) nearest n /\ TG target p /\ P p)). intros p (_ & _ & H). exact (HP _ H). }
  intros props. apply hoare_pure. intros (w & w' & EP). apply (bc_prop _ _ _ _ _ BC a) in EP.
  eapply hoare_bind with (Q := fun r s => fst (fst r) + snd (fst r) = succ + fail + 1 /\ with_bridges (snd r) (fst s)).
  { destruct props as [|pr props].
    - apply hoare_ret. intros s (_ & _ & H). cbn. split; [lia|exact H].
    - eapply hoare_bind.
      + eapply hoare_pre; [apply (bi_propagated_spec a target nearest (state_value n) _ EP (pr :: props) [] [] bridges eq_refl)|].
        intros s (Hn & HT & Hi & HG). split; [exact Hi|]. split; [exists n; auto|]. split; [|split; [exact HT|exact HG]].
        split; [reflexivity|]. intros [|k] i c r A; discriminate A.
      + intros l. apply hoare_ret. intros s H. cbn. split; [lia|exact H]. }
  intros [[succ' fail'] l]. cbn [fst snd]. apply hoare_pure. intros CT.
  eapply hoare_bind with (Q := fun _ s => with_bridges l (fst s)); [intros s H; exact H|]. intros st2.
  eapply hoare_bind with (Q := fun _ s => with_bridges l (fst s)); [intros s H; exact H|]. intros gt2.
  eapply hoare_bind; [apply (user_hoare _ (with_bridges l)); intros p H; exact (proj1 H)|]. intros a'. apply hoare_pure. intros _.
  apply hoare_ret. intros s H. cbn [fst snd]. split; [|exact H].
  unfold bi_counted in *. cbn in *. destruct a, a'; lia.
Qed.

Lemma bi_loop_spec fuel : forall a c bridges, bi_counted c ->
  hoare (fun s : world => with_bridges bridges (fst s)) (birrt_loop cb fuel a c bridges)
    (fun r s => bi_counted (fst r) /\ with_bridges (snd r) (fst s)) bstill.
Proof.
  induction fuel as [|f IH]; intros a c bridges C; cbn [birrt_loop];
    (eapply hoare_bind with (Q := fun _ s => with_bridges bridges (fst s)); [intros s H; exact H|]; intros st;
     eapply hoare_bind with (Q := fun _ s => with_bridges bridges (fst s)); [intros s H; exact H|]; intros gt;
     eapply hoare_bind; [apply (user_hoare _ (with_bridges bridges)); intros p H; exact (proj1 H)|];
     intros b; apply hoare_pure; intros _; destruct b; [apply hoare_ret; auto|]).
  - intros s H. exact (proj1 H).
  - eapply hoare_bind; [apply (bi_iteration_spec a c bridges C)|]. intros [[a' c'] l]. cbn [fst snd].
    apply hoare_pure. intros C'. apply IH. exact C'.
Qed.

Definition good_bridge_path (p : trees) (path : list S) : Prop :=
  exists start_path goal_path s g,
    path = start_path ++ rev goal_path /\
    starts_with (root START_TREE) start_path /\ consecutive (edge START_TREE) start_path /\ ends_with (eq s) start_path /\
    starts_with (root GOAL_TREE) goal_path /\ consecutive (edge GOAL_TREE) goal_path /\ ends_with (eq g) goal_path /\
    joins s g /\ exists si gi, path_to (fst p) si start_path /\ path_to (snd p) gi goal_path.

Lemma bridge_paths_spec (p : trees) : sound_trees once root edge p -> forall bridges, Forall (bridge_at p) bridges ->
  exists paths, bridge_paths (fst p) (snd p) bridges = Ok paths /\ Forall (good_bridge_path p) paths.
Proof.
  intros So. pose proof (So START_TREE) as S1. pose proof (So GOAL_TREE) as S2. cbn in S1, S2.
  induction bridges as [|[si gi] bridges IH]; intros H; [exists []; split; [reflexivity|constructor]|].
  inversion H as [|x l (s & g & (n & Hn & Vn) & (m & Hm & Vm) & J) H2]; subst. cbn [fst snd] in *. destruct (IH H2) as (ps & E & F).
  destruct (extract_ok (fst p) si (proj1 S1) (tree_at_range _ _ _ Hn)) as [sp Es].
  destruct (extract_ok (snd p) gi (proj1 S2) (tree_at_range _ _ _ Hm)) as [gp Eg].
  exists ((sp ++ rev gp) :: ps). cbn [bridge_paths]. rewrite Es. cbn [bind]. rewrite Eg. cbn [bind]. rewrite E. cbn [bind].
  split; [reflexivity|]. constructor; [|exact F].
  apply extract_path in Es, Eg. destruct (path_sound _ _ _ _ _ _ S1 Es) as [A1 A2]. destruct (path_sound _ _ _ _ _ _ S2 Eg) as [B1 B2].
  destruct (path_ends _ _ _ _ Es Hn) as [r1 R1]. destruct (path_ends _ _ _ _ Eg Hm) as [r2 R2].
  exists sp, gp, (state_value n), (state_value m). split; [reflexivity|]. split; [exact A1|]. split; [exact A2|].
  split; [exists (state_value n), r1; auto|]. split; [exact B1|]. split; [exact B2|]. split; [exists (state_value m), r2; auto|].
  split; [exact J|]. exists si, gi. auto.
Qed.

Lemma bi_plan_spec fuel :
  hoare (fun s : world => binv (fst s)) (BiRRTPlanMultiPath cb fuel)
    (fun r s => binv (fst s) /\ Forall (good_bridge_path (fst s)) (fst r) /\ bi_counted (snd r) /\
       bi_total_states (snd r) = TreeSize (fst (fst s)) + TreeSize (snd (fst s)) /\
       bi_solutions (snd r) = Z.of_nat (length (fst r))) bstill.
Proof.
  unfold BiRRTPlanMultiPath. eapply hoare_bind; [apply (start_hoare binv)|]. intros st. apply hoare_if; intros _.
  { intros s [_ H]. exact H. }
  eapply hoare_bind with (Q := fun _ s => binv (fst s)); [intros s [_ H]; exact H|]. intros gt. apply hoare_if; intros _.
  { intros s H. exact H. }
  eapply hoare_bind.
  { eapply hoare_pre; [apply (initial_bridges_spec fuel 0 [])|]. intros s H. split; [exact H|constructor]. }
  intros bridges. eapply hoare_bind; [apply (bi_loop_spec fuel START_TREE (mkBiStats 0 0 0 0 0 0 0 0) bridges); unfold bi_counted; cbn; lia|].
  intros [c l]. cbn [fst snd]. apply hoare_pure. intros C.
  eapply hoare_bind; [apply (start_hoare (with_bridges l))|]. intros st1.
  eapply hoare_bind; [apply (goal_hoare (fun p => st1 = fst p /\ with_bridges l p))|]. intros gt1.
  eapply hoare_bind with (Q := fun paths s => (st1, gt1) = fst s /\ binv (fst s) /\ Forall (good_bridge_path (fst s)) paths).
  { apply hoare_lift. intros [[a b] w] (E1 & E2 & Hi & HG). cbn [fst snd] in *. subst.
    destruct (bridge_paths_spec _ (proj1 Hi) _ HG) as (ps & Eps & F). cbn [fst snd] in Eps. rewrite Eps. auto. }
  intros paths. apply hoare_ret. intros [[a b] w] (E & Hi & F). cbn [fst snd] in *. injection E as -> ->.
  split; [exact Hi|]. split; [exact F|]. split; [exact C|]. split; reflexivity.
Qed.
End Bi.
