(** C161: references.  The specification is in RefMaybeSpec.v; a history is a list of
    calls, the latest first, and [rev h] is the program. *)
From Verif Require Import Base RefMaybeModel RefMaybeSpec.

Lemma set_nth_length {X} (v : X) : forall l n, length (set_nth n v l) = length l.
Proof. induction l as [|a l IH]; intros [|n]; cbn [set_nth length]; auto. Qed.
Lemma nth_set {X} (v : X) : forall l n k, nth_error (set_nth n v l) k = if k =? n then (if n <? length l then Some v else None) else nth_error l k.
Proof.
  induction l as [|a l IH]; intros [|n] [|k]; try reflexivity; cbn [set_nth nth_error length]; rewrite ?IH; try reflexivity.
  - cbn [Nat.eqb]. destruct (k =? n); reflexivity.
Qed.
Lemma nth_app {X} (l : list X) v k : nth_error (l ++ [v]) k = if k =? length l then Some v else nth_error l k.
Proof.
  destruct (Nat.eqb_spec k (length l)) as [->|N]; [rewrite nth_error_app2, Nat.sub_diag by lia; reflexivity|].
  destruct (Nat.lt_ge_cases k (length l)) as [L|L]; [apply nth_error_app1, L|]. rewrite nth_error_app2 by exact L.
  destruct (k - length l)%nat as [|[|i]] eqn:E; [lia| |]; cbn [nth_error]; symmetry; apply nth_error_None; lia.
Qed.
Section R.
Variable T : Type.
(** The store mirrors the history. *)
Definition mirrors (s : store T) (h : list (rop T)) : Prop :=
  length (objects s) = made_objects h /\ length (maybes s) = made_maybes h /\
  (forall x, (x < made_maybes h)%nat -> nth_error (maybes s) x = Some (bound h x)) /\
  (forall p, latest h p = match nth_error (objects s) p with Some o => o | None => None end).
Lemma step h o s : mirrors s h -> call_ok h o -> exists s', run_rop o s = Ok (s', expected h o) /\ mirrors s' (o :: h).
Proof.
  intros (LO & LM & M & O) C.
  assert (DE : forall p, lives h p -> exists v, nth_error (objects s) p = Some (Some v)).
  { intros p L. unfold lives in L. rewrite O in L. destruct (nth_error (objects s) p) as [[v|]|]; [eauto|contradiction|contradiction]. }
  assert (LT : forall p v, nth_error (objects s) p = Some v -> (p <? length (objects s)) = true).
  { intros p v E. apply Nat.ltb_lt, nth_error_Some. congruence. }
  assert (LTM : forall x, (x < made_maybes h)%nat -> (x <? length (maybes s)) = true) by (intros x X; apply Nat.ltb_lt; lia).
  destruct o as [v|p v|p| |p|y|y|x y|x y|x|x|x|x v]; cbn [call_ok] in C; cbn [run_rop expected].
  - eexists. split; [reflexivity|]. split; [cbn [objects made_objects]; rewrite app_length; cbn [length]; lia|]. split; [exact LM|]. split; [exact M|].
    intros p. cbn [latest objects]. rewrite nth_app, LO, O. destruct (p =? made_objects h); reflexivity.
  - destruct (DE p C) as (u & E). unfold deref. rewrite E. cbn [bind]. eexists. split; [reflexivity|].
    split; [cbn [objects]; rewrite set_nth_length; exact LO|]. split; [exact LM|]. split; [exact M|]. intros q. cbn [latest objects]. rewrite nth_set, (LT _ _ E), O. destruct (q =? p); reflexivity.
  - destruct (DE p C) as (u & E). unfold deref. rewrite E. cbn [bind]. eexists. split; [reflexivity|].
    split; [cbn [objects]; rewrite set_nth_length; exact LO|]. split; [exact LM|]. split; [exact M|]. intros q. cbn [latest objects]. rewrite nth_set, (LT _ _ E), O. destruct (q =? p); reflexivity.
  - eexists. split; [reflexivity|]. split; [exact LO|]. split; [cbn [maybes made_maybes]; rewrite app_length; cbn [length]; lia|]. split; [|exact O].
    intros x X. cbn [maybes made_maybes bound] in *. rewrite nth_app, LM. destruct (Nat.eqb_spec x (made_maybes h)) as [E|N]; [reflexivity|apply M; lia].
  - destruct (DE p C) as (u & E). unfold deref. rewrite E. cbn [bind]. eexists. split; [reflexivity|].
    split; [exact LO|]. split; [cbn [maybes made_maybes]; rewrite app_length; cbn [length]; lia|]. split; [|exact O].
    intros x X. cbn [maybes made_maybes bound] in *. rewrite nth_app, LM. destruct (Nat.eqb_spec x (made_maybes h)) as [Ex|N]; [reflexivity|apply M; lia].
  - unfold maybe_at. rewrite (M y C). cbn [bind]. eexists. split; [reflexivity|].
    split; [exact LO|]. split; [cbn [maybes made_maybes]; rewrite app_length; cbn [length]; lia|]. split; [|exact O].
    intros x X. cbn [maybes made_maybes bound] in *. rewrite nth_app, LM. destruct (Nat.eqb_spec x (made_maybes h)) as [Ex|N]; [reflexivity|apply M; lia].
  - unfold maybe_at. rewrite (M y C). cbn [bind]. eexists. split; [reflexivity|].
    split; [exact LO|]. split; [cbn [maybes made_maybes]; rewrite app_length; cbn [length]; lia|]. split; [|exact O].
    intros x X. cbn [maybes made_maybes bound] in *. rewrite nth_app, LM. destruct (Nat.eqb_spec x (made_maybes h)) as [Ex|N]; [reflexivity|apply M; lia].
  - destruct C as [X Y]. unfold maybe_at. rewrite (M x X), (M y Y). cbn [bind]. eexists. split; [reflexivity|].
    split; [exact LO|]. split; [cbn [maybes]; rewrite set_nth_length; exact LM|]. split; [|exact O].
    intros z Z. cbn [maybes made_maybes bound] in *. rewrite nth_set, (LTM x X). destruct (z =? x); [reflexivity|apply M; exact Z].
  - destruct C as [X Y]. unfold maybe_at. rewrite (M x X), (M y Y). cbn [bind]. eexists. split; [reflexivity|].
    split; [exact LO|]. split; [cbn [maybes]; rewrite set_nth_length; exact LM|]. split; [|exact O].
    intros z Z. cbn [maybes made_maybes bound] in *. rewrite nth_set, (LTM x X). destruct (z =? x); [reflexivity|apply M; exact Z].
  - unfold maybe_at. rewrite (M x C). cbn [bind]. eexists. split; [reflexivity|].
    split; [exact LO|]. split; [cbn [maybes]; rewrite set_nth_length; exact LM|]. split; [|exact O].
    intros z Z. cbn [maybes made_maybes bound] in *. rewrite nth_set, (LTM x C). destruct (z =? x); [reflexivity|apply M; exact Z].
  - unfold maybe_at. rewrite (M x C). cbn [bind]. exists s. split; [reflexivity|]. split; [exact LO|]. split; [exact LM|]. split; [exact M|exact O].
  - destruct C as [X L]. unfold maybe_at. rewrite (M x X). cbn [bind]. exists s. split; [|split; [exact LO|split; [exact LM|split; [exact M|exact O]]]].
    destruct (bound h x) as [p|]; cbn [Value]; [|reflexivity]. destruct (DE p (L p eq_refl)) as (u & E). unfold deref. rewrite O, E. reflexivity.
  - destruct C as [X L]. unfold maybe_at. rewrite (M x X). cbn [bind]. destruct (bound h x) as [p|] eqn:B; cbn [Value].
    + destruct (DE p (L p eq_refl)) as (u & E). unfold deref. rewrite E. eexists. split; [reflexivity|].
      split; [cbn [objects]; rewrite set_nth_length; exact LO|]. split; [exact LM|]. split; [exact M|]. intros q. cbn [latest objects]. rewrite B, nth_set, (LT _ _ E), O. destruct (q =? p); reflexivity.
    + exists s. split; [reflexivity|]. split; [exact LO|]. split; [exact LM|]. split; [exact M|]. intros q. cbn [latest]. rewrite B. apply O.
Qed.
Lemma run_app os : forall os' (s : store T), run_rops (os ++ os') s = do r <- run_rops os s; do r' <- run_rops os' (fst r); Ok (fst r', snd r ++ snd r').
Proof.
  induction os as [|o os IH]; intros os' s; cbn [app run_rops bind].
  - cbn [fst snd]. destruct (run_rops os' s) as [[s' rs]| | |]; reflexivity.
  - destruct (run_rop o s) as [[s1 r1]| | |]; cbn [bind fst snd]; try reflexivity. rewrite IH. destruct (run_rops os s1) as [[s2 r2]| | |]; cbn [bind fst snd]; try reflexivity.
    destruct (run_rops os' s2) as [[s3 r3]| | |]; reflexivity.
Qed.
Lemma runs h : history_ok h -> exists s, run_rops (rev h) no_objects = Ok (s, replies h) /\ mirrors s h.
Proof.
  induction h as [|o h IH]; cbn [history_ok rev replies].
  - intros _. exists no_objects. split; [reflexivity|]. split; [reflexivity|]. split; [reflexivity|]. split; [intros x X; cbn in X; lia|]. intros [|p]; reflexivity.
  - intros [C H]. destruct (IH H) as (s & E & M). destruct (step h o s M C) as (s' & E' & M'). exists s'. split; [|exact M'].
    rewrite run_app, E. cbn [bind fst snd run_rops]. rewrite E'. reflexivity.
Qed.
End R.

(** C161: every call of every program is answered as the history says, and nothing is
    undefined as long as no reference to a destroyed object is followed. *)
Theorem C161_references : forall (T : Type) (h : list (rop T)), history_ok h ->
  exists s, run_rops (rev h) no_objects = Ok (s, replies h) /\
  length (objects s) = made_objects h /\ length (maybes s) = made_maybes h /\
  forall p, latest h p = match nth_error (objects s) p with Some o => o | None => None end.
Proof. intros T h H. destruct (runs T h H) as (s & E & L & K & _ & O). exists s. repeat (split; [assumption|]). exact O. Qed.
(** C161: following a reference to a destroyed object is undefined, as documented. *)
Theorem C161_dangling : forall (T : Type) (h : list (rop T)) x p, history_ok h -> (x < made_maybes h)%nat ->
  bound h x = Some p -> ~ lives h p -> run_rops (rev (GetValue x :: h)) no_objects = UB.
Proof.
  intros T h x p H X B D. destruct (runs T h H) as (s & E & LO & LM & M & O). cbn [rev]. rewrite run_app, E. cbn [bind fst run_rops run_rop].
  unfold maybe_at. rewrite (M x X), B. cbn [bind Value]. unfold deref. unfold lives in D. rewrite O in D. destruct (nth_error (objects s) p) as [[v|]|]; [|reflexivity|reflexivity].
  exfalso. apply D. discriminate.
Qed.
Print Assumptions C161_references.
Print Assumptions C161_dangling.
(** Two maybes alias an object; a write through one is seen through the other, and the
    source of a move still refers to it. *)
Example C161_nonvacuous : let h := [GetValue 1; SetValue 0 5; MakeMove 0; MakeRef 0; NewObject 3] in
  history_ok h /\ replies h = [RDone; RDone; RDone; RDone; RGot 5].
Proof.
  split; [|reflexivity]. cbn. unfold usable, lives. cbn. repeat split; try discriminate; try lia; intros p E; injection E as <-; discriminate.
Qed.
