(** Progress of the parallel loops (no deadlock, no lost wake-up) and the final
    forms of C09-C11, C73, C74. *)
From Verif Require Import Base ParallelismModel ParallelismSpec ParallelismProof.
From Coq Require Import Permutation ZifyBool.
Local Open Scope Z_scope.

Definition list_eq_nil_dec {A} (l : list A) : {l = []} + {l <> []}.
Proof. destruct l; [left; reflexivity|right; discriminate]. Defined.

Section Progress.
Variable body : Z -> Z -> list (Z * Z).
Hypothesis Hbody : loop_body body.
Variable sp : bool.

Definition reaches (s s' : state) : Prop := exists tr, run body sp s tr s' /\ thrown tr = [].

Lemma run_trans s tr s1 tr' s2 :
  run body sp s tr s1 -> run body sp s1 tr' s2 -> run body sp s (tr ++ tr') s2.
Proof.
  intros R1 R2. induction R2 as [|tr' s2 ev s3 R2 IH S].
  - rewrite app_nil_r. exact R1.
  - rewrite app_assoc. econstructor; eassumption.
Qed.

Lemma reaches_refl s : reaches s s.
Proof. exists []. split; [constructor|reflexivity]. Qed.

Lemma reaches_trans a b c : reaches a b -> reaches b c -> reaches a c.
Proof.
  intros (t1 & R1 & E1) (t2 & R2 & E2). exists (t1 ++ t2). split; [eapply run_trans; eassumption|].
  unfold thrown in *. now rewrite flat_map_app, E1, E2.
Qed.

Lemma reaches_step a b : step body sp a [] b -> reaches a b.
Proof. intros S. exists ([] ++ []). split; [econstructor; [constructor|exact S]|reflexivity]. Qed.

Lemma reaches_step_trans a b c : step body sp a [] b -> reaches b c -> reaches a c.
Proof. intros S. apply reaches_trans. eapply reaches_step. exact S. Qed.

Lemma reaches_event_trans a ev b c : thrown [ev] = [] -> step body sp a [ev] b -> reaches b c -> reaches a c.
Proof.
  intros T S. apply reaches_trans. exists ([] ++ [ev]). split; [econstructor; [constructor|exact S]|exact T].
Qed.

(** A worker can always complete its work range. *)
Lemma worker_completes (C : worker -> state) w :
  (forall w ev w', wstep w ev w' -> step body sp (C w) [ev] (C w')) ->
  w_phase w <> Undefined ->
  exists w', reaches (C w) (C w') /\ finished w' /\ w_thread w' = w_thread w /\
    w_phase w' <> Undefined.
Proof.
  intros HC. destruct w as [t todo ph]. simpl.
  assert (G : exists w', reaches (C (mkWorker t todo Idle)) (C w') /\ finished w' /\
    w_thread w' = t /\ w_phase w' <> Undefined).
  { induction todo as [|[lo hi] todo IH].
    - eexists. split; [apply reaches_refl|]. repeat split; discriminate.
    - destruct IH as (w' & R & F). exists w'. split; [|exact F].
      eapply (reaches_event_trans _ (EvBegin _ _ _)); [reflexivity|apply HC; apply wstep_begin|].
      eapply (reaches_event_trans _ (EvEnd _ _ _ None)); [reflexivity|apply HC; apply wstep_return|]. exact R. }
  intros Hu. destruct ph as [|lo hi|e|]; [exact G| | |congruence].
  - destruct G as (w' & R & F). exists w'. split; [|exact F].
    eapply (reaches_event_trans _ (EvEnd _ _ _ None)); [reflexivity|apply HC; apply wstep_return|]. exact R.
  - eexists. split; [apply reaches_refl|]. repeat split. discriminate.
Qed.

Lemma serial_progress w : w_phase w <> Undefined -> exists r, reaches (SSerial w) (SFinal r).
Proof.
  intros Hu. destruct (worker_completes SSerial w) as (w' & R & F & _ & _); auto.
  { intros. constructor. assumption. }
  destruct w' as [t todo [|lo hi|e|]]; unfold finished in F; simpl in F; try contradiction.
  - subst todo. eexists. eapply reaches_trans; [exact R|]. eapply reaches_step. constructor.
  - eexists. eapply reaches_trans; [exact R|]. eapply reaches_step. constructor.
Qed.

(** ** OpenMP *)

Definition th_ok (th : Z * option worker) : Prop :=
  match snd th with Some w => w_phase w <> Undefined | None => True end.

Lemma omp_drain mk items done rest ex :
  Forall (fun th => snd th = None) done -> Forall th_ok rest ->
  exists ex', reaches (SOmp mk items (done ++ rest) ex)
    (SOmp mk items (done ++ map (fun th => (fst th, None)) rest) ex').
Proof.
  revert done ex. induction rest as [|[t [w|]] rest IH]; intros done ex Hd Hr.
  - exists ex. apply reaches_refl.
  - rewrite Forall_cons_iff in Hr. destruct Hr as [Hw Hr]. unfold th_ok in Hw; simpl in Hw.
    destruct (worker_completes (fun w => SOmp mk items (done ++ (t, Some w) :: rest) ex) w)
      as (w' & R & F & _ & _); auto.
    { intros. constructor. assumption. }
    destruct (IH (done ++ [(t, None)]) (match w_phase w' with Failed e => Some e | _ => ex end))
      as (ex' & R'); [rewrite Forall_app; auto|exact Hr|].
    exists ex'. eapply reaches_trans; [exact R|].
    eapply reaches_step_trans; [apply step_omp_iteration_done; exact F|].
    rewrite <- !app_assoc in R'. exact R'.
  - rewrite Forall_cons_iff in Hr. destruct Hr as [_ Hr].
    destruct (IH (done ++ [(t, None)]) ex) as (ex' & R'); [rewrite Forall_app; auto|exact Hr|].
    exists ex'. rewrite <- !app_assoc in R'. exact R'.
Qed.

Lemma omp_progress mk items threads ex :
  (forall i t, In i items -> 0 <= t -> w_phase (mk i t) = Idle) ->
  threads <> [] -> Forall (fun th => 0 <= fst th) threads -> Forall th_ok threads ->
  exists r, reaches (SOmp mk items threads ex) (SFinal r).
Proof.
  revert threads ex. induction items as [|i items IH]; intros threads ex Hmk Hne Hpos Hok.
  - destruct (omp_drain mk [] [] threads ex) as (ex' & R); [constructor|exact Hok|].
    eexists. eapply reaches_trans; [exact R|]. eapply reaches_step. apply step_omp_return.
    simpl. rewrite Forall_map. rewrite Forall_forall. reflexivity.
  - destruct (omp_drain mk (i :: items) [] threads ex) as (ex' & R); [constructor|exact Hok|].
    destruct threads as [|[t o] threads]; [congruence|].
    rewrite Forall_cons_iff in Hpos. simpl in *. destruct Hpos as [Ht Hpos].
    destruct (IH ((t, Some (mk i t)) :: map (fun th => (fst th, None)) threads) ex') as (r & R').
    + intros j u Hj. apply Hmk. auto.
    + discriminate.
    + constructor; [exact Ht|]. rewrite Forall_map. simpl. exact Hpos.
    + constructor.
      * unfold th_ok. simpl. rewrite Hmk by auto. discriminate.
      * rewrite Forall_map. rewrite Forall_forall. intros. exact I.
    + exists r. eapply reaches_trans; [exact R|].
      eapply reaches_step_trans; [|exact R'].
      apply (step_omp_take body sp mk [] i items [] t (map (fun th => (fst th, None)) threads) ex').
Qed.

(** ** Static async *)

Lemma workers_drain (C : list worker -> state) done rest :
  (forall a w ev w' b, wstep w ev w' -> step body sp (C (a ++ w :: b)) [ev] (C (a ++ w' :: b))) ->
  Forall (fun w => w_phase w <> Undefined) rest ->
  exists rest', reaches (C (done ++ rest)) (C (done ++ rest')) /\ Forall finished rest'.
Proof.
  intros HC. revert done. induction rest as [|w rest IH]; intros done Hr.
  - exists []. split; [apply reaches_refl|constructor].
  - rewrite Forall_cons_iff in Hr. destruct Hr as [Hw Hr].
    destruct (worker_completes (fun w => C (done ++ w :: rest)) w) as (w' & R & F & _ & _); auto.
    destruct (IH (done ++ [w']) Hr) as (rest' & R' & F').
    exists (w' :: rest'). split; [|constructor; assumption].
    eapply reaches_trans; [exact R|]. rewrite <- !app_assoc in R'. exact R'.
Qed.

Lemma async_dispatch_all mk m : forall next real rest,
  real - next = Z.of_nat m ->
  (forall k, next <= k < real -> w_phase (mk k) = Idle) ->
  Forall (fun w => w_phase w <> Undefined) rest ->
  exists rest', reaches (SAsync mk next real [] rest) (SAsync mk real real [] rest') /\
    Forall (fun w => w_phase w <> Undefined) rest'.
Proof.
  induction m as [|m IH]; intros next real rest E Hmk Hr.
  - replace next with real by lia. exists rest. split; [apply reaches_refl|exact Hr].
  - destruct (IH (next + 1) real (rest ++ [mk next])) as (rest' & R & F).
    + lia.
    + intros k Hk. apply Hmk. lia.
    + rewrite Forall_app. split; [exact Hr|]. constructor; [|constructor].
      rewrite Hmk by lia. discriminate.
    + exists rest'. split; [|exact F]. eapply reaches_step_trans; [|exact R].
      apply step_async_dispatch. lia.
Qed.

Lemma async_get_all mk next real rest : forall got,
  real <= next -> Forall finished rest ->
  exists r, reaches (SAsync mk next real got rest) (SFinal r).
Proof.
  induction rest as [|w rest IH]; intros got L F.
  - eexists. eapply reaches_step. apply step_async_return. exact L.
  - rewrite Forall_cons_iff in F. destruct F as [Fw F].
    destruct w as [t todo [|lo hi|e|]]; unfold finished in Fw; simpl in Fw; try contradiction.
    + subst todo. destruct (IH (got ++ [mkWorker t [] Idle]) L F) as (r & R). exists r.
      eapply reaches_step_trans; [apply step_async_get; exact L|exact R].
    + eexists. eapply reaches_step_trans; [apply step_async_get_throws; exact L|].
      eapply reaches_step. apply step_async_unwound. constructor; [|exact F].
      unfold finished; simpl; exact I.
Qed.

Lemma async_finish mk next real got rest :
  real <= next -> Forall (fun w => w_phase w <> Undefined) rest ->
  exists r, reaches (SAsync mk next real got rest) (SFinal r).
Proof.
  intros L F.
  destruct (workers_drain (SAsync mk next real got) [] rest) as (rest' & R & F').
  - intros. constructor. assumption.
  - exact F.
  - destruct (async_get_all mk next real rest' got L F') as (r & R'). exists r.
    eapply reaches_trans; [exact R|exact R'].
Qed.

(** ** Dynamic async *)

Definition all_ready (act : list (worker * stage)) : Prop :=
  Forall (fun p => snd p = Ready) act.

Definition entry_ok (p : worker * stage) : Prop :=
  w_phase (fst p) <> Undefined /\ (snd p <> Live -> finished (fst p)).

(** All workers can complete, notify and become ready. *)
Lemma dyn_drain real total n keep rest : forall pc live done,
  Forall entry_ok rest ->
  exists pc' live' rest',
    reaches (SDyn real total (mkDyn pc n live keep (done ++ rest)))
            (SDyn real total (mkDyn pc' n live' keep (done ++ rest'))) /\
    all_ready rest' /\ Forall entry_ok rest'.
Proof.
  induction rest as [|[w sg] rest IH]; intros pc live done Hr.
  - exists pc, live, []. split; [apply reaches_refl|split; constructor].
  - rewrite Forall_cons_iff in Hr. destruct Hr as [[Hu Hf] Hr]. simpl in Hu, Hf.
    assert (G : exists pc1 live1 w1, entry_ok (w1, Ready) /\
       reaches (SDyn real total (mkDyn pc n live keep (done ++ (w, sg) :: rest)))
               (SDyn real total (mkDyn pc1 n live1 keep (done ++ (w1, Ready) :: rest)))).
    { assert (GE : forall pc live w, entry_ok (w, Exited) -> exists pc1 live1 w1, entry_ok (w1, Ready) /\
        reaches (SDyn real total (mkDyn pc n live keep (done ++ (w, Exited) :: rest)))
               (SDyn real total (mkDyn pc1 n live1 keep (done ++ (w1, Ready) :: rest)))).
      { intros pc0 live0 w0 [H1 H2]. exists (wake pc0), live0, w0. split.
        - split; [exact H1|]. intros _. apply H2. discriminate.
        - eapply reaches_step_trans; [apply step_dyn_notify|].
          eapply reaches_step. apply step_dyn_ready. }
      destruct sg.
      - destruct (worker_completes (fun w => SDyn real total (mkDyn pc n live keep (done ++ (w, Live) :: rest))) w)
          as (w' & R & F & _ & Hu'); auto.
        { intros. constructor. assumption. }
        destruct (GE pc (live - 1) w') as (pc1 & live1 & w1 & E & R1).
        { split; auto. }
        exists pc1, live1, w1. split; [exact E|].
        eapply reaches_trans; [exact R|].
        eapply reaches_step_trans; [apply step_dyn_decrement; exact F|exact R1].
      - apply GE. split; auto.
      - exists pc, live, w. split; [split; auto; intros _; apply Hf; discriminate|].
        eapply reaches_step. apply step_dyn_ready.
      - exists pc, live, w. split; [split; auto|]. apply reaches_refl. }
    destruct G as (pc1 & live1 & w1 & E & R1).
    destruct (IH pc1 live1 (done ++ [(w1, Ready)]) Hr) as (pc2 & live2 & rest' & R2 & A & E2).
    exists pc2, live2, ((w1, Ready) :: rest'). split; [|split; constructor; auto].
    eapply reaches_trans; [exact R1|]. rewrite <- !app_assoc in R2. exact R2.
Qed.

(** With every worker ready, a scan from position [length a] collects the rest. *)
Lemma dyn_scan real total n live a b : forall keep,
  all_ready b -> Forall entry_ok b ->
  (exists r, reaches (SDyn real total (mkDyn (PScan (length a)) n live keep (a ++ b))) (SFinal r)) \/
  (exists keep', reaches (SDyn real total (mkDyn (PScan (length a)) n live keep (a ++ b)))
                         (SDyn real total (mkDyn PDispatch n live keep' a))) \/ ~ all_ready a.
Proof.
  destruct (Forall_dec (fun p : worker * stage => snd p = Ready)
    ltac:(intros [? []]; simpl; (left; reflexivity) || (right; discriminate)) a) as [Ha|Ha];
    [|intros; right; right; exact Ha].
  induction b as [|[w sg] b IH]; intros keep R E.
  - right. left. exists keep. rewrite app_nil_r. eapply reaches_step. apply step_dyn_scanned. reflexivity.
  - unfold all_ready in R. rewrite Forall_cons_iff in R, E. destruct R as [R1 R], E as [[E1 E2] E].
    simpl in *. subst sg. specialize (E2 ltac:(discriminate)).
    destruct w as [t todo [|lo hi|e|]]; unfold finished in E2; simpl in E2; try contradiction.
    + subst todo. destruct (IH (keep ++ [t]) R E) as [(r & G)|[(k' & G)|G]]; [| |contradiction].
      * left. exists r. eapply reaches_step_trans; [apply step_dyn_reap; reflexivity|exact G].
      * right. left. exists k'. eapply reaches_step_trans; [apply step_dyn_reap; reflexivity|exact G].
    + left. eexists. eapply reaches_step_trans; [apply step_dyn_reap_throws; reflexivity|].
      eapply reaches_step. apply step_dyn_unwound.
      rewrite Forall_app. split; [exact Ha|]. constructor; [reflexivity|exact R].
Qed.

Lemma all_ready_live act : all_ready act -> count_live act = 0.
Proof.
  induction 1 as [|p l H _ IH]; [reflexivity|]. rewrite count_live_cons, H, IH. reflexivity.
Qed.

Lemma reaches_inv ALL N s tr s' :
  inv ALL N s tr -> reaches s s' -> exists tr', inv ALL N s' (tr ++ tr').
Proof.
  intros I (tr' & R & _). exists tr'. induction R as [|tr' s1 ev s2 R IH S].
  - rewrite app_nil_r. exact I.
  - rewrite app_assoc. eapply step_inv; [exact Hbody|exact IH|exact S].
Qed.

Lemma entries_ok ALL N real total d tr :
  dyn_ok ALL N real total d tr -> Forall entry_ok (d_active d).
Proof.
  intros [Hc Hk Hr Ht Hm Hd Hf Hl Hp]. rewrite Forall_forall in *. intros p Hin.
  split; [apply Hd|apply Hf]; exact Hin.
Qed.

Lemma dyn_progress ALL N real total : forall m d tr,
  dyn_ok ALL N real total d tr -> total - d_dispatched d <= Z.of_nat m ->
  exists r, reaches (SDyn real total d) (SFinal r).
Proof.
  induction m as [m IHm] using lt_wf_ind. intros d tr D Hm.
  (* once something can be dispatched the induction applies *)
  assert (DISP : forall n live keep act tr, n = d_dispatched d ->
    Z.of_nat (length act) < real -> n < total ->
    dyn_ok ALL N real total (mkDyn PDispatch n live keep act) tr ->
    exists r, reaches (SDyn real total (mkDyn PDispatch n live keep act)) (SFinal r)).
  { intros n live keep act tr0 -> L1 L2 D0.
    destruct keep as [|t keep].
    - exfalso. destruct D0 as [Hc Hk Hr Ht Hmx Hd Hf Hl Hp]. simpl in *.
      apply Permutation_length in Hk. rewrite !map_length in Hk.
      pose proof (seqZ_length 0 real). lia.
    - pose proof (step_dyn_dispatch body sp real total (d_dispatched d) live t keep act L1 L2) as S.
      pose proof (step_inv body Hbody ALL N sp _ tr0 _ _ (inv_dyn _ _ _ _ _ _ D0) S) as I1.
      inversion I1 as [| | | |? ? ? ? D1| |]; subst.
      destruct (IHm (Z.to_nat (total - (d_dispatched d + 1))) ltac:(lia) _ _ D1) as (r & R).
      { simpl. lia. }
      exists r. eapply reaches_step_trans; [exact S|exact R]. }
  (* loop head with every worker ready *)
  assert (EMPTY : forall n live keep tr, n = d_dispatched d ->
    dyn_ok ALL N real total (mkDyn PDispatch n live keep []) tr ->
    exists r, reaches (SDyn real total (mkDyn PDispatch n live keep [])) (SFinal r)).
  { intros n live keep tr0 En D0.
    assert (1 <= real) by (destruct D0; lia).
    destruct (Z_lt_le_dec n total) as [L|L].
    - eapply DISP; [exact En|simpl; lia|exact L|exact D0].
    - eexists. eapply reaches_step_trans; [apply step_dyn_dispatched; right; exact L|].
      eapply reaches_step. apply step_dyn_return. exact L. }
  assert (SCAN0 : forall n live keep act tr, n = d_dispatched d -> all_ready act ->
    dyn_ok ALL N real total (mkDyn (PScan 0) n live keep act) tr ->
    exists r, reaches (SDyn real total (mkDyn (PScan 0) n live keep act)) (SFinal r)).
  { intros n live keep act tr0 En A D0.
    destruct (dyn_scan real total n live [] act keep A (entries_ok _ _ _ _ _ _ D0))
      as [G|[(k' & G)|G]]; [exact G| |exfalso; apply G; constructor].
    destruct (reaches_inv _ _ _ _ _ (inv_dyn _ _ _ _ _ _ D0) G) as (tr1 & I1).
    inversion I1 as [| | | |? ? ? ? D1| |]; subst.
    destruct (EMPTY _ live k' _ eq_refl D1) as (r & R).
    exists r. eapply reaches_trans; [exact G|exact R]. }
  assert (LOOP : forall n live keep act tr, n = d_dispatched d -> all_ready act ->
    dyn_ok ALL N real total (mkDyn PLoop n live keep act) tr ->
    exists r, reaches (SDyn real total (mkDyn PLoop n live keep act)) (SFinal r)).
  { intros n live keep act tr0 En A D0.
    destruct (list_eq_nil_dec act) as [Ea|Ea].
    - subst act. destruct (Z_lt_le_dec n total) as [L|L].
      + pose proof (step_dyn_continue body sp real total n live keep [] (or_intror L)) as S.
        pose proof (step_inv body Hbody ALL N sp _ tr0 _ _ (inv_dyn _ _ _ _ _ _ D0) S) as I1.
        inversion I1 as [| | | |? ? ? ? D1| |]; subst.
        destruct (SCAN0 _ live keep [] _ eq_refl A D1) as (r & R).
        exists r. eapply reaches_step_trans; [exact S|exact R].
      + eexists. eapply reaches_step. apply step_dyn_return. exact L.
    - pose proof (step_dyn_continue body sp real total n live keep act (or_introl Ea)) as S.
      pose proof (step_inv body Hbody ALL N sp _ tr0 _ _ (inv_dyn _ _ _ _ _ _ D0) S) as I1.
      inversion I1 as [| | | |? ? ? ? D1| |]; subst.
      destruct (SCAN0 _ live keep act _ eq_refl A D1) as (r & R).
      exists r. eapply reaches_step_trans; [exact S|exact R]. }
  assert (WAIT : forall n live keep act tr, n = d_dispatched d -> all_ready act ->
    dyn_ok ALL N real total (mkDyn PWait n live keep act) tr ->
    exists r, reaches (SDyn real total (mkDyn PWait n live keep act)) (SFinal r)).
  { intros n live keep act tr0 En A D0.
    assert (L : live < Z.of_nat (length act)).
    { destruct D0 as [Hc Hk Hr Ht Hmx Hd Hf Hl Hp]. unfold pc_ok in Hp. simpl in *.
      rewrite Hl, all_ready_live by exact A. destruct act; [congruence|simpl length; lia]. }
    pose proof (step_dyn_wait_done body sp real total n live keep act L) as S.
    pose proof (step_inv body Hbody ALL N sp _ tr0 _ _ (inv_dyn _ _ _ _ _ _ D0) S) as I1.
    inversion I1 as [| | | |? ? ? ? D1| |]; subst.
    destruct (LOOP _ live keep act _ eq_refl A D1) as (r & R).
    exists r. eapply reaches_step_trans; [exact S|exact R]. }
  assert (DISPATCH : forall n live keep act tr, n = d_dispatched d -> all_ready act ->
    dyn_ok ALL N real total (mkDyn PDispatch n live keep act) tr ->
    exists r, reaches (SDyn real total (mkDyn PDispatch n live keep act)) (SFinal r)).
  { intros n live keep act tr0 En A D0.
    destruct (list_eq_nil_dec act) as [Ea|Ea]; [subst act; eapply EMPTY; eassumption|].
    assert (C : (Z.of_nat (length act) < real /\ n < total) \/
                (real <= Z.of_nat (length act) \/ total <= n)) by lia.
    destruct C as [[L1 L2]|C]; [eapply DISP; eassumption|].
    pose proof (step_dyn_dispatched body sp real total n live keep act C) as S.
    destruct act as [|p act]; [congruence|].
    pose proof (step_inv body Hbody ALL N sp _ tr0 _ _ (inv_dyn _ _ _ _ _ _ D0) S) as I1.
    inversion I1 as [| | | |? ? ? ? D1| |]; subst.
    destruct (WAIT _ live keep (p :: act) _ eq_refl A D1) as (r & R).
    exists r. eapply reaches_step_trans; [exact S|exact R]. }
  (* from an arbitrary state: drain first *)
  destruct d as [pc n live keep act].
  destruct (dyn_drain real total n keep act pc live [] (entries_ok _ _ _ _ _ _ D))
    as (pc' & live' & act' & R & A & E). simpl app in R.
  destruct (reaches_inv _ _ _ _ _ (inv_dyn _ _ _ _ _ _ D) R) as (tr1 & I1).
  inversion I1 as [| | | |? ? ? ? D1| |]; subst. simpl in *.
  assert (G : exists r, reaches (SDyn real total (mkDyn pc' n live' keep act')) (SFinal r)).
  { destruct pc' as [|k| | | |e].
    - eapply LOOP; eauto.
    - assert (Hk : (k <= length act')%nat) by (destruct D1 as [? ? ? ? ? ? ? ? Hp]; exact Hp).
      rewrite <- (firstn_skipn k act') in A, E |- *. unfold all_ready in A.
      rewrite Forall_app in A, E. destruct A as [A1 A2], E as [E1 E2].
      assert (Ek : length (firstn k act') = k) by (rewrite firstn_length; lia).
      destruct (dyn_scan real total n live' (firstn k act') (skipn k act') keep A2 E2)
        as [G|[(k' & G)|G]]; rewrite ?Ek in *; [exact G| |exfalso; apply G; exact A1].
      rewrite <- (firstn_skipn k act') in I1.
      destruct (reaches_inv _ _ _ _ _ I1 G) as (tr2 & I2).
      inversion I2 as [| | | |? ? ? ? D2| |]; subst.
      destruct (DISPATCH _ live' k' (firstn k act') _ eq_refl A1 D2) as (r & R2).
      exists r. eapply reaches_trans; [exact G|exact R2].
    - eapply DISPATCH; eauto.
    - eapply WAIT; eauto.
    - exfalso. destruct D1 as [Hc Hk Hr Ht Hmx Hd Hf Hl Hp]. unfold pc_ok in Hp. simpl in *.
      destruct Hp as [Hne [Hp|(w & Hp)]].
      + rewrite Hl, all_ready_live in Hp by exact A. destruct act'; [congruence|simpl length in Hp; lia].
      + unfold all_ready in A. rewrite Forall_forall in A. specialize (A _ Hp). discriminate.
    - eexists. eapply reaches_step. apply step_dyn_unwound. exact A. }
  destruct G as (r & R2). exists r. eapply reaches_trans; [exact R|exact R2].
Qed.

Lemma inv_progress ALL N s tr : inv ALL N s tr -> exists r, reaches s (SFinal r).
Proof.
  intros I. destruct I as [w tr Hc Hw|mk items th ex tr Hc Hmk Hnd Hne Hth
    |mk next real got rest tr H|e ws p tr Hc Hnd Hw|real total d tr H|tr Hc|e tr Hc].
  - apply serial_progress. apply Hw.
  - apply omp_progress; auto.
    + intros i t Hi Ht. apply Hmk; assumption.
    + eapply Forall_impl; [|exact Hth]. intros th' [H _]. lia.
    + eapply Forall_impl; [|exact Hth]. intros [t [w|]] [_ H]; unfold th_ok; simpl in *; tauto.
  - destruct H as [Hc Hmk Hn Hr Hth Hd Hg Hg0].
    rewrite Forall_app in Hd. destruct Hd as [_ Hd].
    destruct (Z_lt_le_dec next real) as [L|L]; [|apply async_finish; assumption].
    rewrite (Hg0 L) in *.
    destruct (async_dispatch_all mk (Z.to_nat (real - next)) next real rest) as (rest' & R & F).
    + lia.
    + intros k Hk. apply Hmk. exact Hk.
    + exact Hd.
    + destruct (async_finish mk real real [] rest' ltac:(lia) F) as (r & R').
      exists r. eapply reaches_trans; [exact R|exact R'].
  - destruct (workers_drain (SAsyncUnwind e) [] ws) as (ws' & R & F).
    + intros. constructor. assumption.
    + eapply Forall_impl; [|exact Hw]. intros w [_ H]. exact H.
    + eexists. eapply reaches_trans; [exact R|]. eapply reaches_step. apply step_async_unwound. exact F.
  - apply (dyn_progress ALL N real total (Z.to_nat (total - d_dispatched d)) d tr H).
    destruct H; lia.
  - eexists. apply reaches_refl.
  - eexists. apply reaches_refl.
Qed.

End Progress.

(** * Final forms *)

Section Final.
Variable body : Z -> Z -> list (Z * Z).
Hypothesis Hbody : loop_body body.

Lemma static_visits sp ob team n rs re bk tr r :
  valid_call n rs re team ->
  run body sp (StaticParallelForLoop body ob team n rs re bk) tr (SFinal r) ->
  (r = Ok tt /\ thrown tr = [] /\ each_once rs re tr) \/
  (exists e, r = Throw e /\ In e (thrown tr) /\ at_most_once rs re tr).
Proof.
  intros V R. pose proof (run_inv body Hbody _ _ _ _ _ _ (static_inv body Hbody ob team n rs re bk V) R) as I.
  destruct (inv_final _ _ _ _ I) as [_ [(E & T & P)|(e & E & T)]].
  - left. split; [exact E|]. split; [exact T|]. apply perm_each_once. exact P.
  - right. exists e. split; [exact E|]. split; [exact T|].
    destruct (inv_visits _ _ _ _ I) as (rest & P). eapply perm_at_most_once. exact P.
Qed.

Lemma static_always sp ob team n rs re bk tr s :
  valid_call n rs re team ->
  run body sp (StaticParallelForLoop body ob team n rs re bk) tr s ->
  at_most_once rs re tr /\ Forall (fun t => 0 <= t < n) (thread_numbers tr) /\
  NoDup (map fst (running tr)) /\ Z.of_nat (length (running tr)) <= n.
Proof.
  intros V R. pose proof (run_inv body Hbody _ _ _ _ _ _ (static_inv body Hbody ob team n rs re bk V) R) as I.
  destruct (inv_visits _ _ _ _ I) as (rest & P).
  destruct (inv_running _ _ _ _ I) as (H1 & H2 & H3).
  split; [eapply perm_at_most_once; exact P|]. split; [eapply inv_thread_numbers; exact I|].
  split; [exact H1|]. apply H3. destruct V as (V & _). apply degree_ok in V. lia.
Qed.

Lemma static_progress sp ob team n rs re bk tr s :
  valid_call n rs re team ->
  run body sp (StaticParallelForLoop body ob team n rs re bk) tr s ->
  exists tr' r, run body sp (StaticParallelForLoop body ob team n rs re bk) (tr ++ tr') (SFinal r) /\ thrown tr' = [].
Proof.
  intros V R. pose proof (run_inv body Hbody _ _ _ _ _ _ (static_inv body Hbody ob team n rs re bk V) R) as I.
  destruct (inv_progress body Hbody sp _ _ _ _ I) as (r & tr' & R' & T').
  exists tr', r. split; [eapply run_trans; eassumption|exact T'].
Qed.

Lemma dynamic_covers n rs re ob bk :
  rs <= re -> rs = 0 \/ bk = OPENMP \/ (bk = BEST_AVAILABLE /\ ob = true) \/ n = 1 \/ re - rs <= 1 ->
  dynamic_indices ob n rs re bk = seqZ rs re.
Proof.
  intros L H. unfold dynamic_indices.
  destruct H as [->|[->|[[-> ->]|[->|H]]]]; simpl; auto.
  - rewrite Z.sub_0_r. destruct (_ || _); reflexivity.
  - rewrite orb_true_r. reflexivity.
  - destruct (Z.eqb_spec (re - rs) 1) as [E|E]; [rewrite orb_true_r; reflexivity|].
    destruct (_ || _); [reflexivity|]. rewrite !seqZ_nil by lia. reflexivity.
Qed.

Lemma dynamic_visits sp ob team n rs re bk tr r :
  valid_call n rs re team ->
  rs = 0 \/ bk = OPENMP \/ (bk = BEST_AVAILABLE /\ ob = true) \/ n = 1 \/ re - rs <= 1 ->
  run body sp (DynamicParallelForLoop body ob team n rs re bk) tr (SFinal r) ->
  (r = Ok tt /\ thrown tr = [] /\ each_once rs re tr) \/
  (exists e, r = Throw e /\ In e (thrown tr) /\ at_most_once rs re tr).
Proof.
  intros V Hc R. pose proof (run_inv body Hbody _ _ _ _ _ _ (dynamic_inv body Hbody ob team n rs re bk V) R) as I.
  rewrite dynamic_covers in I by (assumption || apply V).
  destruct (inv_final _ _ _ _ I) as [_ [(E & T & P)|(e & E & T)]].
  - left. split; [exact E|]. split; [exact T|]. apply perm_each_once. exact P.
  - right. exists e. split; [exact E|]. split; [exact T|].
    destruct (inv_visits _ _ _ _ I) as (rest & P). eapply perm_at_most_once. exact P.
Qed.

Lemma dynamic_async_shifted sp ob team n rs re tr :
  valid_call n rs re team -> 1 < n -> 1 < re - rs ->
  run body sp (DynamicParallelForLoop body ob team n rs re ASYNC) tr (SFinal (Ok tt)) ->
  each_once 0 (re - rs) tr.
Proof.
  intros V Hn Ht R.
  pose proof (run_inv body Hbody _ _ _ _ _ _ (dynamic_inv body Hbody ob team n rs re ASYNC V) R) as I.
  unfold dynamic_indices in I. simpl in I.
  destruct (Z.eqb_spec n 1); [lia|]. destruct (Z.eqb_spec (re - rs) 1); [lia|]. simpl in I.
  destruct (inv_final _ _ _ _ I) as [_ [(E & T & P)|(e & E & T)]]; [|discriminate].
  apply perm_each_once. exact P.
Qed.

Lemma dynamic_async_wrong sp ob team n rs re tr :
  valid_call n rs re team -> 1 < n -> 1 < re - rs -> rs <> 0 ->
  run body sp (DynamicParallelForLoop body ob team n rs re ASYNC) tr (SFinal (Ok tt)) ->
  ~ each_once rs re tr.
Proof.
  intros V Hn Ht Hz R E. pose proof (dynamic_async_shifted _ _ _ _ _ _ _ V Hn Ht R) as E0.
  unfold each_once in *.
  destruct (Z_lt_le_dec rs 0) as [L|L].
  - specialize (E rs). specialize (E0 rs).
    replace ((rs <=? rs) && (rs <? re)) with true in E by lia.
    replace ((0 <=? rs) && (rs <? re - rs)) with false in E0 by lia. congruence.
  - specialize (E 0). specialize (E0 0).
    replace ((rs <=? 0) && (0 <? re)) with false in E by lia.
    replace ((0 <=? 0) && (0 <? re - rs)) with true in E0 by lia. congruence.
Qed.

Lemma dynamic_always sp ob team n rs re bk tr s :
  valid_call n rs re team ->
  run body sp (DynamicParallelForLoop body ob team n rs re bk) tr s ->
  NoDup (map fst (running tr)) /\ Forall (fun t => 0 <= t < n) (thread_numbers tr) /\
  Z.of_nat (length (running tr)) <= n.
Proof.
  intros V R. pose proof (run_inv body Hbody _ _ _ _ _ _ (dynamic_inv body Hbody ob team n rs re bk V) R) as I.
  destruct (inv_running _ _ _ _ I) as (H1 & H2 & H3).
  split; [exact H1|]. split; [eapply inv_thread_numbers; exact I|].
  apply H3. destruct V as (V & _). apply degree_ok in V. lia.
Qed.

Lemma dynamic_progress sp ob team n rs re bk tr s :
  valid_call n rs re team ->
  run body sp (DynamicParallelForLoop body ob team n rs re bk) tr s ->
  exists tr' r, run body sp (DynamicParallelForLoop body ob team n rs re bk) (tr ++ tr') (SFinal r) /\ thrown tr' = [].
Proof.
  intros V R. pose proof (run_inv body Hbody _ _ _ _ _ _ (dynamic_inv body Hbody ob team n rs re bk V) R) as I.
  destruct (inv_progress body Hbody sp _ _ _ _ I) as (r & tr' & R' & T').
  exists tr', r. split; [eapply run_trans; eassumption|exact T'].
Qed.

Lemma loop_returns_quiet (dynamic : bool) sp ob team n rs re bk tr r :
  valid_call n rs re team ->
  run body sp ((if dynamic then DynamicParallelForLoop else StaticParallelForLoop)
                 body ob team n rs re bk) tr (SFinal r) ->
  running tr = [] /\
  (r = Ok tt <-> thrown tr = []) /\
  (thrown tr <> [] -> exists e, r = Throw e /\ In e (thrown tr)).
Proof.
  intros V R.
  assert (I : exists ALL, inv ALL n (SFinal r) tr).
  { destruct dynamic; eexists; (eapply run_inv; [exact Hbody| |exact R]);
      [apply dynamic_inv|apply static_inv]; assumption. }
  destruct I as (ALL & I). destruct (inv_final _ _ _ _ I) as [Q [(E & T & P)|(e & E & T)]].
  - split; [exact Q|]. split; [split; auto|]. congruence.
  - split; [exact Q|]. split.
    + split; [congruence|]. intros T0. rewrite T0 in T. destruct T.
    + intros _. exists e. auto.
Qed.

End Final.

(** A complete execution of a dynamic ASYNC loop over [5, 7) on two threads. *)
Definition sample_trace : list event :=
  [EvBegin 0 0 1; EvBegin 1 1 2; EvEnd 1 1 2 None; EvEnd 0 0 1 None].

Lemma reaches_cons body sp s ev s1 tr s2 :
  step body sp s ev s1 -> run body sp s1 tr s2 -> run body sp s (ev ++ tr) s2.
Proof.
  intros S R. change (ev ++ tr) with ([] ++ ev ++ tr). rewrite app_assoc.
  eapply run_trans; [|exact R]. econstructor; [constructor|exact S].
Qed.

Lemma sample_run sp :
  run index_body sp (DynamicParallelForLoop index_body true 2 2 5 7 ASYNC) sample_trace (SFinal (Ok tt)).
Proof.
  pose (w := mkWorker).
  unfold sample_trace.
  change (DynamicParallelForLoop index_body true 2 2 5 7 ASYNC)
    with (SDyn 2 2 (mkDyn PLoop 0 0 [0; 1] [])).
  eapply (reaches_cons _ _ _ []); [apply step_dyn_continue; lia|].
  eapply (reaches_cons _ _ _ []); [apply step_dyn_scanned; reflexivity|].
  eapply (reaches_cons _ _ _ []); [apply step_dyn_dispatch; simpl; lia|].
  eapply (reaches_cons _ _ _ []); [apply step_dyn_dispatch; simpl; lia|].
  eapply (reaches_cons _ _ _ []); [apply step_dyn_dispatched; simpl; lia|].
  change (start_index index_body 0 0) with (mkWorker 0 [(0,1)] Idle).
  change (start_index index_body (0 + 1) 1) with (mkWorker 1 [(1,2)] Idle). cbn [app].
  eapply (reaches_cons _ _ _ [_]); [apply (step_dyn_work _ _ _ _ _ _ _ _ []); apply wstep_begin|].
  eapply (reaches_cons _ _ _ [_]); [apply (step_dyn_work _ _ _ _ _ _ _ _ [_]); apply wstep_begin|].
  eapply (reaches_cons _ _ _ [_]); [apply (step_dyn_work _ _ _ _ _ _ _ _ [_]); apply wstep_return|].
  eapply (reaches_cons _ _ _ []); [apply (step_dyn_decrement _ _ _ _ _ _ _ _ [_]); reflexivity|].
  eapply (reaches_cons _ _ _ []); [apply (step_dyn_notify _ _ _ _ _ _ _ _ [_])|].
  eapply (reaches_cons _ _ _ []); [apply (step_dyn_ready _ _ _ _ _ _ _ _ [_])|].
  eapply (reaches_cons _ _ _ [_]); [apply (step_dyn_work _ _ _ _ _ _ _ _ []); apply wstep_return|].
  eapply (reaches_cons _ _ _ []); [apply (step_dyn_decrement _ _ _ _ _ _ _ _ []); reflexivity|].
  eapply (reaches_cons _ _ _ []); [apply (step_dyn_notify _ _ _ _ _ _ _ _ [])|].
  eapply (reaches_cons _ _ _ []); [apply (step_dyn_ready _ _ _ _ _ _ _ _ [])|].
  cbn [app wake].
  eapply (reaches_cons _ _ _ []); [apply step_dyn_wait_done; simpl; lia|].
  eapply (reaches_cons _ _ _ []); [apply step_dyn_continue; left; discriminate|].
  eapply (reaches_cons _ _ _ []); [apply (step_dyn_reap _ _ _ _ 0 _ _ _ []); reflexivity|].
  eapply (reaches_cons _ _ _ []); [apply (step_dyn_reap _ _ _ _ 0 _ _ _ []); reflexivity|].
  eapply (reaches_cons _ _ _ []); [apply step_dyn_scanned; reflexivity|].
  eapply (reaches_cons _ _ _ []); [apply step_dyn_dispatched; simpl; lia|].
  eapply (reaches_cons _ _ _ []); [apply step_dyn_return; simpl; lia|].
  constructor.
Qed.

Lemma sample_valid : valid_call 2 5 7 2.
Proof. unfold valid_call, int64_min, int64_max. repeat split; lia. Qed.

Lemma dynamic_refuted :
  exists n rs re team tr, valid_call n rs re team /\
    run index_body false (DynamicParallelForLoop index_body true team n rs re ASYNC) tr (SFinal (Ok tt)) /\
    ~ each_once rs re tr /\ times_visited tr rs = 0%nat /\ times_visited tr 0 = 1%nat.
Proof.
  exists 2, 5, 7, 2%nat, sample_trace. split; [exact sample_valid|]. split; [apply sample_run|].
  split; [|split; reflexivity]. intros E. specialize (E 5). discriminate.
Qed.

Lemma sample_zero_valid : valid_call 4 0 100 2 /\ valid_call 3 (-7) 11 1.
Proof. unfold valid_call, int64_min, int64_max. repeat split; lia. Qed.

Lemma calc_overflow :
  CalcStaticThreadRangeStartAndEnd 0 int64_max 1 0 = UB.
Proof. reflexivity. Qed.

Lemma calc_sample :
  CalcStaticThreadRangeStartAndEnd 3 13 4 0 = Ok (3, 6) /\
  CalcStaticThreadRangeStartAndEnd 3 13 4 1 = Ok (6, 9) /\
  CalcStaticThreadRangeStartAndEnd 3 13 4 2 = Ok (9, 11) /\
  CalcStaticThreadRangeStartAndEnd 3 13 4 3 = Ok (11, 13).
Proof. repeat split. Qed.

Lemma bodies_ok : loop_body range_body /\ loop_body index_body.
Proof. split; [left|right]; reflexivity. Qed.
