(** Which calls of the work function a loop that returns has made (used by the
    models of the parallel algorithms). *)
From Verif Require Import Base ParallelismModel ParallelismSpec ParallelismProof.
From Coq Require Import Permutation.
Local Open Scope Z_scope.

(** Calls of the work function in a trace: thread number and index range. *)
Definition calls (tr : list event) : list (Z * (Z * Z)) :=
  flat_map (fun ev => match ev with EvBegin t lo hi => [(t, (lo, hi))] | _ => [] end) tr.

Lemma calls_app a b : calls (a ++ b) = calls a ++ calls b.
Proof. apply flat_map_app. Qed.

Definition pcalls (w : worker) : list (Z * (Z * Z)) :=
  map (fun r => (w_thread w, r)) (w_todo w).

Section P.
Variable body : Z -> Z -> list (Z * Z).
Context {X : Type}.
Variable f : Z * (Z * Z) -> X.
Variable C0 : list X.

Definition pw (w : worker) : list X := map f (pcalls w).

Definition pinv (s : state) (tr : list event) : Prop :=
  match s with
  | SSerial w => Permutation (map f (calls tr) ++ pw w) C0
  | SOmp mk items threads ex =>
      (forall i t, In i items -> 0 <= t -> pw (mk i t) = pw (mk i 0)) /\
      Forall (fun th => 0 <= fst th) threads /\
      exists lost, (ex = None -> lost = []) /\
      Permutation (map f (calls tr) ++ flat_map pw (omp_workers threads) ++
                   flat_map (fun i => pw (mk i 0)) items ++ lost) C0
  | SAsync mk next real got rest =>
      Permutation (map f (calls tr) ++ flat_map pw (got ++ rest) ++
                   flat_map (fun k => pw (mk k)) (seqZ next real)) C0 /\
      flat_map pw got = [] /\ (next < real -> got = [])
  | SAsyncUnwind _ _ => True
  | SDyn real total d =>
      match d_pc d with
      | PUnwind _ => True
      | _ =>
        (forall i t, d_dispatched d <= i < total -> 0 <= t ->
            pw (start_index body i t) = pw (start_index body i 0)) /\
        Forall (fun t => 0 <= t) (d_keeper d) /\
        Forall (fun p => 0 <= w_thread (fst p)) (d_active d) /\
        Permutation (map f (calls tr) ++ flat_map pw (map fst (d_active d)) ++
                     flat_map (fun i => pw (start_index body i 0)) (seqZ (d_dispatched d) total)) C0
      end
  | SFinal (Ok _) => Permutation (map f (calls tr)) C0
  | SFinal _ => True
  end.

Lemma pw_step w ev w' tr : wstep w ev w' ->
  Permutation (map f (calls (tr ++ [ev])) ++ pw w') (map f (calls tr) ++ pw w).
Proof.
  intros W. destruct W; rewrite calls_app; unfold pw, pcalls; simpl.
  - rewrite map_app, <- app_assoc. reflexivity.
  - now rewrite app_nil_r.
  - now rewrite app_nil_r.
Qed.

Lemma pw_step_ctx w ev w' tr a b c : wstep w ev w' ->
  Permutation (map f (calls tr) ++ (a ++ pw w ++ b) ++ c) C0 ->
  Permutation (map f (calls (tr ++ [ev])) ++ (a ++ pw w' ++ b) ++ c) C0.
Proof.
  intros W H. rewrite <- H. clear H.
  transitivity ((map f (calls (tr ++ [ev])) ++ pw w') ++ a ++ b ++ c).
  - rewrite <- !app_assoc. apply Permutation_app_head.
    rewrite Permutation_app_swap_app. reflexivity.
  - rewrite (pw_step _ _ _ tr W). rewrite <- !app_assoc. apply Permutation_app_head.
    symmetry. rewrite Permutation_app_swap_app. reflexivity.
Qed.

Lemma pw_done t : pw (mkWorker t [] Idle) = [].
Proof. reflexivity. Qed.

Lemma finished_ok_pw w : finished w -> (forall e, w_phase w <> Failed e) -> pw w = [].
Proof.
  unfold finished, pw, pcalls. destruct w as [t todo [| |e|]]; simpl; intros F N; try contradiction.
  - now subst.
  - exfalso. now apply (N e).
Qed.


Lemma pstep spurious s tr ev s' :
  pinv s tr -> step body spurious s ev s' -> pinv s' (tr ++ ev).
Proof.
  intros I S. destruct S as
   [ w ev w' W | t | t todo e
   | mk i1 i i2 a t b ex | mk items a t w ev w' b ex W | mk items a t w b ex F | mk threads ex F
   | mk next real rest L | mk next real got a w ev w' b W | mk next real got t rest L
   | mk next real got t todo e rest L | mk next real got L | e a w ev w' b W | e ws F
   | real total pc n live keep a w ev w' b W | real total pc n live keep a w b F
   | real total pc n live keep a w b | real total pc n live keep a w b
   | real total n live keep act H | real total n live keep H
   | real total k n live keep a t b K | real total k n live keep a t todo e b K
   | real total k n live keep a w sg b K G | real total k n live keep act K
   | real total n live t keep act L1 L2 | real total n live act L1 L2
   | real total n live keep act H | real total n live keep act H | real total n live keep act H
   | real total n live keep act H | real total e n live keep act F ];
   cbn [pinv d_pc d_dispatched d_keeper d_active] in *; rewrite ?app_nil_r; trivial.
  - rewrite (pw_step _ _ _ tr W). exact I.
  - rewrite pw_done, app_nil_r in I. exact I.
  - destruct I as (Hmk & Hth & lost & Hl & P).
    assert (0 <= t).
    { rewrite Forall_app in Hth. destruct Hth as [_ Hth]. inversion Hth; subst. assumption. }
    split; [|split].
    + intros j u Hj. apply Hmk. rewrite in_app_iff in *. simpl. tauto.
    + rewrite Forall_app in *. destruct Hth as [H1 H2]. split; [assumption|].
      inversion H2; subst. constructor; assumption.
    + exists lost. split; [exact Hl|]. rewrite <- P. apply Permutation_app_head.
      rewrite !omp_workers_app, !flat_map_app. simpl.
      rewrite (Hmk i t) by (rewrite ?in_app_iff; simpl; auto).
      rewrite <- !app_assoc. apply Permutation_app_head.
      rewrite (Permutation_app_swap_app (pw (mk i 0))). apply Permutation_app_head.
      rewrite (Permutation_app_swap_app (pw (mk i 0))). apply Permutation_app_head.
      reflexivity.
  - destruct I as (Hmk & Hth & lost & Hl & P). split; [exact Hmk|]. split.
    + rewrite Forall_app in *. destruct Hth as [H1 H2]. split; [assumption|].
      inversion H2; subst. constructor; assumption.
    + exists lost. split; [exact Hl|]. rewrite omp_workers_app, flat_map_app in *. simpl in *.
      apply (pw_step_ctx _ _ _ tr _ _ _ W). exact P.
  - destruct I as (Hmk & Hth & lost & Hl & P). split; [exact Hmk|]. split.
    + rewrite Forall_app in *. destruct Hth as [H1 H2]. split; [assumption|].
      inversion H2; subst. constructor; assumption.
    + rewrite omp_workers_app, flat_map_app in *. simpl in *.
      destruct (w_phase w) eqn:E; try (unfold finished in F; rewrite E in F; contradiction).
      * exists lost. split; [exact Hl|].
        rewrite (finished_ok_pw w F) in P by (intros e; rewrite E; discriminate). exact P.
      * exists (pw w ++ lost). split; [discriminate|]. rewrite <- P.
        apply Permutation_app_head. rewrite <- !app_assoc. apply Permutation_app_head.
        rewrite (Permutation_app_swap_app (pw w)). apply Permutation_app_head.
        rewrite (Permutation_app_swap_app (pw w)). reflexivity.
  - destruct I as (Hmk & Hth & lost & Hl & P). destruct ex; cbn; trivial.
    rewrite (all_none_workers _ F) in P. rewrite Hl in P by reflexivity. simpl in P.
    rewrite app_nil_r in P. exact P.
  - destruct I as (P & Hg & H0). split; [|split; [reflexivity|auto]].
    rewrite <- P. apply Permutation_app_head. simpl.
    rewrite (seqZ_cons next real) by lia. rewrite flat_map_app. simpl.
    rewrite app_nil_r, <- app_assoc. reflexivity.
  - destruct I as (P & Hg & H0). split; [|split; assumption].
    rewrite (app_assoc got a) in *. rewrite (flat_map_app _ (got ++ a)) in *. simpl in *.
    apply (pw_step_ctx _ _ _ tr _ _ _ W). exact P.
  - destruct I as (P & Hg & H0). split; [|split].
    + rewrite <- P. rewrite <- app_assoc. reflexivity.
    + rewrite flat_map_app, Hg. reflexivity.
    + lia.
  - destruct I as (P & Hg & H0). rewrite app_nil_r, Hg in P.
    rewrite seqZ_nil in P by lia. simpl in P. rewrite app_nil_r in P. exact P.
  - destruct pc; trivial; destruct I as (Hm & Hk & Ha & P); (split; [exact Hm|]); (split; [exact Hk|]);
     (split; [rewrite Forall_app in *; destruct Ha as [Ha Hb]; split; [assumption|];
       inversion Hb; subst; constructor; [simpl in *; rewrite (wstep_thread _ _ _ W); assumption|assumption]|]);
     rewrite map_app, flat_map_app in *; simpl in *; apply (pw_step_ctx _ _ _ tr _ _ _ W); exact P.
  - destruct pc; trivial; destruct I as (Hm & Hk & Ha & P); (split; [exact Hm|]); (split; [exact Hk|]);
     (split; [rewrite Forall_app in *; destruct Ha as [Ha Hb]; split; [assumption|];
       inversion Hb; subst; constructor; assumption|]);
     rewrite map_app in *; exact P.
  - destruct pc; cbn; trivial; destruct I as (Hm & Hk & Ha & P); (split; [exact Hm|]); (split; [exact Hk|]);
     (split; [rewrite Forall_app in *; destruct Ha as [Ha Hb]; split; [assumption|];
       inversion Hb; subst; constructor; assumption|]);
     rewrite map_app in *; exact P.
  - destruct pc; trivial; destruct I as (Hm & Hk & Ha & P); (split; [exact Hm|]); (split; [exact Hk|]);
     (split; [rewrite Forall_app in *; destruct Ha as [Ha Hb]; split; [assumption|];
       inversion Hb; subst; constructor; assumption|]);
     rewrite map_app in *; exact P.
  - destruct I as (Hm & Hk & Ha & P). rewrite seqZ_nil in P by lia. simpl in P.
    rewrite app_nil_r in P. exact P.
  - destruct I as (Hm & Hk & Ha & P). split; [exact Hm|].
    rewrite Forall_app in Ha. destruct Ha as [Ha Hb]. inversion Hb; subst.
    split; [|split].
    + apply Forall_app. split; [assumption|]. constructor; [assumption|constructor].
    + apply Forall_app. split; assumption.
    + rewrite map_app, flat_map_app in *. exact P.
  - destruct I as (Hm & Hk & Ha & P). inversion Hk; subst.
    split; [intros j u Hj; apply Hm; lia|]. split; [assumption|]. split.
    + apply Forall_app. split; [assumption|]. constructor; [|constructor]. simpl.
      unfold start_index, start_range. destruct (do (lo, hi) <- _; _) as [[[? ?] ?]| | |]; assumption.
    + rewrite map_app, flat_map_app. simpl. rewrite app_nil_r.
      rewrite <- P. apply Permutation_app_head. rewrite (seqZ_cons n total) by lia. simpl.
      rewrite <- app_assoc. apply Permutation_app_head. apply Permutation_app_tail.
      rewrite Hm by lia. reflexivity.
  - destruct act; exact I.
Qed.

Lemma prun spurious s tr s' : pinv s [] -> run body spurious s tr s' -> pinv s' tr.
Proof.
  intros I R. induction R as [|tr s1 ev s2 R IH S]; [exact I|].
  exact (pstep spurious s1 tr ev s2 IH S).
Qed.
End P.

(** Shares of a static loop. *)
Definition share (rs re n k : Z) : Z * Z := (share_start rs re n k, share_start rs re n (k + 1)).

(** Degree of parallelism actually used by a static loop. *)
Definition static_real (n rs re : Z) : Z :=
  if re - rs =? 0 then 0 else if (n <=? 1) || (re - rs =? 1) then 1 else Z.min n (re - rs).

Section Static.
Variable body : Z -> Z -> list (Z * Z).

Lemma static_calls_gen {X} (f : Z * (Z * Z) -> X) sp ob team n rs re bk tr :
  valid_call n rs re team ->
  (use_omp ob bk = true -> forall t r, f (t, r) = f (0, r)) ->
  run body sp (StaticParallelForLoop body ob team n rs re bk) tr (SFinal (Ok tt)) ->
  Permutation (map f (calls tr))
    (flat_map (fun k => map (fun r => f (k, r))
        (body (fst (share rs re (static_real n rs re) k)) (snd (share rs re (static_real n rs re) k))))
      (seqZ 0 (static_real n rs re))).
Proof.
  intros (Hn & H1 & H2 & H3 & H4 & Ht) Hf R. apply degree_ok in Hn.
  refine (prun body f _ sp _ tr _ _ R). clear R.
  unfold StaticParallelForLoop, static_real. destruct (Z.ltb_spec re rs); [lia|].
  rewrite i64_ok by (unfold int64_min; lia).
  destruct (Z.eqb_spec (re - rs) 0) as [E|E].
  { simpl. constructor. }
  unfold IsParallel.
  destruct (Z.ltb_spec 1 n) as [Hpar|Hpar]; simpl.
  2:{ destruct (Z.leb_spec n 1); [|lia]. simpl. rewrite start_range_spec by lia.
      unfold pw, pcalls, share. simpl. rewrite app_nil_r.
      rewrite (share_start_0 rs re 1), (share_start_n rs re 1) by lia. rewrite map_map. reflexivity. }
  destruct (Z.leb_spec n 1); [lia|]. simpl.
  destruct (Z.eqb_spec (re - rs) 1) as [E1|E1].
  { simpl. rewrite start_range_spec by lia.
      unfold pw, pcalls, share. simpl. rewrite app_nil_r.
      rewrite (share_start_0 rs re 1), (share_start_n rs re 1) by lia. rewrite map_map. reflexivity. }
  set (real := Z.min n (re - rs)).
  assert (Hreal : 1 < real /\ real <= n /\ real <= int64_max) by lia.
  destruct (use_omp ob bk) eqn:U.
  - cbn [pinv]. split; [|split].
    + intros i t Hi Ht0. rewrite seqZ_in in Hi. rewrite !start_share_spec by lia.
      unfold pw, pcalls. simpl. rewrite !map_map. apply map_ext. intros r. apply Hf. reflexivity.
    + destruct (omp_team_ok ob team real n Ht ltac:(lia)) as (T1 & T2 & T3).
      eapply Forall_impl; [|exact T3]. simpl. intros a Ha. tauto.
    + exists []. split; [reflexivity|]. rewrite omp_team_workers, app_nil_r. simpl.
      rewrite (flat_map_ext_in _ (fun k => map (fun r => f (k, r))
        (body (fst (share rs re real k)) (snd (share rs re real k))))); [reflexivity|].
      intros k Hk. rewrite seqZ_in in Hk. rewrite start_share_spec by lia.
      unfold pw, pcalls. simpl. rewrite map_map. apply map_ext. intros r. symmetry. apply Hf. reflexivity.
  - cbn [pinv]. split; [|split; auto]. simpl.
    rewrite (flat_map_ext_in _ (fun k => map (fun r => f (k, r))
        (body (fst (share rs re real k)) (snd (share rs re real k))))); [reflexivity|].
    intros k Hk. rewrite seqZ_in in Hk. rewrite start_share_spec by lia.
    unfold pw, pcalls. simpl. rewrite map_map. reflexivity.
Qed.

(** The ranges handed to the work function, whoever runs them. *)
Lemma static_call_ranges sp ob team n rs re bk tr :
  valid_call n rs re team ->
  run body sp (StaticParallelForLoop body ob team n rs re bk) tr (SFinal (Ok tt)) ->
  Permutation (map snd (calls tr))
    (flat_map (fun k => body (fst (share rs re (static_real n rs re) k))
                             (snd (share rs re (static_real n rs re) k)))
      (seqZ 0 (static_real n rs re))).
Proof.
  intros V R. rewrite (static_calls_gen snd sp ob team n rs re bk tr V); [|reflexivity|exact R].
  rewrite (flat_map_ext_in _ (fun k => body (fst (share rs re (static_real n rs re) k))
                             (snd (share rs re (static_real n rs re) k)))); [reflexivity|].
  intros k _. simpl. apply map_id.
Qed.
End Static.

(** Range loop: the shares. *)
Lemma static_range_calls sp ob team n rs re bk tr :
  valid_call n rs re team ->
  run range_body sp (StaticParallelForLoop range_body ob team n rs re bk) tr (SFinal (Ok tt)) ->
  Permutation (map snd (calls tr))
    (map (share rs re (static_real n rs re)) (seqZ 0 (static_real n rs re))).
Proof.
  intros V R. rewrite (static_call_ranges _ _ _ _ _ _ _ _ _ V R).
  induction (seqZ 0 (static_real n rs re)) as [|x l IH]; [reflexivity|].
  simpl. constructor. exact IH.
Qed.

(** On std::async share number k is run by thread number k. *)
Lemma static_range_calls_async sp ob team n rs re bk tr :
  valid_call n rs re team -> use_omp ob bk = false ->
  run range_body sp (StaticParallelForLoop range_body ob team n rs re bk) tr (SFinal (Ok tt)) ->
  Permutation (calls tr)
    (map (fun k => (k, share rs re (static_real n rs re) k)) (seqZ 0 (static_real n rs re))).
Proof.
  intros V U R.
  assert (P := static_calls_gen range_body (fun c => c) sp ob team n rs re bk tr V).
  rewrite map_id in P. rewrite P; [|congruence|exact R]. clear.
  induction (seqZ 0 (static_real n rs re)) as [|x l IH]; [reflexivity|].
  simpl. constructor. exact IH.
Qed.

(** Index loop: every index once. *)
Lemma visited_calls tr : visited tr = flat_map (fun c => seqZ (fst (snd c)) (snd (snd c))) (calls tr).
Proof.
  induction tr as [|[t lo hi|t lo hi o] tr IH]; simpl; [reflexivity| |exact IH].
  now rewrite IH.
Qed.

Lemma static_index_calls sp ob team n rs re bk tr :
  valid_call n rs re team ->
  run index_body sp (StaticParallelForLoop index_body ob team n rs re bk) tr (SFinal (Ok tt)) ->
  Permutation (map snd (calls tr)) (map (fun i : Z => (i, i + 1)) (seqZ rs re)).
Proof.
  intros V R. rewrite (static_call_ranges _ _ _ _ _ _ _ _ _ V R).
  destruct V as (Hn & H1 & H2 & H3 & H4 & Ht). apply degree_ok in Hn.
  unfold static_real.
  destruct (Z.eqb_spec (re - rs) 0).
  { rewrite (seqZ_nil rs re) by lia. reflexivity. }
  set (m := if (n <=? 1) || (re - rs =? 1) then 1 else Z.min n (re - rs)).
  assert (Hm : 1 <= m) by (unfold m; destruct (_ || _); lia).
  unfold index_body, share. simpl.
  assert (E : forall l : list Z, flat_map (fun k => map (fun i : Z => (i, i + 1))
      (seqZ (share_start rs re m k) (share_start rs re m (k + 1)))) l =
    map (fun i => (i, i + 1)) (flat_map (fun k => seqZ (share_start rs re m k) (share_start rs re m (k + 1))) l)).
  { induction l as [|x l IH]; simpl; [reflexivity|]. now rewrite IH, map_app. }
  rewrite E, flat_map_chain, share_start_0, share_start_n; try lia; [reflexivity|].
  intros k Hk. apply share_mono; lia.
Qed.
