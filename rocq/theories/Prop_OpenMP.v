(** Properties C144 and C145 (OpenMP helpers).  Model in OpenMPModel.v. *)
From Verif Require Import Base OpenMPModel.
Local Open Scope Z_scope.

Lemma run_limit p : forall o, thread_limit (fst (fst (run p o))) = thread_limit o /\ in_parallel (fst (fst (run p o))) = in_parallel o /\
  (in_parallel o = false -> team_size (fst (fst (run p o))) = team_size o) /\
  (nthreads o <= thread_limit o -> nthreads (fst (fst (run p o))) = nthreads o) /\ (in_parallel o = true -> fst (fst (run p o)) = o).
Proof.
  induction p as [|p IHp q IHq| |n body IH|body IH|e]; intros o; cbn [run]; auto.
  - specialize (IHp o). destruct (run p o) as [[o1 a] [e|]]; cbn [fst] in *; [exact IHp|]. specialize (IHq o1). destruct (run q o1) as [[o2 b] e]. cbn [fst] in *.
    destruct IHp as (L1 & P1 & T1 & N1 & R1), IHq as (L2 & P2 & T2 & N2 & R2). rewrite L2, L1, P2, P1. repeat split.
    + intros F. rewrite T2, T1 by congruence. reflexivity.
    + intros B. rewrite N2, N1; auto. rewrite N1, L1; auto.
    + intros F. rewrite R2 by congruence. auto.
  - destruct (in_parallel o) eqn:P; cbn [fst]; [rewrite P; auto|]. destruct (Z.leb_spec n 0); cbn [fst]; [rewrite P; repeat split; auto; discriminate|].
    specialize (IH (omp_set_num_threads o n)). destruct (run body (omp_set_num_threads o n)) as [[o1 a] e]. cbn [fst] in *. destruct IH as (L1 & P1 & T1 & N1 & R1).
    cbn [omp_set_num_threads thread_limit in_parallel] in L1, P1. unfold team_size at 1 3. cbn [omp_set_num_threads thread_limit in_parallel nthreads]. rewrite L1, P1, P. unfold team_size. rewrite P. repeat split; try lia; discriminate.
  - destruct (run body _) as [[o1 a] e]. cbn [fst]. auto.
Qed.

(** C144: whatever a program does with wrappers (nested, in sequence, left by exceptions),
    parallel regions afterwards have as many threads as before. *)
Theorem C144_team_restored : forall p o o' answers e, in_parallel o = false -> run p o = (o', answers, e) -> team_size o' = team_size o.
Proof. intros p o o' a e P R. pose proof (run_limit p o) as (_ & _ & T & _). rewrite R in T. cbn [fst] in T. auto. Qed.
Print Assumptions C144_team_restored.

(** The setting itself (what omp_get_max_threads reports) comes back when it was within the
    runtime's limit. *)
Theorem C144_setting_restored_partial : forall p o o' answers e, nthreads o <= thread_limit o -> run p o = (o', answers, e) -> nthreads o' = nthreads o.
Proof. intros p o o' a e P R. pose proof (run_limit p o) as (_ & _ & _ & N & _). rewrite R in N. cbn [fst] in N. auto. Qed.
Print Assumptions C144_setting_restored_partial.

(** Otherwise the destructor puts back the number of threads there were, not the setting. *)
Theorem C144_setting_restored_refuted : ~ forall p o o' answers e, 0 < nthreads o -> 0 < thread_limit o -> in_parallel o = false -> run p o = (o', answers, e) -> nthreads o' = nthreads o.
Proof. intros H. specialize (H (DisableOmp Skip) (mkOmp 8 4 false) _ _ _ eq_refl eq_refl eq_refl eq_refl). discriminate. Qed.
Print Assumptions C144_setting_restored_refuted.

(** In the scope of a wrapper regions have the number asked for, as far as the limit allows;
    with the disabling wrapper they have one thread; in both cases until an inner wrapper
    changes it, and again after it. *)
Theorem C144_in_scope : forall n p o, in_parallel o = false -> 0 < n -> 0 < thread_limit o -> exists o' answers e,
  run (Wrapper n (Seq Ask (Seq p Ask))) o = (o', Z.min n (thread_limit o) :: answers, e) /\
  (e = None -> exists between, answers = between ++ [Z.min n (thread_limit o)]).
Proof.
  intros n p o P N L. cbn [run]. rewrite P. destruct (Z.leb_spec n 0); [lia|].
  pose proof (run_limit p (omp_set_num_threads o n)) as (_ & _ & T & _). specialize (T P).
  assert (TS : team_size (omp_set_num_threads o n) = Z.min n (thread_limit o)) by (unfold team_size; cbn [omp_set_num_threads in_parallel nthreads thread_limit]; rewrite P; reflexivity).
  rewrite TS in *. destruct (run p (omp_set_num_threads o n)) as [[o1 a] [e|]]; cbn [fst app] in *.
  - do 3 eexists. split; [reflexivity|discriminate].
  - do 3 eexists. split; [reflexivity|]. intros _. exists a. rewrite T. reflexivity.
Qed.
Print Assumptions C144_in_scope.

(** A wrapper is refused in a parallel region and for no threads, and then changes nothing. *)
Theorem C144_disabled : forall p o, in_parallel o = false -> 0 < thread_limit o -> exists o' answers e,
  run (DisableOmp (Seq Ask (Seq p Ask))) o = (o', 1 :: answers, e) /\
  (e = None -> exists between, answers = between ++ [1]).
Proof.
  intros p o P L. destruct (C144_in_scope 1 p o P ltac:(lia) L) as (o' & a & e & H). replace (Z.min 1 (thread_limit o)) with 1 in H by lia. now exists o', a, e.
Qed.
Print Assumptions C144_disabled.
Theorem C144_refusals : forall n body o, (in_parallel o = true -> run (Wrapper n body) o = (o, [], Some RuntimeError)) /\
  (in_parallel o = false -> n <= 0 -> run (Wrapper n body) o = (o, [], Some InvalidArgument)).
Proof. intros n body o. cbn [run]. split; intros ->; [reflexivity|]. intros H. destruct (Z.leb_spec n 0); [reflexivity|lia]. Qed.
Print Assumptions C144_refusals.

Example C144_nonvacuous :
  run (Seq (Wrapper 3 (Seq Ask (Seq (DisableOmp (Seq Ask (Fail (UserException 0)))) Ask))) Ask) (mkOmp 8 16 false) = (mkOmp 8 16 false, [3; 1], Some (UserException 0)) /\
  run (Seq (Wrapper 3 (Seq Ask (Seq (DisableOmp Ask) Ask))) Ask) (mkOmp 8 16 false) = (mkOmp 8 16 false, [3; 1; 3; 8], None) /\
  run (Region (Wrapper 3 Skip)) (mkOmp 8 16 false) = (mkOmp 8 16 false, [], Some RuntimeError).
Proof. repeat split. Qed.

(** C145: GetNumOmpThreads and GetMaxNumOmpThreads answer the size of a region and the setting,
    in whatever order the threads of the region write their answers. *)
Lemma writes_const v order : order <> [] -> run_writes 0 (map (fun _ : nat => v) order) = v.
Proof.
  intros N. unfold run_writes. destruct order as [|x order]; [congruence|]. cbn [map fold_left].
  assert (G : forall l (w : Z), w = v -> fold_left (fun _ w : Z => w) (map (fun _ : nat => v) l) w = v) by (induction l as [|y l IH]; intros w E; cbn [map fold_left]; auto).
  apply G. reflexivity.
Qed.
Theorem C145_value_partial : forall o order, 0 < nthreads o -> 0 < thread_limit o -> order <> [] ->
  GetNumOmpThreads o order = Ok (team_size o) /\ GetMaxNumOmpThreads o order = Ok (nthreads o).
Proof.
  intros o order N L NE. unfold GetNumOmpThreads, GetMaxNumOmpThreads. rewrite !writes_const by exact NE.
  assert (T : 0 < team_size o) by (unfold team_size; destruct (in_parallel o); lia).
  destruct (Z.ltb_spec 0 (team_size o)); [|lia]. destruct (Z.ltb_spec 0 (nthreads o)); [|lia]. auto.
Qed.
Print Assumptions C145_value_partial.

(** Two accesses of different threads to one variable, one of them a write, with nothing to
    order them, are a data race, and so undefined behaviour: every region of two or more
    threads has one. *)
Definition data_race (accesses : list (nat * bool)) : Prop :=
  exists a b, In a accesses /\ In b accesses /\ fst a <> fst b /\ (snd a = true \/ snd b = true).
Theorem C145_race : forall o, data_race (region_accesses o) <-> 2 <= team_size o.
Proof.
  intros o. unfold data_race, region_accesses. split.
  - intros (a & b & A & B & NE & _). apply in_map_iff in A as (i & <- & A), B as (j & <- & B). apply in_seq in A, B. cbn in NE. lia.
  - intros H. exists (0%nat, true), (1%nat, true). split; [|split; [|split; [discriminate|auto]]]; apply in_map_iff; [exists 0%nat|exists 1%nat]; (split; [reflexivity|apply in_seq; lia]).
Qed.
Print Assumptions C145_race.
Theorem C145_race_free_refuted : ~ forall o, 0 < nthreads o -> 0 < thread_limit o -> ~ data_race (region_accesses o).
Proof. intros H. apply (H (mkOmp 2 2 false) eq_refl eq_refl). apply C145_race. cbn. lia. Qed.
Print Assumptions C145_race_free_refuted.

Example C145_nonvacuous : GetNumOmpThreads (mkOmp 8 4 false) [2; 0; 3; 1]%nat = Ok 4 /\ GetMaxNumOmpThreads (mkOmp 8 4 false) [2; 0; 3; 1]%nat = Ok 8 /\
  GetNumOmpThreads (mkOmp 8 4 true) [0]%nat = Ok 1.
Proof. repeat split. Qed.
