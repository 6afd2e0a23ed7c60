(** Proofs about ClusterModel.v: final forms. *)
From Coq Require Import ZArith Reals Permutation Relations.
From Flocq Require Import Core BinarySingleNaN.
From Verif Require Import Base Double DoubleFacts ParallelismModel ParallelismSpec ParallelismProof ParallelismProof2 KnnModel KnnSpec DistModel DistSpec SearchDouble DistProof2
  ClusterModel ClusterSpec ClusterProof ClusterProof2 ClusterProof3.
Local Open Scope Z_scope.
Notation size l := (Z.of_nat (length l)).

(** Every loop has an execution in which no call throws. *)
Lemma index_loop_exists sp ob team nt k : valid_call nt 0 k team -> exists x : list event * outcome unit, index_loop_execution sp ob team nt k (fst x) (snd x).
Proof.
  intros V. destruct (static_progress index_body (or_intror eq_refl) sp ob team nt 0 k BEST_AVAILABLE [] _ V (run_start _ _ _)) as (tr & r & R & T).
  exists (tr, r). split; [exact R|]. cbn [fst]. clear - T. induction tr as [|ev tr IH]; [constructor|].
  destruct ev as [t lo hi|t lo hi [e|]]; cbn in T; try discriminate; constructor; auto.
Qed.

Lemma not_all {A B} (f : A -> B -> bool) (l1 : list A) (l2 : list B) :
  ~ (forall a b, In a l1 -> In b l2 -> f a b = true) -> exists a b, In a l1 /\ In b l2 /\ f a b = false.
Proof.
  intros H. destruct (existsb (fun p => negb (f (fst p) (snd p))) (list_prod l1 l2)) eqn:E.
  - apply existsb_exists in E. destruct E as ([a b] & I & N). apply in_prod_iff in I. exists a, b. split; [tauto|]. split; [tauto|]. now apply negb_true_iff in N.
  - exfalso. apply H. intros a b Ha Hb. destruct (f a b) eqn:F; [reflexivity|]. exfalso.
    assert (X : existsb (fun p => negb (f (fst p) (snd p))) (list_prod l1 l2) = true); [|congruence].
    apply existsb_exists. exists (a, b). split; [now apply in_prod|]. cbn. now rewrite F.
Qed.

Section Proof.
Variable dm : mat (option double).
Variable strategy : ClusterStrategy.
Variable n : Z.
Variable d : Z -> Z -> double.
Hypothesis M : distances dm n d.
Hypothesis NN : between n (fun i j => dlt (d i j) d0 = false).
Hypothesis Hn : 0 < n.
Variables (sp ob : bool) (team : nat) (nt : Z).
Hypothesis V : valid_call nt 0 n team.
Variable bound : double.
Notation run := (IndexClusterWithDistanceMatrix dm strategy sp ob team nt bound).

(** A run ends with the clusters of a state in which nothing can be merged. *)
Lemma run_inversion res : run res -> exists k st x1 x2, iterates dm strategy sp ob team nt bound k (initial_state dm) st /\
  search_executions sp ob team nt st x1 x2 /\ iteration dm strategy bound nt st x1 x2 = Ok None /\ inv n st /\ res = Ok (collect st).
Proof.
  destruct (rows_n _ _ _ M) as [R C]. intros [H|_ H|k st x1 x2 _ _ I X E|k st x1 x2 o r _ _ I X E F _]; try (rewrite ?R, ?C in H; lia).
  - destruct (iterates_ok dm strategy n d M NN Hn sp ob team nt V bound k st I) as (J & _). exists k, st, x1, x2. auto.
  - destruct (iterates_ok dm strategy n d M NN Hn sp ob team nt V bound k st I) as (J & _).
    destruct (iteration_ok dm strategy n d M NN Hn sp ob team nt V bound st x1 x2 J X) as (p & _ & _ & [(_ & _ & _ & st' & _ & E')|[_ E']]);
      rewrite E in E'; rewrite E' in F; discriminate F.
Qed.

Lemma run_partition res : run res -> exists clusters x, res = Ok (clusters, x) /\ partition n clusters.
Proof.
  intros H. destruct (run_inversion res H) as (k & st & x1 & x2 & _ & _ & _ & I & ->). exists (fst (collect st)), (snd (collect st)).
  split; [reflexivity|]. now apply (collect_partition n).
Qed.

Lemma run_exists : exists res, run res.
Proof.
  destruct (rows_n _ _ _ M) as [R C].
  assert (G : forall m k st, iterates dm strategy sp ob team nt bound k (initial_state dm) st -> (Z.to_nat (live st) <= m)%nat -> exists res, run res).
  { induction m as [|m IH]; intros k st I L; destruct (iterates_ok dm strategy n d M NN Hn sp ob team nt V bound k st I) as (J & Lk & L1); [lia|].
    assert (X : exists x1 x2, search_executions sp ob team nt st x1 x2).
    { destruct (index_loop_exists sp ob team nt (size (st_mask st))) as [x1 X1].
      { pose proof J as ((Ln & _) & _). rewrite Ln. exact V. }
      destruct (index_loop_exists sp ob team nt (size (st_clusters st))) as [x2 X2].
      { apply (valid_small n team nt V). pose proof (inv_len n Hn st J). lia. }
      exists x1, x2. intros _. split; assumption. }
    destruct X as (x1 & x2 & X).
    destruct (iteration_ok dm strategy n d M NN Hn sp ob team nt V bound st x1 x2 J X) as (p & _ & _ & [(_ & _ & _ & st' & _ & E')|[_ E']]).
    - assert (I' : iterates dm strategy sp ob team nt bound (S k) (initial_state dm) st') by (econstructor; eassumption).
      destruct (iterates_ok dm strategy n d M NN Hn sp ob team nt V bound (S k) st' I') as (_ & Lk' & _). apply (IH (S k) st' I'). lia.
    - exists (Ok (collect st)). apply (icm_returns _ _ _ _ _ _ _ k st x1 x2); auto; rewrite ?R, ?C; lia. }
  exact (G (Z.to_nat (live (initial_state dm))) 0%nat (initial_state dm) (iterates_none _ _ _ _ _ _ _ _) (le_n _)).
Qed.

Lemma run_bounded k st : iterates dm strategy sp ob team nt bound k (initial_state dm) st -> Z.of_nat k < n.
Proof. intros I. destruct (iterates_ok dm strategy n d M NN Hn sp ob team nt V bound k st I) as (_ & L & L1). lia. Qed.

Hypothesis NNN : between n (fun i j => nonneg (d i j) = true).
Hypothesis SYM : between n (fun i j => d i j = d j i).

Lemma run_tight clusters x : run (Ok (clusters, x)) ->
  match strategy with
  | COMPLETE_LINK => forall c i j, In c clusters -> In i c -> In j c -> i <> j -> dle (d i j) bound = true
  | SINGLE_LINK => forall c i j, In c clusters -> In i c -> In j c -> linked n d bound i j
  end /\ (x = d0 \/ dle x bound = true).
Proof.
  intros H. destruct (run_inversion _ H) as (k & st & x1 & x2 & I & _ & _ & J & E). injection E as Ea Eb.
  destruct (iterates_tight dm strategy n d M NN Hn sp ob team nt V bound NNN SYM k st I) as [T D].
  assert (Ec : clusters = fst (collect st)) by exact Ea. assert (Ex : x = st_distance st) by exact Eb.
  split; [|rewrite Ex; exact D].
  assert (G : forall c, In c clusters -> group n st c) by (intros c Hc; apply (collect_in n st c J); now rewrite <- Ec).
  pose proof (fun c Hc => tight_group strategy n d bound st c J T (G c Hc)) as TG. destruct strategy; intros c; intros; eapply TG; eassumption.
Qed.

Lemma run_separated clusters x : between n (fun i j => is_finite (d i j) = true) -> run (Ok (clusters, x)) ->
  forall c1 c2, In c1 clusters -> In c2 clusters -> c1 <> c2 ->
  match strategy with
  | COMPLETE_LINK => exists i j, In i c1 /\ In j c2 /\ dle (d i j) bound = false
  | SINGLE_LINK => forall i j, In i c1 -> In j c2 -> dle (d i j) bound = false
  end.
Proof.
  intros FIN H c1 c2 H1 H2 N. destruct (run_inversion _ H) as (k & st & x1 & x2 & I & X & E & J & Er). injection Er as Ea Eb.
  assert (Ec : clusters = fst (collect st)) by exact Ea.
  assert (G : forall c, In c clusters -> group n st c) by (intros c Hc; apply (collect_in n st c J); now rewrite <- Ec).
  pose proof (separated dm strategy n d M NN Hn sp ob team nt V bound NNN SYM st x1 x2 c1 c2 FIN J X E (G _ H1) (G _ H2) N) as S.
  unfold close in S. destruct strategy.
  - intros i j Hi Hj. destruct (dle (d i j) bound) eqn:L; [|reflexivity]. elim S. exists i, j. auto.
  - now apply not_all.
Qed.
End Proof.

(** Single-link clusters are the components of the graph of close pairs. *)
Lemma partition_in n clusters i : partition n clusters -> 0 <= i < n -> exists c, In c clusters /\ In i c.
Proof.
  intros [_ P] H. assert (X : In i (concat clusters)) by (apply (Permutation_in _ (Permutation_sym P)); rewrite seqZ_in; lia).
  apply in_concat in X. destruct X as (c & A & B). now exists c.
Qed.
Lemma partition_unique n clusters c1 c2 i : partition n clusters -> In c1 clusters -> In c2 clusters -> In i c1 -> In i c2 -> c1 = c2.
Proof.
  intros [_ P] H1 H2 I1 I2. destruct (list_eq_dec Z.eq_dec c1 c2) as [E|N]; [exact E|]. exfalso.
  destruct (In_nth _ _ [] H1) as (k1 & L1 & E1). destruct (In_nth _ _ [] H2) as (k2 & L2 & E2).
  apply (nodup_two clusters (Permutation_NoDup (Permutation_sym P) (seqZ_nodup _ _)) k1 k2 i); [congruence|now rewrite E1|now rewrite E2].
Qed.
Lemma components n d bound clusters : partition n clusters ->
  (forall c i j, In c clusters -> In i c -> In j c -> linked n d bound i j) ->
  (forall c1 c2, In c1 clusters -> In c2 clusters -> c1 <> c2 -> forall i j, In i c1 -> In j c2 -> dle (d i j) bound = false) ->
  forall i j, 0 <= i < n -> 0 <= j < n -> same_cluster clusters i j <-> linked n d bound i j.
Proof.
  intros P T S i j Hi Hj. split.
  - intros (c & Hc & Ii & Ij). exact (T c i j Hc Ii Ij).
  - intros L. clear Hj. assert (G : 0 <= j < n /\ same_cluster clusters i j); [|apply G].
    induction L as [i j (_ & Hj & _ & L)|i|i k j _ IH1 _ IH2].
    + split; [exact Hj|]. destruct (partition_in n clusters i P Hi) as (c1 & H1 & I1). destruct (partition_in n clusters j P Hj) as (c2 & H2 & I2).
      destruct (list_eq_dec Z.eq_dec c1 c2) as [<-|N]; [exists c1; auto|]. rewrite (S c1 c2 H1 H2 N i j I1 I2) in L. discriminate.
    + split; [exact Hi|]. destruct (partition_in n clusters i P Hi) as (c & H & I). exists c. auto.
    + destruct (IH1 Hi) as [Hk (c1 & H1 & A1 & B1)]. destruct (IH2 Hk) as [Hj (c2 & H2 & A2 & B2)]. split; [exact Hj|].
      rewrite <- (partition_unique n clusters c1 c2 k P H1 H2 B1 A2) in B2. exists c1. auto.
Qed.

(** Clusters of elements. *)
Lemma elements_ok {T} (data : list T) clusters x : partition (size data) clusters ->
  exists out, MakeElementClusteringFromIndexClustering data (clusters, x) = Ok (out, x) /\
    Permutation (concat out) data /\ ~ In [] out /\
    Forall2 (Forall2 (fun i e => nth_error data (Z.to_nat i) = Some e)) clusters out.
Proof.
  intros P. unfold MakeElementClusteringFromIndexClustering. cbn [fst snd].
  destruct data as [|t0 data0] eqn:ED.
  { destruct P as [N P]. cbn in P. destruct clusters as [|[|i c] l]; [|elim N; now left|].
    - exists []. split; [reflexivity|]. split; [constructor|]. split; [intros []|constructor].
    - cbn in P. apply Permutation_sym, Permutation_nil in P. discriminate. }
  rewrite <- ED in *. clear ED data0. set (f := fun i => nth (Z.to_nat i) data t0).
  assert (R : forall c, In c clusters -> Forall (fun i => 0 <= i < size data) c).
  { intros c Hc. apply Forall_forall. intros i Hi. destruct P as [_ P]. apply (seqZ_in 0). apply (Permutation_in _ P). apply in_concat. now exists c. }
  assert (F1 : forall c acc, Forall (fun i => 0 <= i < size data) c ->
    mfold (fun l i => do t <- at_index data i; Ok (l ++ [t])) acc c = Ok (acc ++ map f c)).
  { induction c as [|i c IH]; intros acc H; cbn [mfold map]; [now rewrite app_nil_r|]. inversion H; subst.
    rewrite (at_index_ok _ _ (f i)) by (try (apply nth_error_nth'); lia). cbn [bind]. rewrite IH by assumption. now rewrite <- app_assoc. }
  assert (F2 : forall cs acc, (forall c, In c cs -> Forall (fun i => 0 <= i < size data) c) ->
    mfold (fun clusters c => do cluster <- mfold (fun l i => do t <- at_index data i; Ok (l ++ [t])) [] c; Ok (clusters ++ [cluster])) acc cs = Ok (acc ++ map (map f) cs)).
  { induction cs as [|c cs IH]; intros acc H; cbn [mfold map]; [now rewrite app_nil_r|]. rewrite F1 by (apply H; now left). cbn [bind app].
    rewrite IH by (intros; apply H; now right). now rewrite <- app_assoc. }
  rewrite F2 by exact R. cbn [bind app]. eexists. split; [reflexivity|]. destruct P as [N P]. split; [|split].
  - replace (concat (map (map f) clusters)) with (map f (concat clusters)) by apply concat_map.
    rewrite P. replace (map f (seqZ 0 (size data))) with data; [reflexivity|].
    symmetry. apply nth_error_ext. intros k. rewrite nth_error_map.
    destruct (Nat.lt_ge_cases k (length data)) as [L|L].
    + assert (X : nth_error (seqZ 0 (size data)) k = Some (Z.of_nat k)).
      { clear - L. unfold seqZ. rewrite Z.sub_0_r, Nat2Z.id. assert (G : forall m lo j, (j < m)%nat -> nth_error (seq_from lo m) j = Some (lo + Z.of_nat j)).
        { induction m as [|m IH]; intros lo j H; [lia|]. destruct j as [|j]; cbn; [f_equal; lia|]. rewrite IH by lia. f_equal. lia. }
        rewrite G by exact L. reflexivity. }
      rewrite X. cbn [option_map]. unfold f. rewrite Nat2Z.id. symmetry. now apply nth_error_nth'.
    + assert (X : nth_error data k = None) by now apply nth_error_None. rewrite X.
      assert (Y : nth_error (seqZ 0 (size data)) k = None); [|now rewrite Y]. apply nth_error_None.
      assert (LS : length (seqZ 0 (size data)) = length data); [|lia]. unfold seqZ. rewrite Z.sub_0_r, Nat2Z.id. clear.
      generalize 0. induction (length data) as [|m IH]; intros lo; cbn; [reflexivity|]. now rewrite IH.
  - intros I. apply in_map_iff in I. destruct I as (c & E & I). destruct c; [contradiction|discriminate].
  - clear - R. induction clusters as [|c cs IH]; cbn [map]; constructor; [|apply IH; intros; apply R; now right].
    assert (H : Forall (fun i => 0 <= i < size data) c) by (apply R; now left). clear - H.
    induction H as [|i c Hi H IH]; cbn [map]; constructor; auto. unfold f. apply nth_error_nth'. lia.
Qed.

(** * From a distance function *)
Section Data.
Context {T : Type}.
Variable dist : T -> T -> double.
Variable data : list T.
Hypothesis ND : data <> [].
Hypothesis POS : forall a b, In a data -> In b data -> dlt (dist a b) d0 = false.
Variables (sp ob : bool) (team : nat) (nt : Z).
Hypothesis V : valid_call nt 0 (size data) team.
Variable bound : double.
Variable strategy : ClusterStrategy.

(** Distance of two indices: the function is applied in the order of the data. *)
Definition index_distance (t0 : T) (i j : Z) : double :=
  if i =? j then d0 else if i <? j then dist (nth (Z.to_nat i) data t0) (nth (Z.to_nat j) data t0)
  else dist (nth (Z.to_nat j) data t0) (nth (Z.to_nat i) data t0).

Lemma built_ok t0 o : built_matrix sp ob team nt dist data o -> exists m, o = Ok m /\ distances m (size data) (index_distance t0).
Proof.
  intros (tr & r & X & E). destruct (pairwise_matrix d0 dist data sp ob team nt tr r V X) as (m & Em & R & C & D & P).
  exists m. split; [congruence|]. split; [exact R|]. split; [exact C|]. intros i j Hi Hj. unfold index_distance.
  destruct (Z.eqb_spec i j) as [<-|N].
  - rewrite <- (Z2Nat.id i) by lia. apply D. lia.
  - destruct (Z.ltb_spec i j) as [L|L].
    + destruct (P (Z.to_nat i) (Z.to_nat j) (nth (Z.to_nat i) data t0) (nth (Z.to_nat j) data t0)) as [A _]; [lia|apply nth_error_nth'; lia|apply nth_error_nth'; lia|].
      rewrite !Z2Nat.id in A by lia. exact A.
    + destruct (P (Z.to_nat j) (Z.to_nat i) (nth (Z.to_nat j) data t0) (nth (Z.to_nat i) data t0)) as [_ A]; [lia|apply nth_error_nth'; lia|apply nth_error_nth'; lia|].
      rewrite !Z2Nat.id in A by lia. exact A.
Qed.

Lemma index_pos t0 : between (size data) (fun i j => dlt (index_distance t0 i j) d0 = false).
Proof.
  intros i j Hi Hj N. unfold index_distance. destruct (Z.eqb_spec i j); [congruence|].
  destruct (i <? j); apply POS; apply nth_In; lia.
Qed.
Lemma index_sym t0 : between (size data) (fun i j => index_distance t0 i j = index_distance t0 j i).
Proof.
  intros i j Hi Hj N. unfold index_distance. rewrite (Z.eqb_sym j i). destruct (Z.eqb_spec i j); [congruence|].
  destruct (Z.ltb_spec i j), (Z.ltb_spec j i); try lia; reflexivity.
Qed.

Lemma cluster_inversion res : Cluster sp ob team nt strategy dist data bound res ->
  exists t0 m clusters x out, distances m (size data) (index_distance t0) /\
    IndexClusterWithDistanceMatrix m strategy sp ob team nt bound (Ok (clusters, x)) /\ partition (size data) clusters /\
    res = Ok (out, x) /\ Permutation (concat out) data /\ ~ In [] out /\
    Forall2 (Forall2 (fun i e => nth_error data (Z.to_nat i) = Some e)) clusters out.
Proof.
  assert (L : 0 < size data) by (destruct data; [congruence|cbn; lia]).
  assert (T0 : exists t0 : T, True) by (destruct data as [|t l]; [congruence|exists t; exact Logic.I]). destruct T0 as [t0 _].
  intros [m r B R|o B F].
  - destruct (built_ok t0 _ B) as (m' & E & D). injection E as <-. exists t0, m. destruct (rows_n _ _ _ D) as [Rm Cm].
    destruct R as [[H|[H|H]]|ic _ _ _ R]; try congruence.
    destruct (run_partition m strategy (size data) _ D (index_pos t0) L sp ob team nt V bound ic R) as (clusters & x & -> & P).
    destruct (elements_ok data clusters x P) as (out & Eo & Po & No & Fo). exists clusters, x, out. cbn [bind]. auto 10.
  - destruct (built_ok t0 _ B) as (m & -> & D). discriminate.
Qed.

Lemma cluster_exists : exists res, Cluster sp ob team nt strategy dist data bound res.
Proof.
  assert (L : 0 < size data) by (destruct data; [congruence|cbn; lia]).
  assert (T0 : exists t0 : T, True) by (destruct data as [|t l]; [congruence|exists t; exact Logic.I]). destruct T0 as [t0 _].
  destruct (index_loop_exists sp ob team nt (size data) V) as [[tr r] X].
  assert (B : built_matrix sp ob team nt dist data (BuildPairwiseDistanceMatrix d0 dist data tr r)) by (exists tr, r; split; [exact X|reflexivity]).
  destruct (built_ok t0 _ B) as (m & E & D). rewrite E in B. destruct (rows_n _ _ _ D) as [Rm Cm].
  destruct (run_exists m strategy (size data) _ D (index_pos t0) L sp ob team nt V bound) as [ic R].
  eexists. eapply c_runs; [exact B|]. apply cdm_clusters; eauto.
Qed.
End Data.
