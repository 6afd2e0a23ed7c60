From Coq Require Import Reals.
From Flocq Require Import Core BinarySingleNaN.
From Verif Require Import Base Double SearchDouble ParallelismModel ParallelismSpec ParallelismProof ParallelismProof2 ParallelismCalls KnnModel KnnSpec KnnProof DistModel DistSpec DistProof.
From Coq Require Import Permutation.
Local Open Scope Z_scope.

(** Matrices. *)
Section M.
Context {C : Type}.
Lemma mat_set_ok (m : mat C) i j v : 0 <= i < m_rows m -> 0 <= j < m_cols m ->
  mat_set m i j v = Ok (mkMat (m_rows m) (m_cols m) (fun a b => if (a =? i) && (b =? j) then v else m_cell m a b)).
Proof.
  intros Hi Hj. unfold mat_set.
  repeat (match goal with |- context [Z.leb ?x ?y] => destruct (Z.leb_spec x y); [|lia] end).
  repeat (match goal with |- context [Z.ltb ?x ?y] => destruct (Z.ltb_spec x y); [|lia] end). reflexivity.
Qed.
End M.

Section P.
Context {D : Type}.
Variables (R K : Z) (F : Z -> Z -> D).
(** Every cell is uninitialised or right. *)
Definition sound (m : mat (option D)) : Prop :=
  m_rows m = R /\ m_cols m = K /\ forall i j, m_cell m i j = None \/ m_cell m i j = Some (F i j).
(** No cell is lost. *)
Definition grows (m m' : mat (option D)) : Prop := forall i j, m_cell m i j <> None -> m_cell m' i j <> None.

Lemma set_sound m i j : sound m -> 0 <= i < R -> 0 <= j < K ->
  exists m', mat_set m i j (Some (F i j)) = Ok m' /\ sound m' /\ grows m m' /\ m_cell m' i j <> None /\
    (forall a b, a <> i \/ b <> j -> m_cell m' a b = m_cell m a b).
Proof.
  intros (HR & HK & Hc) Hi Hj. rewrite mat_set_ok by lia. eexists. split; [reflexivity|].
  split; [|split; [|split]].
  - split; [exact HR|]. split; [exact HK|]. intros a b. cbn [m_cell].
    destruct (Z.eqb_spec a i) as [->|]; cbn [andb]; [|apply Hc]. destruct (Z.eqb_spec b j) as [->|]; [now right|apply Hc].
  - intros a b H. cbn [m_cell]. destruct (_ && _); [discriminate|exact H].
  - cbn [m_cell]. rewrite !Z.eqb_refl. discriminate.
  - intros a b H. cbn [m_cell]. destruct (Z.eqb_spec a i), (Z.eqb_spec b j); cbn [andb]; try reflexivity. lia.
Qed.
Lemma grows_trans a b c : grows a b -> grows b c -> grows a c.
Proof. unfold grows. auto. Qed.
End P.

Section Pairs.
Context {D A : Type}.
Variable zero : D.
Variable dist : A -> A -> D.
Variable data : list A.
(** The right matrix. *)
Variable F : Z -> Z -> D.
Hypothesis FD : forall i, F i i = zero.
Hypothesis FL : forall i j a b, (i < j)%nat -> nth_error data i = Some a -> nth_error data j = Some b ->
  F (Z.of_nat i) (Z.of_nat j) = dist a b /\ F (Z.of_nat j) (Z.of_nat i) = dist a b.
Notation n := (size data).

Lemma fill_pairs_sound m idx : sound n n F m -> 0 <= idx < n ->
  exists m', fill_pairs zero dist data m idx = Ok m' /\ sound n n F m' /\ grows m m' /\
    (forall j, idx <= j < n -> m_cell m' idx j <> None /\ m_cell m' j idx <> None) /\
    (forall a b, ~ (a = idx /\ idx <= b < n) -> ~ (b = idx /\ idx <= a < n) -> m_cell m' a b = m_cell m a b).
Proof.
  intros S Hi. unfold fill_pairs, raw_get.
  destruct (nth_error data (Z.to_nat idx)) as [item|] eqn:E; [|apply nth_error_None in E; lia]. cbn [bind].
  assert (G : forall js m, (forall j, In j js -> idx <= j < n) -> sound n n F m ->
    exists m', mfold (fun m jdx => if negb (idx =? jdx) then
             do other <- match nth_error data (Z.to_nat jdx) with Some a => Ok a | None => UB end;
             let distance := dist item other in
             do m <- mat_set m idx jdx (Some distance);
             mat_set m jdx idx (Some distance)
           else do m <- mat_set m idx jdx (Some zero); mat_set m jdx idx (Some zero)) m js = Ok m' /\ sound n n F m' /\ grows m m' /\
    (forall j, In j js -> m_cell m' idx j <> None /\ m_cell m' j idx <> None) /\
    (forall a b, ~ (a = idx /\ idx <= b < n) -> ~ (b = idx /\ idx <= a < n) -> m_cell m' a b = m_cell m a b)).
  { clear m S. induction js as [|j js IH]; intros m Hj S; cbn [mfold].
    { exists m. split; [reflexivity|]. split; [exact S|]. split; [intros a b H; exact H|]. split; [intros j []|reflexivity]. }
    pose proof (Hj j ltac:(now left)) as Hj0.
    assert (Step : exists v, (if negb (idx =? j) then
        do other <- match nth_error data (Z.to_nat j) with Some a => Ok a | None => UB end;
        let distance := dist item other in
        do m <- mat_set m idx j (Some distance); mat_set m j idx (Some distance)
      else do m <- mat_set m idx j (Some zero); mat_set m j idx (Some zero)) =
      (do m <- mat_set m idx j (Some v); mat_set m j idx (Some v)) /\ F idx j = v /\ F j idx = v).
    { destruct (Z.eqb_spec idx j) as [<-|NE]; cbn [negb].
      - exists zero. split; [reflexivity|]. split; apply FD.
      - destruct (nth_error data (Z.to_nat j)) as [o|] eqn:Eo; [|apply nth_error_None in Eo; lia].
        exists (dist item o). split; [reflexivity|].
        destruct (FL (Z.to_nat idx) (Z.to_nat j) item o ltac:(lia) E Eo) as [F1 F2]. rewrite !Z2Nat.id in * by lia. auto. }
    destruct Step as (v & Estep & F1 & F2). match type of Estep with ?l = _ => match goal with |- context [bind ?x (fun s' => mfold _ s' js)] => change x with l end end.
    rewrite Estep. clear Estep. subst v.
    destruct (set_sound n n F m idx j S Hi ltac:(lia)) as (m1 & E1 & S1 & G1 & N1 & O1). rewrite E1. cbn [bind].
    rewrite <- F2.
    destruct (set_sound n n F m1 j idx S1 ltac:(lia) Hi) as (m2 & E2 & S2 & G2 & N2 & O2). rewrite E2. cbn [bind].
    destruct (IH m2 ltac:(intros; apply Hj; now right) S2) as (m' & E' & S' & G' & N' & O').
    exists m'. split; [exact E'|]. split; [exact S'|].
    split; [exact (grows_trans _ _ _ (grows_trans _ _ _ G1 G2) G')|]. split.
    - intros i [<-|Hx]; [|now apply N']. split; apply G'; [apply G2; exact N1|exact N2].
    - intros a b H1 H2. rewrite O', O2, O1 by (assumption || lia). reflexivity. }
  destruct (G (seqZ idx n) m) as (m' & E' & S' & G' & N' & O'); [intros j Hj; rewrite seqZ_in in Hj; lia|exact S|].
  exists m'. split; [exact E'|]. split; [exact S'|]. split; [exact G'|]. split; [|exact O'].
  intros j Hj. apply N'. rewrite seqZ_in. lia.
Qed.

Lemma pairwise_spec sp ob team threads tr r :
  valid_call threads 0 n team -> index_loop_execution sp ob team threads n tr r ->
  exists m, BuildPairwiseDistanceMatrix zero dist data tr r = Ok m /\
    matrix_is m n n (fun i j => Some (F i j)).
Proof.
  intros V X. destruct (index_execution_calls _ _ _ _ _ _ _ V X) as (-> & Perm & _).
  unfold BuildPairwiseDistanceMatrix, after_loop. cbn [bind].
  assert (G : forall cs m, (forall c : Z * (Z * Z), In c cs -> 0 <= fst (snd c) < n) -> sound n n F m ->
    exists m', mfold (fun m c => fill_pairs zero dist data m (fst (snd c))) m cs = Ok m' /\ sound n n F m' /\ grows m m' /\
      forall c j, In c cs -> fst (snd c) <= j < n -> m_cell m' (fst (snd c)) j <> None /\ m_cell m' j (fst (snd c)) <> None).
  { induction cs as [|c cs IH]; intros m Hc S; cbn [mfold].
    - exists m. split; [reflexivity|]. split; [exact S|]. split; [intros a b H; exact H|intros c j []].
    - destruct (fill_pairs_sound m (fst (snd c)) S (Hc c ltac:(now left))) as (m1 & E1 & S1 & G1 & N1 & _).
      rewrite E1. cbn [bind]. destruct (IH m1 ltac:(intros; apply Hc; now right) S1) as (m' & E' & S' & G' & N').
      exists m'. split; [exact E'|]. split; [exact S'|]. split; [exact (grows_trans _ _ _ G1 G')|].
      intros c' j [<-|Hx] Hj; [|now apply N']. destruct (N1 j Hj). split; apply G'; assumption. }
  assert (Hin : forall i, 0 <= i < n -> exists c, In c (loop_calls tr) /\ fst (snd c) = i).
  { intros i Hi. assert (I : In i (map (fun c => fst (snd c)) (loop_calls tr))).
    { apply (Permutation_in _ (Permutation_sym Perm)). rewrite seqZ_in. lia. }
    apply in_map_iff in I as (c & E & I). now exists c. }
  destruct (G (loop_calls tr) (new_mat n n)) as (m & E & (HR & HK & S) & _ & N).
  { intros c Hc. assert (I : In (fst (snd c)) (seqZ 0 n)).
    { apply (Permutation_in _ Perm). apply in_map_iff. now exists c. } rewrite seqZ_in in I. lia. }
  { split; [reflexivity|]. split; [reflexivity|]. intros i j. now left. }
  exists m. split; [exact E|]. split; [exact HR|]. split; [exact HK|].
  intros i j Hi Hj. assert (NN : m_cell m i j <> None).
  { destruct (Z_le_dec i j).
    - destruct (Hin i Hi) as (c & Hc & <-). apply (N c j Hc). lia.
    - destruct (Hin j Hj) as (c & Hc & <-). apply (N c i Hc). lia. }
  destruct (S i j) as [Z|Z]; [contradiction|exact Z].
Qed.
End Pairs.

(** The calls of different indices write different cells, so the order in which
    overlapping calls perform their writes does not matter. *)
Lemma writers_disjoint (n i j a b : Z) : i <> j ->
  (a = i /\ i <= b < n \/ b = i /\ i <= a < n) -> (a = j /\ j <= b < n \/ b = j /\ j <= a < n) -> False.
Proof. lia. Qed.

(** The whole matrix, independently of the schedule. *)
Definition pair_distance {D A} (zero : D) (dist : A -> A -> D) (data : list A) (i j : Z) : option D :=
  if i =? j then Some zero
  else match nth_error data (Z.to_nat (Z.min i j)), nth_error data (Z.to_nat (Z.max i j)) with
       | Some a, Some b => Some (dist a b)
       | _, _ => None
       end.

Lemma pairwise_matrix {D A} (zero : D) (dist : A -> A -> D) (data : list A) sp ob team threads tr r :
  valid_call threads 0 (size data) team -> index_loop_execution sp ob team threads (size data) tr r ->
  exists m, BuildPairwiseDistanceMatrix zero dist data tr r = Ok m /\
    m_rows m = size data /\ m_cols m = size data /\
    (forall i, (i < length data)%nat -> m_cell m (Z.of_nat i) (Z.of_nat i) = Some zero) /\
    (forall i j a b, (i < j)%nat -> nth_error data i = Some a -> nth_error data j = Some b ->
       m_cell m (Z.of_nat i) (Z.of_nat j) = Some (dist a b) /\ m_cell m (Z.of_nat j) (Z.of_nat i) = Some (dist a b)).
Proof.
  intros V X.
  set (F := fun i j => match pair_distance zero dist data i j with Some v => v | None => zero end).
  assert (FL : forall i j a b, (i < j)%nat -> nth_error data i = Some a -> nth_error data j = Some b ->
    F (Z.of_nat i) (Z.of_nat j) = dist a b /\ F (Z.of_nat j) (Z.of_nat i) = dist a b).
  { intros i j a b Lt Ha Hb. unfold F, pair_distance.
    destruct (Z.eqb_spec (Z.of_nat i) (Z.of_nat j)); [lia|]. destruct (Z.eqb_spec (Z.of_nat j) (Z.of_nat i)); [lia|].
    rewrite (Z.min_comm (Z.of_nat j)), (Z.max_comm (Z.of_nat j)).
    rewrite (Z.min_l (Z.of_nat i) (Z.of_nat j)), (Z.max_r (Z.of_nat i) (Z.of_nat j)), !Nat2Z.id by lia.
    rewrite Ha, Hb. split; reflexivity. }
  destruct (pairwise_spec zero dist data F) with (sp := sp) (ob := ob) (team := team) (threads := threads) (tr := tr) (r := r)
    as (m & E & HR & HK & H); auto.
  { intros i. unfold F, pair_distance. now rewrite Z.eqb_refl. }
  exists m. split; [exact E|]. split; [exact HR|]. split; [exact HK|]. split.
  - intros i Hi. rewrite H by lia. unfold F, pair_distance. now rewrite Z.eqb_refl.
  - intros i j a b Lt Ha Hb. assert ((j < length data)%nat) by (apply nth_error_Some; congruence).
    rewrite !H by lia. destruct (FL i j a b Lt Ha Hb) as [-> ->]. split; reflexivity.
Qed.

(** Two datasets. *)
Lemma pairwise2_matrix {D A B} (dist : A -> B -> D) (data1 : list A) (data2 : list B) sp ob team threads tr r :
  valid_call threads 0 (size data1) team -> index_loop_execution sp ob team threads (size data1) tr r ->
  exists m, BuildPairwiseDistanceMatrix2 dist data1 data2 tr r = Ok m /\
    m_rows m = size data1 /\ m_cols m = size data2 /\
    (forall i j a b, nth_error data1 i = Some a -> nth_error data2 j = Some b ->
       m_cell m (Z.of_nat i) (Z.of_nat j) = Some (dist a b)).
Proof.
  intros V X. destruct (index_execution_calls _ _ _ _ _ _ _ V X) as (-> & Perm & _).
  unfold BuildPairwiseDistanceMatrix2, after_loop. cbn [bind].
  assert (HB : data2 = [] \/ exists b0 : B, True) by (destruct data2 as [|x l]; [left; reflexivity|right; exists x; exact I]).
  destruct HB as [->|[b0 _]].
  { (* no columns *)
    assert (G : forall cs m, (forall c : Z * (Z * Z), In c cs -> 0 <= fst (snd c) < size data1) ->
      mfold (fun m c => fill_row dist data1 [] m (fst (snd c))) m cs = Ok m).
    { induction cs as [|c cs IH]; intros m Hc; cbn [mfold]; [reflexivity|].
      unfold fill_row at 1, raw_get. destruct (nth_error data1 (Z.to_nat (fst (snd c)))) eqn:E; [|apply nth_error_None in E; specialize (Hc c ltac:(now left)); lia].
      cbn. apply IH. intros; apply Hc; now right. }
    rewrite G.
    - eexists. split; [reflexivity|]. split; [reflexivity|]. split; [reflexivity|]. intros i j a b _ H. destruct j; discriminate.
    - intros c Hc. assert (I : In (fst (snd c)) (seqZ 0 (size data1))).
      { apply (Permutation_in _ Perm). apply in_map_iff. now exists c. } rewrite seqZ_in in I. lia. }
  assert (HA : data1 = [] \/ exists a0 : A, True) by (destruct data1 as [|x l]; [left; reflexivity|right; exists x; exact I]).
  destruct HA as [->|[a0 _]].
  { destruct (loop_calls tr) as [|c cs]; [|apply Permutation_length in Perm; discriminate]. cbn.
    eexists. split; [reflexivity|]. split; [reflexivity|]. split; [reflexivity|]. intros i j a b H. destruct i; discriminate. }
  set (N := size data1). set (K := size data2).
  set (FF := fun i j => dist (nth (Z.to_nat i) data1 a0) (nth (Z.to_nat j) data2 b0)).
  assert (Row : forall m i, sound N K FF m -> 0 <= i < N ->
    exists m', fill_row dist data1 data2 m i = Ok m' /\ sound N K FF m' /\ grows m m' /\ forall j, 0 <= j < K -> m_cell m' i j <> None).
  { intros m i S Hi. unfold fill_row, raw_get.
    destruct (nth_error data1 (Z.to_nat i)) as [item|] eqn:E; [|apply nth_error_None in E; unfold N in Hi; lia]. cbn [bind].
    assert (Ei : item = nth (Z.to_nat i) data1 a0) by (symmetry; now apply nth_error_nth).
    assert (G : forall js m, (forall j, In j js -> 0 <= j < K) -> sound N K FF m ->
      exists m', mfold (fun m data2_index => do second <- match nth_error data2 (Z.to_nat data2_index) with Some a => Ok a | None => UB end;
           mat_set m i data2_index (Some (dist item second))) m js = Ok m' /\ sound N K FF m' /\ grows m m' /\
           forall j, In j js -> m_cell m' i j <> None).
    { clear m S. induction js as [|j js IH]; intros m Hj S; cbn [mfold].
      - exists m. split; [reflexivity|]. split; [exact S|]. split; [intros a b H; exact H|intros j []].
      - pose proof (Hj j ltac:(now left)) as Hj0.
        destruct (nth_error data2 (Z.to_nat j)) as [o|] eqn:Eo; [|apply nth_error_None in Eo; unfold K in Hj0; lia]. cbn [bind].
        assert (Eo' : o = nth (Z.to_nat j) data2 b0) by (symmetry; now apply nth_error_nth).
        destruct (set_sound N K FF m i j S Hi Hj0) as (m1 & E1 & S1 & G1 & N1 & O1).
        unfold FF in E1. rewrite Ei, Eo', E1. cbn [bind]. rewrite <- Ei.
        destruct (IH m1 ltac:(intros; apply Hj; now right) S1) as (m' & E' & S' & G' & N').
        exists m'. split; [exact E'|]. split; [exact S'|]. split; [exact (grows_trans _ _ _ G1 G')|].
        intros q [<-|Hq]; [now apply G'|now apply N']. }
    destruct (G (seqZ 0 K) m) as (m' & E' & S' & G' & N'); [intros j Hj; rewrite seqZ_in in Hj; lia|exact S|].
    exists m'. split; [exact E'|]. split; [exact S'|]. split; [exact G'|].
    intros j Hj. apply N'. rewrite seqZ_in. lia. }
  assert (G : forall cs m, (forall c : Z * (Z * Z), In c cs -> 0 <= fst (snd c) < N) -> sound N K FF m ->
    exists m', mfold (fun m c => fill_row dist data1 data2 m (fst (snd c))) m cs = Ok m' /\ sound N K FF m' /\ grows m m' /\
      forall c j, In c cs -> 0 <= j < K -> m_cell m' (fst (snd c)) j <> None).
  { induction cs as [|c cs IH]; intros m Hc S; cbn [mfold].
    - exists m. split; [reflexivity|]. split; [exact S|]. split; [intros a b H; exact H|intros c j []].
    - destruct (Row m (fst (snd c)) S (Hc c ltac:(now left))) as (m1 & E1 & S1 & G1 & N1).
      rewrite E1. cbn [bind]. destruct (IH m1 ltac:(intros; apply Hc; now right) S1) as (m' & E' & S' & G' & N').
      exists m'. split; [exact E'|]. split; [exact S'|]. split; [exact (grows_trans _ _ _ G1 G')|].
      intros c' j [<-|Hx] Hj; [apply G'; now apply N1|now apply N']. }
  destruct (G (loop_calls tr) (new_mat N K)) as (m & E & (HR & HK & S) & _ & NN).
  { intros c Hc. assert (I : In (fst (snd c)) (seqZ 0 N)).
    { apply (Permutation_in _ Perm). apply in_map_iff. now exists c. } rewrite seqZ_in in I. lia. }
  { split; [reflexivity|]. split; [reflexivity|]. intros i j. now left. }
  exists m. split; [exact E|]. split; [exact HR|]. split; [exact HK|].
  intros i j a b Ha Hb.
  assert (Li : (i < length data1)%nat) by (apply nth_error_Some; congruence).
  assert (Lj : (j < length data2)%nat) by (apply nth_error_Some; congruence).
  assert (I : In (Z.of_nat i) (map (fun c => fst (snd c)) (loop_calls tr))).
  { apply (Permutation_in _ (Permutation_sym Perm)). rewrite seqZ_in. lia. }
  apply in_map_iff in I as (c & Ec & Hc).
  assert (Nc : m_cell m (Z.of_nat i) (Z.of_nat j) <> None) by (rewrite <- Ec; apply NN; [exact Hc|unfold K; lia]).
  destruct (S (Z.of_nat i) (Z.of_nat j)) as [Z|Z]; [contradiction|]. rewrite Z. unfold FF. rewrite !Nat2Z.id.
  rewrite (nth_error_nth _ _ _ Ha), (nth_error_nth _ _ _ Hb). reflexivity.
Qed.

(** binary64: the non-negative numbers (with infinity, without NaN). *)
Lemma double_order_on : order_on dlt (fun x => nonneg x = true).
Proof.
  constructor.
  - intros a H. apply dlt_false; auto. unfold dleR. destruct (nonneg_cases a H) as [->|[F _]]; [now left|]. right. split; [exact F|]. split; [exact F|]. apply Rle_refl.
  - intros a b c Ha Hb Hc H1 H2. unfold leD in *. apply dlt_false in H1; auto. apply dlt_false in H2; auto. apply dlt_false; auto.
    unfold dleR in *. intuition (subst; auto; try discriminate).
    all: try (right; split; [assumption|]; split; [assumption|]; eapply Rle_trans; eassumption).
  - intros a b Ha Hb. unfold leD. rewrite (dlt_false a b), (dlt_false b a) by assumption. unfold dleR.
    destruct (nonneg_cases a Ha) as [->|[Fa _]]; [right; left; reflexivity|].
    destruct (nonneg_cases b Hb) as [->|[Fb _]]; [left; left; reflexivity|].
    destruct (Rle_dec (B2R a) (B2R b)); [left; right; auto|right; right; split; [exact Fb|]; split; [exact Fa|]].
    apply Rlt_le, Rnot_le_lt. assumption.
Qed.

Section Doubles.
Context {A B : Type}.
Variable dist : A -> B -> double.
Variables (first : list A) (second : list B).
Hypothesis NF : first <> [].
Hypothesis NS : second <> [].
Hypothesis PD : forall a b, In a first -> In b second -> nonneg (dist a b) = true.
Notation P := (fun x => nonneg x = true).

Lemma pd_double : forall a b, In a first -> In b second ->
  P (dist a b) /\ leD dlt d0 (dist a b) /\ leD dlt (dist a b) dinf.
Proof.
  intros a b Ha Hb. pose proof (PD a b Ha Hb) as H. split; [exact H|]. split.
  - unfold leD. apply dlt_false; [reflexivity|exact H|]. unfold dleR.
    destruct (nonneg_cases _ H) as [E|[F Q]]; [now left|right]. split; [reflexivity|]. split; [exact F|]. exact Q.
  - unfold leD. apply dlt_false; [exact H|reflexivity|]. now left.
Qed.

Lemma double_compute sp ob team n tr r :
  valid_call n 0 (size first) team -> index_loop_execution sp ob team n (size first) tr r ->
  exists v, ComputeDistance dlt d0 dinf dist first second n tr r = Ok v /\ directed_distance dlt dist first second v.
Proof.
  intros V X. destruct (compute_spec dlt d0 dinf P double_order_on eq_refl eq_refl dist first second NF NS pd_double sp ob team n tr r V X) as (v & E & _ & H).
  now exists v.
Qed.
Lemma double_compute_matrix sp ob team n tr r m : distances_of dist first second m ->
  valid_call n 0 (size first) team -> index_loop_execution sp ob team n (size first) tr r ->
  exists v, ComputeDistanceWithMatrix dlt d0 dinf m first second n tr r = Ok v /\ directed_distance dlt dist first second v.
Proof.
  intros M V X. destruct (compute_matrix_spec dlt d0 dinf P double_order_on eq_refl eq_refl dist first second NF NS pd_double sp ob team n tr r m M V X) as (v & E & _ & H).
  now exists v.
Qed.
Lemma double_agree sp ob team n tr r tr' r' :
  valid_call n 0 (size first) team -> index_loop_execution sp ob team n (size first) tr r ->
  exists p s, ComputeDistance dlt d0 dinf dist first second n tr r = Ok p /\
    ComputeDistance dlt d0 dinf dist first second 1 tr' r' = Ok s /\ sameD dlt p s.
Proof.
  intros V X. destruct (compute_spec dlt d0 dinf P double_order_on eq_refl eq_refl dist first second NF NS pd_double sp ob team n tr r V X) as (p & E & Pp & H).
  assert (GET : forall i j a b, nth_error first i = Some a -> nth_error second j = Some b ->
    from_function dist first second (Z.of_nat i) (Z.of_nat j) = Ok (dist a b)).
  { intros i j a b Ha Hb. unfold from_function, raw_get. rewrite !Nat2Z.id, Ha, Hb. reflexivity. }
  destruct (serial_spec dlt d0 dinf P double_order_on eq_refl eq_refl dist first second NF NS pd_double _ GET) as (s & Es & Ps & Hs).
  exists p, s. split; [exact E|]. split.
  - unfold ComputeDistance, nonempty_args.
    destruct (Z.eqb_spec (size first) 0) as [E0|_]; [destruct first; [congruence|cbn in E0; lia]|].
    destruct (Z.eqb_spec (size second) 0) as [E0|_]; [destruct second; [congruence|cbn in E0; lia]|]. exact Es.
  - exact (directed_unique dlt d0 dinf P double_order_on dist first second pd_double p s Pp Ps H Hs).
Qed.

(** The result is the Hausdorff distance when the other direction gives no
    more. *)
Lemma double_hausdorff sp ob team n tr r :
  valid_call n 0 (size first) team -> index_loop_execution sp ob team n (size first) tr r ->
  exists v, ComputeDistance dlt d0 dinf dist first second n tr r = Ok v /\
    forall v2, directed_distance dlt (fun b a => dist a b) second first v2 ->
      leD dlt v2 v -> hausdorff_distance dlt dist first second v.
Proof.
  intros V X. destruct (compute_spec dlt d0 dinf P double_order_on eq_refl eq_refl dist first second NF NS pd_double sp ob team n tr r V X) as (v & E & Pv & H).
  exists v. split; [exact E|]. intros v2 H2 L2. exists v, v2.
  assert (LL : leD dlt v v) by (apply (oo_irrefl _ _ double_order_on); exact Pv).
  split; [exact H|]. split; [exact H2|]. split; [exact LL|]. split; [exact L2|]. left. split; exact LL.
Qed.
End Doubles.

(** One point against two: the second point of the second set is ignored. *)
Lemma hausdorff_directed_only : exists (z : nat -> nat -> Z) (first second : list nat) v v',
  (forall a b, z a b = Z.abs (Z.of_nat a - Z.of_nat b)) /\
  (forall n tr r, IsParallel n = false ->
     ComputeDistance dlt d0 dinf (fun a b => d_of_Z (z a b)) first second n tr r = Ok v) /\
  hausdorff_distance dlt (fun a b => d_of_Z (z a b)) first second v' /\ dlt v v' = true.
Proof.
  exists (fun a b => Z.abs (Z.of_nat a - Z.of_nat b)), [0%nat], [0%nat; 5%nat].
  exists (match ComputeDistance dlt d0 dinf (fun a b => d_of_Z (Z.abs (Z.of_nat a - Z.of_nat b))) [0%nat] [0%nat; 5%nat] 1 [] (Ok tt) with Ok v => v | _ => d0 end).
  exists (d_of_Z 5). split; [reflexivity|]. split; [|split].
  - intros n tr r Hn. unfold ComputeDistance. rewrite Hn. reflexivity.
  - exists (d_of_Z 0), (d_of_Z 5).
    split; [split; [exists 0%nat; split; [now left|]|]|].
    + intros b [<-|[<-|[]]]; vm_compute; reflexivity.
    + intros a [<-|[]]. exists 0%nat. split; [now left|]. vm_compute. reflexivity.
    + split; [split; [exists 5%nat; split; [right; now left|]|]|].
      * intros b [<-|[]]; vm_compute; reflexivity.
      * intros a [<-|[<-|[]]]; exists 0%nat; (split; [now left|]); vm_compute; reflexivity.
      * split; [vm_compute; reflexivity|]. split; [vm_compute; reflexivity|]. right. split; vm_compute; reflexivity.
  - vm_compute. reflexivity.
Qed.

(** Two threads on std::async, calls overlapping, later index first. *)
Definition two_index_trace : list event :=
  [EvBegin 1 1 2; EvBegin 0 0 1; EvEnd 0 0 1 None; EvEnd 1 1 2 None].
Lemma two_index_run sp : index_loop_execution sp false 1 2 2 two_index_trace (Ok tt).
Proof.
  split; [|repeat constructor].
  set (mk := fun k => start_share index_body 0 2 2 k k).
  change (StaticParallelForLoop index_body false 1 2 0 2 BEST_AVAILABLE)
    with (SAsync mk 0 2 [] []).
  change two_index_trace with
    ((((((((([] ++ []) ++ []) ++ [EvBegin 1 1 2]) ++ [EvBegin 0 0 1]) ++ [EvEnd 0 0 1 None]) ++
       [EvEnd 1 1 2 None]) ++ []) ++ []) ++ []).
  set (w0 := mkWorker 0 [] Idle). set (w1 := mkWorker 1 [] Idle).
  eapply run_step. 2: exact (step_async_return index_body sp mk 2 2 [w0; w1] ltac:(lia)).
  eapply run_step. 2: exact (step_async_get index_body sp mk 2 2 [w0] 1 [] ltac:(lia)).
  eapply run_step. 2: exact (step_async_get index_body sp mk 2 2 [] 0 [w1] ltac:(lia)).
  eapply run_step. 2: exact (step_async_work index_body sp mk 2 2 [] [w0] _ _ _ [] (wstep_return 1 1 2 [])).
  eapply run_step. 2: exact (step_async_work index_body sp mk 2 2 [] [] _ _ _ _ (wstep_return 0 0 1 [])).
  eapply run_step. 2: exact (step_async_work index_body sp mk 2 2 [] [] _ _ _ _ (wstep_begin 0 0 1 [])).
  eapply run_step. 2: exact (step_async_work index_body sp mk 2 2 [] [_] _ _ _ [] (wstep_begin 1 1 2 [])).
  eapply run_step. 2: exact (step_async_dispatch index_body sp mk 1 2 [mk 0] ltac:(lia)).
  eapply run_step. 2: exact (step_async_dispatch index_body sp mk 0 2 [] ltac:(lia)).
  apply run_start.
Qed.
Lemma two_index_valid : valid_call 2 0 2 1.
Proof. unfold valid_call, int64_min, int64_max. cbn. repeat split; lia. Qed.

Lemma hausdorff_rejects {D A B} (ltb : D -> D -> bool) (zero inf : D) (dist : A -> B -> D)
    (m : mat D) first second num_threads tr r :
  (first = [] \/ second = [] ->
   ComputeDistance ltb zero inf dist first second num_threads tr r = Throw InvalidArgument) /\
  (first = [] \/ second = [] \/ m_rows m <> size first \/ m_cols m <> size second ->
   ComputeDistanceWithMatrix ltb zero inf m first second num_threads tr r = Throw InvalidArgument).
Proof.
  unfold ComputeDistance, ComputeDistanceWithMatrix, matrix_args, nonempty_args. split.
  - intros [->| ->]; [reflexivity|]. destruct (size first =? 0); reflexivity.
  - destruct (Z.eqb_spec (size first) 0); [reflexivity|]. destruct (Z.eqb_spec (size second) 0); [reflexivity|].
    intros [->|[->|[H|H]]]; try (cbn in *; lia); destruct (Z.eqb_spec (m_rows m) (size first)), (Z.eqb_spec (m_cols m) (size second)); try reflexivity; lia.
Qed.

(** Cells changed by one call. *)
Lemma fill_pairs_frame {D A} (zero : D) (dist : A -> A -> D) data m i m' :
  fill_pairs zero dist data m i = Ok m' ->
  forall a b, ~ (a = i /\ i <= b) -> ~ (b = i /\ i <= a) -> m_cell m' a b = m_cell m a b.
Proof.
  intros H. unfold fill_pairs in H. apply bind_ok in H as (item & _ & H).
  intros a b H1 H2.
  apply (mfold_inv (fun x => m_cell x a b = m_cell m a b)) in H; [exact H|reflexivity|].
  assert (SET : forall (x x' : mat (option D)) (p q : Z) v, (a <> p \/ b <> q) -> mat_set x p q v = Ok x' -> m_cell x' a b = m_cell x a b).
  { intros x x' p q v NE HS. unfold mat_set in HS. destruct (_ && _); [|discriminate]. injection HS as <-. cbn [m_cell].
    destruct (Z.eqb_spec a p), (Z.eqb_spec b q); cbn [andb]; try reflexivity. lia. }
  intros s j s' Hj Hs Hf. rewrite seqZ_in in Hj. rewrite <- Hs.
  assert (EX : exists v, (do x <- mat_set s i j v; mat_set x j i v) = Ok s').
  { destruct (negb (i =? j)); [apply bind_ok in Hf as (o & _ & Hf)|]; eauto. }
  destruct EX as (v & EX). apply bind_ok in EX as (x & Hx1 & Hx2).
  rewrite (SET x s' j i v ltac:(lia) Hx2), (SET s x i j v ltac:(lia) Hx1). reflexivity.
Qed.
Lemma pairs_no_race {D A} (zero : D) (dist : A -> A -> D) (data : list A) m i j m1 m2 :
  i <> j -> m_rows m = size data -> m_cols m = size data ->
  fill_pairs zero dist data m i = Ok m1 -> fill_pairs zero dist data m j = Ok m2 ->
  forall a b, m_cell m1 a b = m_cell m a b \/ m_cell m2 a b = m_cell m a b.
Proof.
  intros NE _ _ F1 F2 a b.
  destruct (Z_le_dec a b).
  - destruct (Z.eq_dec a i); [right; apply (fill_pairs_frame _ _ _ _ _ _ F2); lia|left; apply (fill_pairs_frame _ _ _ _ _ _ F1); lia].
  - destruct (Z.eq_dec b i); [right; apply (fill_pairs_frame _ _ _ _ _ _ F2); lia|left; apply (fill_pairs_frame _ _ _ _ _ _ F1); lia].
Qed.
