(** Proofs for C23 and C24. *)
From Verif Require Import Base ParallelismModel ParallelismSpec ParallelismProof ParallelismProof2
  ParallelismCalls KnnModel KnnSpec.
From Verif Require SearchModel SearchSpec SearchDouble.
From Coq Require Import Permutation Sorting.Sorted.
Local Open Scope Z_scope.

Section K.
Context {D Item : Type}.
Variable ltb : D -> D -> bool.
Hypothesis L : order_laws ltb.
Variable inf : D.
Variable items : list Item.
Variable dist : Item -> D.
Variable psort : nat -> list (Z * D) -> list (Z * D).
Hypothesis PS : partial_sort_contract ltb psort.

Notation le := (leD ltb).
Notation ele := (fun x y : Z * D => leD ltb (snd x) (snd y)).

Lemma le_refl a : le a a. Proof. apply (ltb_irrefl _ L). Qed.
Lemma le_trans a b c : le a b -> le b c -> le a c.
Proof. unfold leD. intros H1 H2. exact (ltb_weak _ L c b a H2 H1). Qed.
Lemma lt_le_contra a b : ltb a b = true -> le b a -> False.
Proof. unfold leD. congruence. Qed.
Lemma le_lt_lt a b c : le a b -> ltb b c = true -> ltb a c = true.
Proof.
  unfold leD. intros H1 H2. destruct (ltb a c) eqn:E; [reflexivity|].
  rewrite (ltb_weak _ L b a c H1 E) in H2. discriminate.
Qed.

(** ** Counting entries below a distance *)
Definition below (d : D) (l : list (Z * D)) : nat := length (filter (fun x => ltb (snd x) d) l).

Lemma below_app d a b : below d (a ++ b) = (below d a + below d b)%nat.
Proof. unfold below. now rewrite filter_app, app_length. Qed.
Lemma below_perm d a b : Permutation a b -> below d a = below d b.
Proof.
  unfold below. induction 1; simpl; auto.
  - destruct (ltb (snd x) d); simpl; congruence.
  - destruct (ltb (snd x) d), (ltb (snd y) d); reflexivity.
  - congruence.
Qed.
Lemma below_le d l : (below d l <= length l)%nat.
Proof. unfold below. induction l; simpl; [lia|]. destruct (ltb _ _); simpl; lia. Qed.
Lemma below_lt d l x : In x l -> le d (snd x) -> (below d l < length l)%nat.
Proof.
  unfold below, leD. induction l as [|y l IH]; simpl; [contradiction|].
  intros [<- | H] E.
  - rewrite E. pose proof (below_le d l). unfold below in *. lia.
  - specialize (IH H E). destruct (ltb (snd y) d); simpl; lia.
Qed.
Lemma below_zero d l : (forall x, In x l -> le d (snd x)) -> below d l = 0%nat.
Proof.
  unfold below, leD. induction l as [|y l IH]; simpl; [reflexivity|]. intros H.
  rewrite (H y) by auto. apply IH. auto.
Qed.
Lemma below_all d l : (forall x, In x l -> ltb (snd x) d = true) -> below d l = length l.
Proof.
  unfold below. induction l as [|y l IH]; simpl; [reflexivity|]. intros H.
  rewrite (H y) by auto. simpl. rewrite IH; auto.
Qed.

(** ** Selections *)
Record is_sel (all sel : list (Z * D)) (k : nat) : Prop := mkSel {
  is_rest : exists rest, Permutation all (sel ++ rest) /\
    (forall x y, In x sel -> In y rest -> le (snd x) (snd y));
  is_len : length sel = Nat.min k (length all) }.

Lemma is_sel_full all k : (length all <= k)%nat -> is_sel all all k.
Proof.
  intros H. constructor; [|lia]. exists []. rewrite app_nil_r. split; [reflexivity|].
  intros ? ? ? [].
Qed.

Lemma psort_sel l k : (k <= length l)%nat ->
  is_sel l (firstn k (psort k l)) k /\ StronglySorted ele (firstn k (psort k l)).
Proof.
  intros H. destruct (PS k l H) as (P & S & R). split; [|exact S]. constructor.
  - exists (skipn k (psort k l)). rewrite firstn_skipn. split; [symmetry; exact P|exact R].
  - rewrite firstn_length, (Permutation_length P). reflexivity.
Qed.

(** Sorted selections of the same entries agree position by position. *)
Lemma sorted_sel_nth all sel k d i x : is_sel all sel k -> StronglySorted ele sel ->
  nth_error sel i = Some x -> (ltb (snd x) d = true <-> (i < below d all)%nat).
Proof.
  intros [(rest & P & R) _] S Hi. rewrite (below_perm d _ _ P). clear P all k.
  destruct (nth_error_split _ _ Hi) as (l1 & l2 & E & Hl). subst sel. clear Hi.
  rewrite !below_app.
  assert (S1 : forall y, In y l1 -> le (snd y) (snd x)).
  { clear - S. induction l1 as [|z l1 IH]; simpl in *; [contradiction|].
    inversion S as [|? ? S' F]; subst. intros y [<- | Hy].
    - rewrite Forall_forall in F. apply F. rewrite in_app_iff. simpl. auto.
    - exact (IH S' y Hy). }
  assert (S2 : forall y, In y l2 -> le (snd x) (snd y)).
  { clear - S. induction l1 as [|z l1 IH]; simpl in *; inversion S as [|? ? S' F]; subst.
    - now apply Forall_forall.
    - apply IH. exact S'. }
  change (x :: l2) with ([x] ++ l2). rewrite below_app.
  split; intros H.
  - rewrite (below_all d l1), Hl.
    + assert (below d [x] = 1%nat) as -> by (unfold below; simpl; rewrite H; reflexivity). lia.
    + intros y Hy. exact (le_lt_lt _ _ _ (S1 y Hy) H).
  - destruct (ltb (snd x) d) eqn:E; [reflexivity|]. exfalso.
    assert (below d [x] = 0%nat) by (unfold below; simpl; rewrite E; reflexivity).
    assert (below d l2 = 0%nat).
    { apply below_zero. intros y Hy. exact (le_trans _ _ _ E (S2 y Hy)). }
    assert (below d rest = 0%nat).
    { apply below_zero. intros y Hy. apply (le_trans _ _ _ E), R; [|exact Hy].
      rewrite in_app_iff. simpl. auto. }
    pose proof (below_le d l1). lia.
Qed.

Lemma sorted_sel_unique all all' s1 s2 k : Permutation all all' ->
  is_sel all s1 k -> is_sel all' s2 k -> StronglySorted ele s1 -> StronglySorted ele s2 ->
  Forall2 (fun a b => sameD ltb (snd a) (snd b)) s1 s2.
Proof.
  intros P I1 I2 S1 S2.
  assert (EL : length s1 = length s2).
  { rewrite (is_len _ _ _ I1), (is_len _ _ _ I2), (Permutation_length P). reflexivity. }
  assert (H : forall i x y, nth_error s1 i = Some x -> nth_error s2 i = Some y ->
    sameD ltb (snd x) (snd y)).
  { intros i x y Hx Hy.
    pose proof (fun d => sorted_sel_nth _ _ _ d _ _ I1 S1 Hx) as A.
    pose proof (fun d => sorted_sel_nth _ _ _ d _ _ I2 S2 Hy) as B.
    unfold sameD, leD. split.
    - destruct (ltb (snd y) (snd x)) eqn:E; [|reflexivity].
      rewrite B, <- (below_perm _ _ _ P), <- A in E. rewrite (ltb_irrefl _ L) in E. discriminate.
    - destruct (ltb (snd x) (snd y)) eqn:E; [|reflexivity].
      rewrite A, (below_perm _ _ _ P), <- B in E. rewrite (ltb_irrefl _ L) in E. discriminate. }
  clear - EL H. revert s2 EL H.
  induction s1 as [|x s1 IH]; intros [|y s2] EL H; simpl in *; try discriminate; constructor.
  - apply (H 0%nat); reflexivity.
  - apply IH; [lia|]. intros i. apply (H (S i)).
Qed.

(** Selecting from the union of selections of parts selects from the union of
    the parts. *)
Lemma merge_sel (parts sels : list (list (Z * D))) k :
  Forall2 (fun p s => is_sel p s k) parts sels ->
  exists rests, Permutation (concat parts) (concat sels ++ rests) /\
    (forall x, In x rests -> exists s others, Permutation (concat sels) (s ++ others) /\ length s = k /\
       forall y, In y s -> le (snd y) (snd x)) /\
    (Nat.min k (length (concat parts)) <= length (concat sels))%nat.
Proof.
  induction 1 as [|p s parts sels I F IH]; simpl.
  { exists []. repeat split; [constructor|contradiction|lia]. }
  destruct IH as (rests & P & H & Hlen). destruct I as [(rest & Pr & R) Hl].
  exists (rest ++ rests). split; [|split].
  - rewrite Pr, P, <- !app_assoc. apply Permutation_app_head.
    rewrite Permutation_app_swap_app. reflexivity.
  - intros x Hx. rewrite in_app_iff in Hx. destruct Hx as [Hx|Hx].
    + exists s, (concat sels). split; [reflexivity|]. split.
      * rewrite Hl. apply Permutation_length in Pr. rewrite app_length in Pr.
        destruct rest; [contradiction|simpl in Pr; lia].
      * intros y Hy. exact (R y x Hy Hx).
    + destruct (H x Hx) as (s' & oth & Q & Ql & Qh). exists s', (s ++ oth).
      split; [|split; assumption]. rewrite Q. apply Permutation_app_swap_app.
  - rewrite !app_length. apply Permutation_length in Pr. rewrite app_length in Pr. lia.
Qed.

Lemma merge_sel_final parts sels sel k all :
  Forall2 (fun p s => is_sel p s k) parts sels -> Permutation all (concat parts) ->
  (k <= length all)%nat -> is_sel (concat sels) sel k -> is_sel all sel k.
Proof.
  intros F Pa Hk [(rest & P & R) Hl]. destruct (merge_sel _ _ _ F) as (rests & Q & H & Hc).
  assert (Hk' : (k <= length (concat sels))%nat) by (rewrite <- (Permutation_length Pa) in Hc; lia).
  constructor; [|lia]. exists (rest ++ rests). split.
  - rewrite Pa, Q, P, app_assoc. reflexivity.
  - intros x y Hx Hy. rewrite in_app_iff in Hy. destruct Hy as [Hy|Hy]; [exact (R x y Hx Hy)|].
    destruct (H y Hy) as (s & oth & Ps & Ls & Hs).
    unfold leD. destruct (ltb (snd y) (snd x)) eqn:E; [|reflexivity]. exfalso.
    assert (B1 : (k <= below (snd x) (concat sels))%nat).
    { rewrite (below_perm _ _ _ Ps), below_app, (below_all _ s); [lia|].
      intros z Hz. exact (le_lt_lt _ _ _ (Hs z Hz) E). }
    rewrite (below_perm _ _ _ P), below_app in B1.
    rewrite (below_zero _ rest) in B1 by (intros z Hz; exact (R x z Hx Hz)).
    pose proof (below_lt (snd x) sel x Hx (le_refl _)). lia.
Qed.

(** ** The loops that compute distances *)
Definition dget (i : Z) : D :=
  match nth_error items (Z.to_nat i) with Some x => dist x | None => inf end.
Definition entries (rs re : Z) : list (Z * D) := map (fun i => (i, dget i)) (seqZ rs re).

Lemma entries_length rs re : rs <= re -> Z.of_nat (length (entries rs re)) = re - rs.
Proof. intros H. unfold entries. rewrite map_length, seqZ_length. lia. Qed.

Lemma item_at i : 0 <= i < Z.of_nat (length items) ->
  exists x, nth_error items (Z.to_nat i) = Some x /\ dget i = dist x.
Proof.
  intros H. unfold dget. destruct (nth_error items (Z.to_nat i)) eqn:E; [eauto|].
  apply nth_error_None in E. lia.
Qed.

Lemma store_ok rs v i : 0 <= i < Z.of_nat (length items) -> rs <= i -> i - rs < Z.of_nat (length v) ->
  store_entry items dist rs v i = Ok (upd v (Z.to_nat (i - rs)) (i, dget i)).
Proof.
  intros H1 H2 H3. destruct (item_at i H1) as (x & E1 & E2).
  unfold store_entry, raw_get, raw_set. rewrite E1. simpl.
  rewrite set_nth_upd by lia. now rewrite E2.
Qed.

(** Writing every slot, in any order. *)
Lemma store_all rs re : 0 <= rs -> re <= Z.of_nat (length items) ->
  forall l v, (forall i, In i l -> rs <= i < re) -> Z.of_nat (length v) = re - rs ->
  exists v', mfold (store_entry items dist rs) v l = Ok v' /\ length v' = length v /\
    forall i, rs <= i < re -> nth_error v' (Z.to_nat (i - rs)) =
      if in_dec Z.eq_dec i l then Some (i, dget i) else nth_error v (Z.to_nat (i - rs)).
Proof.
  intros H0 Hre l. induction l as [|j l IH]; intros v Hl Hv; cbn [mfold].
  { exists v. repeat split. }
  assert (Hj : rs <= j < re) by (apply Hl; simpl; auto).
  rewrite store_ok by lia. cbn [bind].
  destruct (IH (upd v (Z.to_nat (j - rs)) (j, dget j))) as (v' & E1 & E2 & E3).
  { intros i Hi. apply Hl. simpl; auto. }
  { rewrite upd_length. exact Hv. }
  exists v'. split; [exact E1|]. rewrite upd_length in E2. split; [exact E2|].
  intros i Hi. rewrite E3 by exact Hi.
  destruct (in_dec Z.eq_dec i l) as [I|I], (in_dec Z.eq_dec i (j :: l)) as [I'|I'];
    simpl in I'; try tauto.
  - destruct I' as [->|]; [|contradiction]. rewrite nth_error_upd_same by lia. reflexivity.
  - rewrite nth_error_upd_other; [reflexivity|]. intros E. apply I'. left. lia.
Qed.

Lemma store_all_entries rs re l : 0 <= rs -> rs <= re -> re <= Z.of_nat (length items) ->
  (forall i, In i l <-> rs <= i < re) ->
  mfold (store_entry items dist rs) (repeat (-1, inf) (Z.to_nat (re - rs))) l = Ok (entries rs re).
Proof.
  intros H0 H1 H2 Hl.
  destruct (store_all rs re H0 H2 l (repeat (-1, inf) (Z.to_nat (re - rs)))) as (v & E1 & E2 & E3).
  { intros i. apply Hl. }
  { rewrite repeat_length. lia. }
  rewrite E1. f_equal. apply nth_error_ext. intros i. rewrite repeat_length in E2.
  destruct (lt_dec i (Z.to_nat (re - rs))) as [Hi|Hi].
  - specialize (E3 (rs + Z.of_nat i) ltac:(lia)).
    replace (Z.to_nat (rs + Z.of_nat i - rs)) with i in E3 by lia. rewrite E3.
    destruct (in_dec _ _ _) as [I|I]; [|exfalso; apply I, Hl; lia].
    unfold entries. symmetry. apply map_nth_error with (f := fun i => (i, dget i)).
    clear - Hi. unfold seqZ. remember (Z.to_nat (re - rs)) as n eqn:En. clear En. revert rs i Hi.
    induction n as [|n IH]; intros rs i Hi; [lia|]. simpl. destruct i as [|i]; simpl.
    + f_equal. lia.
    + rewrite IH by lia. f_equal. lia.
  - rewrite (proj2 (nth_error_None v i)) by (rewrite E2; lia).
    symmetry. apply nth_error_None. change (length (entries rs re) <= i)%nat.
    pose proof (entries_length rs re H1). lia.
Qed.

(** ** The serial query *)
Notation Serial := (GetKNearestNeighborsInRangeSerial inf items dist psort).

Lemma serial_sel rs re K : 0 <= rs -> rs <= re -> re <= Z.of_nat (length items) -> 0 <= K ->
  exists sel, Serial rs re K = Ok sel /\ is_sel (entries rs re) sel (Z.to_nat K) /\
    (K < re - rs -> StronglySorted ele sel) /\ (re - rs <= K -> 0 < K -> sel = entries rs re).
Proof.
  intros H0 H1 H2 HK. unfold GetKNearestNeighborsInRangeSerial.
  destruct (Z.ltb_spec re rs); [lia|]. destruct (Z.ltb_spec (Z.of_nat (length items)) re); [lia|].
  destruct (Z.ltb_spec K 0); [lia|]. pose proof (entries_length rs re H1) as EL.
  destruct (Z.eqb_spec K 0) as [E|E]; [|destruct (Z.eqb_spec (re - rs) 0) as [E'|E']]; simpl orb; cbv iota.
  - exists []. split; [reflexivity|]. split.
    + constructor; [|simpl; lia]. exists (entries rs re). split; [reflexivity|]. intros ? ? [].
    + split; [constructor|lia].
  - exists []. split; [reflexivity|]. unfold entries. rewrite seqZ_nil by lia. split.
    + apply is_sel_full. simpl. lia.
    + split; [constructor|reflexivity].
  - unfold default_entry. rewrite store_all_entries by (try assumption; intros i; apply seqZ_in).
    destruct (Z.leb_spec (re - rs) K).
    + exists (entries rs re). split; [reflexivity|]. split; [apply is_sel_full; lia|]. split; [lia|reflexivity].
    + cbn [bind]. unfold partial_sort. destruct (Z.ltb_spec (Z.of_nat (length (entries rs re))) K); [lia|].
      cbn [bind]. unfold resize_down.
      destruct (psort_sel (entries rs re) (Z.to_nat K) ltac:(lia)) as [I S].
      eexists. split; [reflexivity|]. split; [exact I|]. split; [auto|lia].
Qed.

Lemma sel_nearest rs re K sel : 0 <= rs -> rs <= re -> re <= Z.of_nat (length items) -> 0 <= K ->
  is_sel (entries rs re) sel (Z.to_nat K) -> (K < re - rs -> StronglySorted ele sel) ->
  k_nearest ltb items dist rs re K sel.
Proof.
  intros H0 H1 H2 HK [(rest & P & R) Hl] HS. pose proof (entries_length rs re H1) as EL.
  assert (Hin : forall i d, In (i, d) (entries rs re) <-> rs <= i < re /\ d = dget i).
  { intros i d. unfold entries. rewrite in_map_iff. split.
    - intros (j & E & Hj). injection E as -> <-. rewrite seqZ_in in Hj. auto.
    - intros [Hi ->]. exists i. rewrite seqZ_in. auto. }
  assert (ND : NoDup (map fst (sel ++ rest))).
  { eapply Permutation_NoDup; [apply Permutation_map, P|]. unfold entries. rewrite map_map. simpl.
    rewrite map_id. apply seqZ_nodup. }
  constructor.
  - lia.
  - rewrite map_app in ND. clear - ND. induction (map fst sel) as [|a l IH]; [constructor|].
    simpl in ND. inversion ND; subst. constructor; [|auto].
    intros C. apply H1. rewrite in_app_iff. auto.
  - intros i d Hi.
    assert (I : In (i, d) (entries rs re)) by (rewrite P, in_app_iff; auto).
    apply Hin in I. destruct I as [I ->]. split; [exact I|]. apply item_at. lia.
  - intros i x Hi Hx Hn j d Hj.
    assert (I : In (i, dist x) (entries rs re)).
    { apply Hin. split; [exact Hi|]. unfold dget. rewrite Hx. reflexivity. }
    rewrite P, in_app_iff in I. destruct I as [I|I].
    + exfalso. apply Hn. apply in_map_iff. exists (i, dist x). auto.
    + exact (R _ _ Hj I).
  - exact HS.
Qed.

Lemma serial_nearest rs re K : 0 <= rs -> rs <= re -> re <= Z.of_nat (length items) -> 0 <= K ->
  exists sel, Serial rs re K = Ok sel /\ k_nearest ltb items dist rs re K sel.
Proof.
  intros H0 H1 H2 HK. destruct (serial_sel rs re K H0 H1 H2 HK) as (sel & E & I & S & _).
  exists sel. split; [exact E|]. now apply sel_nearest.
Qed.

Lemma serial_rejects rs re K : re < rs \/ Z.of_nat (length items) < re \/ K < 0 ->
  Serial rs re K = Throw InvalidArgument.
Proof.
  intros H. unfold GetKNearestNeighborsInRangeSerial.
  destruct (Z.ltb_spec re rs); [reflexivity|].
  destruct (Z.ltb_spec (Z.of_nat (length items)) re); [reflexivity|].
  destruct (Z.ltb_spec K 0); [reflexivity|lia].
Qed.

(** ** The parallel query *)
Lemma calls_threads tr : map fst (calls tr) = thread_numbers tr.
Proof.
  induction tr as [|[t lo hi|t lo hi o] tr IH]; simpl; [reflexivity| |exact IH]. now rewrite IH.
Qed.

(** Each thread slot holds the selection of its only call. *)
Lemma per_thread_gen N K : forall cs v,
  NoDup (map fst cs) -> (forall c, In c cs -> 0 <= fst c < N) ->
  (forall c, In c cs -> 0 <= fst (snd c) /\ fst (snd c) <= snd (snd c) <= Z.of_nat (length items)) -> 0 <= K ->
  Z.of_nat (length v) = N -> (forall c, In c cs -> nth_error v (Z.to_nat (fst c)) = Some []) ->
  exists v' sels, mfold (fun v c =>
           do nearests <- Serial (fst (snd c)) (snd (snd c)) K;
           raw_set v (Z.to_nat (fst c)) nearests) v cs = Ok v' /\
    Forall2 (fun p s => is_sel p s (Z.to_nat K)) (map (fun c => entries (fst (snd c)) (snd (snd c))) cs) sels /\
    Permutation (concat v') (concat sels ++ concat v).
Proof.
  induction cs as [|[t [lo hi]] cs IH]; intros v ND Ht Hr HK Hv Hs.
  { exists v, []. split; [reflexivity|]. split; [constructor|]. reflexivity. }
  cbn [mfold fst snd].
  destruct (Hr (t, (lo, hi)) ltac:(simpl; auto)) as (R1 & R2 & R3). simpl in R1, R2, R3.
  destruct (serial_sel lo hi K R1 R2 R3 HK) as (s & E & I & _). rewrite E. cbn [bind].
  assert (Htn : 0 <= t < N) by (apply (Ht (t, (lo, hi))); simpl; auto).
  unfold raw_set at 1. rewrite set_nth_upd by lia. cbn [bind].
  inversion ND as [|? ? ND1 ND2]; subst. simpl in ND1.
  destruct (IH (upd v (Z.to_nat t) s)) as (v' & sels & E1 & E2 & E3); auto.
  - intros c Hc. apply Ht. simpl; auto.
  - intros c Hc. apply Hr. simpl; auto.
  - rewrite upd_length. reflexivity.
  - intros c Hc. rewrite nth_error_upd_other.
    + apply Hs. simpl; auto.
    + intros C. apply ND1. apply in_map_iff. exists c. split; [|exact Hc].
      assert (0 <= fst c < Z.of_nat (length v)) by (apply Ht; simpl; auto). lia.
  - exists v', (s :: sels). split; [exact E1|]. split; [constructor; [exact I|exact E2]|].
    rewrite E3. simpl. rewrite <- app_assoc.
    transitivity (concat sels ++ s ++ concat v); [|apply Permutation_app_swap_app].
    apply Permutation_app_head.
    specialize (Hs (t, (lo, hi)) ltac:(simpl; auto)). simpl in Hs.
    destruct (nth_error_split _ _ Hs) as (l1 & l2 & -> & Hl). rewrite <- Hl.
    clear. rewrite <- (Nat.add_0_r (length l1)), upd_app_r, !concat_app. simpl.
    apply Permutation_app_swap_app.
Qed.

Lemma concat_repeat_nil (n : nat) : concat (repeat (@nil (Z * D)) n) = [].
Proof. induction n; simpl; auto. Qed.

Lemma nothrow_thrown tr :
  Forall (fun ev => match ev with EvEnd _ _ _ (Some _) => False | _ => True end) tr -> thrown tr = [].
Proof.
  induction 1 as [|[t lo hi|t lo hi [e|]] tr H F IH]; simpl; auto. contradiction.
Qed.

Lemma parallel_ok sp ob team n rs re K tr r :
  0 <= rs -> re <= Z.of_nat (length items) -> 0 <= K ->
  valid_call n rs re team ->
  parallel_execution sp ob team n rs re K tr r ->
  re - rs <= K \/ NoDup (thread_numbers tr) ->
  exists p s, parallel_result inf items dist psort n rs re K tr r = Ok p /\
    Serial rs re K = Ok s /\
    k_nearest ltb items dist rs re K p /\
    Forall2 (fun a b => sameD ltb (snd a) (snd b)) p s.
Proof.
  intros H0 H2 HK V [R NT] Hc. pose proof (nothrow_thrown tr NT) as T.
  assert (H1 : rs <= re) by (destruct V as (_ & _ & ? & _); assumption).
  destruct (serial_sel rs re K H0 H1 H2 HK) as (s & Es & Is & Ss & Sf).
  assert (LB : loop_body (if re - rs <=? K then index_body else range_body)).
  { unfold loop_body. destruct (_ <=? _); auto. }
  assert (Er : r = Ok tt).
  { destruct (static_visits _ LB _ _ _ _ _ _ _ _ _ V R) as [(E & _)|(e & _ & I & _)]; [exact E|].
    rewrite T in I. contradiction. }
  subst r. unfold parallel_result.
  destruct (Z.ltb_spec re rs); [lia|]. destruct (Z.ltb_spec (Z.of_nat (length items)) re); [lia|].
  destruct (Z.ltb_spec K 0); [lia|]. pose proof (entries_length rs re H1) as EL.
  assert (Hsame : forall l : list (Z * D), Forall2 (fun a b => sameD ltb (snd a) (snd b)) l l).
  { induction l; constructor; [split; apply le_refl|assumption]. }
  destruct ((K =? 0) || (re - rs =? 0)) eqn:EZ.
  { exists [], s. split; [reflexivity|]. split; [exact Es|].
    assert (s = []).
    { unfold GetKNearestNeighborsInRangeSerial in Es. rewrite EZ in Es.
      destruct (Z.ltb_spec re rs); [lia|]. destruct (Z.ltb_spec (Z.of_nat (length items)) re); [lia|].
      destruct (Z.ltb_spec K 0); [lia|]. congruence. }
    subst s. split; [|constructor]. now apply sel_nearest. }
  apply orb_false_iff in EZ. destruct EZ as [EZ1 EZ2].
  apply Z.eqb_neq in EZ1. apply Z.eqb_neq in EZ2.
  unfold after_loop. cbn [bind]. change (loop_calls tr) with (calls tr).
  destruct (Z.leb_spec (re - rs) K) as [HL|HL].
  - unfold per_item_results, default_entry.
    pose proof (static_index_calls _ _ _ _ _ _ _ _ V R) as P.
    assert (E : mfold (fun v (c : Z * (Z * Z)) => store_entry items dist rs v (fst (snd c)))
        (repeat (-1, inf) (Z.to_nat (re - rs))) (calls tr) =
      mfold (store_entry items dist rs) (repeat (-1, inf) (Z.to_nat (re - rs)))
        (map (fun c => fst (snd c)) (calls tr))).
    { clear P. generalize (repeat ((-1, inf) : Z * D) (Z.to_nat (re - rs))).
      induction (calls tr) as [|c cs IH]; intros v; simpl; [reflexivity|].
      destruct (store_entry _ _ _ _ _); simpl; auto. }
    rewrite E, store_all_entries; auto.
    + exists (entries rs re), s. rewrite <- (Sf HL ltac:(lia)).
      split; [reflexivity|]. split; [exact Es|]. split; [|apply Hsame]. now apply sel_nearest.
    + intros i. rewrite <- seqZ_in.
      assert (Pi : Permutation (map (fun c => fst (snd c)) (calls tr)) (seqZ rs re)).
      { rewrite <- (map_map snd fst), P, map_map. simpl. rewrite map_id. reflexivity. }
      split; apply Permutation_in; [exact Pi|symmetry; exact Pi].
  - destruct Hc as [Hc|Hc]; [lia|]. unfold per_thread_results.
    pose proof (static_range_calls _ _ _ _ _ _ _ _ V R) as P.
    assert (Hn : 1 <= n) by (destruct V as (? & _); now apply degree_ok).
    set (m := static_real n rs re) in *.
    assert (Hm : 1 <= m).
    { unfold m, static_real. destruct (Z.eqb_spec (re - rs) 0); [lia|]. destruct (_ || _); lia. }
    assert (Hr : forall c, In c (calls tr) ->
      0 <= fst (snd c) /\ fst (snd c) <= snd (snd c) <= Z.of_nat (length items)).
    { intros c Hi. assert (I : In (snd c) (map snd (calls tr))) by (apply in_map; exact Hi).
      rewrite P in I. apply in_map_iff in I. destruct I as (k & E & Hk). rewrite seqZ_in in Hk.
      rewrite <- E. unfold share. simpl.
      pose proof (share_mono rs re m 0 k Hm H1 ltac:(lia)) as A1. rewrite share_start_0 in A1 by lia.
      pose proof (share_mono rs re m k (k + 1) Hm H1 ltac:(lia)).
      pose proof (share_mono rs re m (k + 1) m Hm H1 ltac:(lia)) as A2. rewrite share_start_n in A2 by lia.
      lia. }
    destruct (static_always range_body (or_introl eq_refl) _ _ _ _ _ _ _ _ _ V R) as (_ & Ht & _).
    destruct (per_thread_gen n K (calls tr) (repeat [] (Z.to_nat n))) as (v & sels & E1 & E2 & E3); auto.
    + rewrite calls_threads. exact Hc.
    + intros c Hi. rewrite Forall_forall in Ht. apply Ht. rewrite <- calls_threads. now apply in_map.
    + rewrite repeat_length. lia.
    + intros c Hi. rewrite Forall_forall in Ht. assert (0 <= fst c < n).
      { apply Ht. rewrite <- calls_threads. now apply in_map. }
      apply nth_error_repeat. lia.
    + rewrite E1. cbn [bind]. rewrite concat_repeat_nil, app_nil_r in E3.
      assert (Pa : Permutation (entries rs re) (concat (map (fun c => entries (fst (snd c)) (snd (snd c))) (calls tr)))).
      { rewrite <- (map_map snd (fun r => entries (fst r) (snd r))).
        rewrite <- flat_map_concat_map. symmetry. rewrite (Permutation_flat_map _ P).
        unfold entries. rewrite flat_map_concat_map, map_map. unfold share. simpl.
        rewrite <- (map_map (fun k => seqZ (share_start rs re m k) (share_start rs re m (k + 1)))
                            (map (fun i => (i, dget i)))).
        rewrite <- concat_map. apply Permutation_map.
        rewrite <- flat_map_concat_map, flat_map_chain, share_start_0, share_start_n; try lia; [reflexivity|].
        intros k Hk. apply share_mono; lia. }
      assert (Hlen : (Z.to_nat K <= length (concat v))%nat).
      { destruct (merge_sel _ _ _ E2) as (rests & Q & _ & Hc').
        rewrite (Permutation_length E3). rewrite <- (Permutation_length Pa) in Hc'. lia. }
      unfold partial_sort. destruct (Z.ltb_spec (Z.of_nat (length (concat v))) K); [lia|].
      cbn [bind]. unfold resize_down.
      destruct (psort_sel (concat v) (Z.to_nat K) Hlen) as [Ip Sp].
      assert (If : is_sel (entries rs re) (firstn (Z.to_nat K) (psort (Z.to_nat K) (concat v))) (Z.to_nat K)).
      { apply (merge_sel_final _ _ _ _ _ E2 Pa); [lia|].
        destruct Ip as [(rest & P1 & R1) Hl]. constructor.
        - exists rest. split; [rewrite <- E3; exact P1|exact R1].
        - rewrite Hl, (Permutation_length E3). reflexivity. }
      eexists. exists s. split; [reflexivity|]. split; [exact Es|]. split.
      * now apply sel_nearest.
      * apply (sorted_sel_unique (entries rs re) (entries rs re) _ _ (Z.to_nat K)); auto.
Qed.

Lemma parallel_async_distinct sp team n rs re K tr :
  valid_call n rs re team -> K < re - rs ->
  parallel_execution sp false team n rs re K tr (Ok tt) -> NoDup (thread_numbers tr).
Proof.
  intros V HK [R NT]. destruct (Z.leb_spec (re - rs) K); [lia|].
  rewrite <- calls_threads.
  pose proof (static_range_calls_async sp false team n rs re BEST_AVAILABLE tr V eq_refl R) as P.
  eapply Permutation_NoDup; [symmetry; apply Permutation_map, P|].
  rewrite map_map. simpl. rewrite map_id. apply seqZ_nodup.
Qed.

Lemma parallel_async_ok sp team n rs re K tr r :
  0 <= rs -> re <= Z.of_nat (length items) -> 0 <= K ->
  valid_call n rs re team ->
  parallel_execution sp false team n rs re K tr r ->
  exists p s, parallel_result inf items dist psort n rs re K tr r = Ok p /\
    Serial rs re K = Ok s /\
    k_nearest ltb items dist rs re K p /\
    Forall2 (fun a b => sameD ltb (snd a) (snd b)) p s.
Proof.
  intros H0 H2 HK V X. apply (parallel_ok sp false team); auto.
  destruct (Z_le_gt_dec (re - rs) K) as [|G]; [auto|right].
  assert (r = Ok tt) as ->.
  { destruct X as [R NT]. destruct (Z.leb_spec (re - rs) K); [lia|].
    destruct (static_visits range_body (or_introl eq_refl) _ _ _ _ _ _ _ _ _ V R) as [(E & _)|(e & _ & I & _)]; [exact E|].
    rewrite (nothrow_thrown tr NT) in I. contradiction. }
  apply (parallel_async_distinct sp team n rs re K tr V ltac:(lia) X).
Qed.

Lemma parallel_rejects n rs re K tr r : re < rs \/ Z.of_nat (length items) < re \/ K < 0 ->
  parallel_result inf items dist psort n rs re K tr r = Throw InvalidArgument.
Proof.
  intros H. unfold parallel_result.
  destruct (Z.ltb_spec re rs); [reflexivity|].
  destruct (Z.ltb_spec (Z.of_nat (length items)) re); [reflexivity|].
  destruct (Z.ltb_spec K 0); [reflexivity|lia].
Qed.
End K.

(** ** A concrete instance *)
Fixpoint insert (x : Z * Z) (l : list (Z * Z)) : list (Z * Z) :=
  match l with
  | [] => [x]
  | y :: r => if snd x <=? snd y then x :: l else y :: insert x r
  end.
Definition isort (l : list (Z * Z)) : list (Z * Z) := fold_right insert [] l.
Definition full_sort (_ : nat) (l : list (Z * Z)) : list (Z * Z) := isort l.

Lemma insert_perm x l : Permutation (insert x l) (x :: l).
Proof.
  induction l as [|y l IH]; simpl; [reflexivity|]. destruct (_ <=? _); [reflexivity|].
  rewrite IH. constructor.
Qed.
Lemma isort_perm l : Permutation (isort l) l.
Proof. induction l as [|x l IH]; simpl; [reflexivity|]. rewrite insert_perm. now constructor. Qed.
Lemma insert_sorted x l : StronglySorted (fun a b => snd a <= snd b) l ->
  StronglySorted (fun a b => snd a <= snd b) (insert x l).
Proof.
  induction 1 as [|y l S IH F]; simpl; [repeat constructor|].
  destruct (Z.leb_spec (snd x) (snd y)).
  - constructor; [constructor; assumption|]. constructor; [assumption|].
    eapply Forall_impl; [|exact F]. simpl. intros; lia.
  - constructor; [exact IH|]. rewrite (Forall_forall). intros z Hz.
    rewrite insert_perm in Hz. destruct Hz as [<- | Hz]; [lia|].
    rewrite Forall_forall in F. auto.
Qed.
Lemma isort_sorted l : StronglySorted (fun a b => snd a <= snd b) (isort l).
Proof. induction l; simpl; [constructor|]. now apply insert_sorted. Qed.

Lemma Z_order : order_laws Z.ltb.
Proof. constructor; intros; lia. Qed.

Lemma sorted_split {A} (R : A -> A -> Prop) a b : StronglySorted R (a ++ b) ->
  StronglySorted R a /\ forall x y, In x a -> In y b -> R x y.
Proof.
  induction a as [|z a IH]; simpl; intros S; [split; [constructor|contradiction]|].
  inversion S as [|? ? S' F]; subst. destruct (IH S') as [S1 S2]. rewrite Forall_app in F.
  destruct F as [F1 F2]. split.
  - constructor; assumption.
  - intros x y [<- | Hx] Hy; [|auto]. rewrite Forall_forall in F2. auto.
Qed.

Lemma full_sort_contract : partial_sort_contract Z.ltb full_sort.
Proof.
  intros k l Hk. unfold full_sort. split; [apply isort_perm|].
  pose proof (isort_sorted l) as S. rewrite <- (firstn_skipn k (isort l)) in S.
  apply sorted_split in S. destruct S as [S R]. split.
  - clear - S. induction S as [|x l' S IH F]; constructor; auto.
    eapply Forall_impl; [|exact F]. unfold leD. simpl. intros. lia.
  - intros x y Hx Hy. specialize (R x y Hx Hy). unfold leD. lia.
Qed.

(** OpenMP requested with two threads, granted one: it runs both shares. *)
Definition one_thread_trace : list event :=
  [EvBegin 0 0 2; EvEnd 0 0 2 None; EvBegin 0 2 4; EvEnd 0 2 4 None].

Lemma one_thread_run sp :
  run range_body sp (StaticParallelForLoop range_body true 1 2 0 4 BEST_AVAILABLE)
      one_thread_trace (SFinal (Ok tt)).
Proof.
  set (mk := fun k t => start_share range_body 0 4 2 k t).
  change (StaticParallelForLoop range_body true 1 2 0 4 BEST_AVAILABLE)
    with (SOmp mk [0; 1] [(0, None)] None).
  change one_thread_trace with
    ((((((((([] ++ []) ++ [EvBegin 0 0 2]) ++ [EvEnd 0 0 2 None]) ++ []) ++ []) ++
       [EvBegin 0 2 4]) ++ [EvEnd 0 2 4 None]) ++ []) ++ []).
  eapply run_step. 2: exact (step_omp_return range_body sp mk [(0, None)] None (Forall_cons (0, None) eq_refl (Forall_nil _))).
  eapply run_step. 2: exact (step_omp_iteration_done range_body sp mk [] [] 0 (mkWorker 0 [] Idle) [] None eq_refl).
  eapply run_step. 2: exact (step_omp_work range_body sp mk [] [] 0 _ _ _ [] None (wstep_return 0 2 4 [])).
  eapply run_step. 2: exact (step_omp_work range_body sp mk [] [] 0 _ _ _ [] None (wstep_begin 0 2 4 [])).
  eapply run_step. 2: exact (step_omp_take range_body sp mk [] 1 [] [] 0 [] None).
  eapply run_step. 2: exact (step_omp_iteration_done range_body sp mk [1] [] 0 (mkWorker 0 [] Idle) [] None eq_refl).
  eapply run_step. 2: exact (step_omp_work range_body sp mk [1] [] 0 _ _ _ [] None (wstep_return 0 0 2 [])).
  eapply run_step. 2: exact (step_omp_work range_body sp mk [1] [] 0 _ _ _ [] None (wstep_begin 0 0 2 [])).
  eapply run_step. 2: exact (step_omp_take range_body sp mk [] 0 [1] [] 0 [] None).
  apply run_start.
Qed.

Lemma one_thread_nothrow :
  Forall (fun ev => match ev with EvEnd _ _ _ (Some _) => False | _ => True end) one_thread_trace.
Proof. repeat constructor. Qed.

Lemma valid_2_4 : valid_call 2 0 4 1.
Proof. unfold valid_call, int64_min, int64_max. repeat split; try lia; reflexivity. Qed.

Lemma parallel_wrong_answer :
  exists items : list Z,
    parallel_execution false true 1 2 0 4 1 one_thread_trace (Ok tt) /\
    parallel_result 99 items (fun d => d) full_sort 2 0 4 1 one_thread_trace (Ok tt) = Ok [(2, 8)] /\
    GetKNearestNeighborsInRangeSerial 99 items (fun d => d) full_sort 0 4 1 = Ok [(0, 1)].
Proof.
  exists [1; 5; 8; 9]. split; [split; [apply one_thread_run|apply one_thread_nothrow]|].
  split; reflexivity.
Qed.

Lemma parallel_undefined :
  exists items : list Z,
    parallel_execution false true 1 2 0 4 3 one_thread_trace (Ok tt) /\
    parallel_result 99 items (fun d => d) full_sort 2 0 4 3 one_thread_trace (Ok tt) = UB.
Proof.
  exists [1; 5; 8; 9]. split; [split; [apply one_thread_run|apply one_thread_nothrow]|reflexivity].
Qed.

Lemma serial_sample :
  GetKNearestNeighborsInRangeSerial 99 [7; 5; 8; 5; 9] (fun d => d) full_sort 1 5 3 = Ok [(1, 5); (3, 5); (2, 8)].
Proof. reflexivity. Qed.

(** Non-negative binary64 numbers (with infinity, without NaN) are ordered. *)
Lemma double_order : order_laws (SearchModel.cltb SearchDouble.double_cost).
Proof.
  pose proof SearchDouble.double_laws as H. constructor.
  - exact (SearchSpec.cl_refl _ H).
  - intros a b c E1 E2.
    destruct (SearchModel.cltb SearchDouble.double_cost a c) eqn:E; [reflexivity|].
    destruct (SearchSpec.cl_total _ H a b) as [T|T]; [|unfold SearchSpec.cle in T; congruence].
    pose proof (SearchSpec.cl_trans _ H c a b E T) as X. unfold SearchSpec.cle in X. congruence.
  - intros a b c E1 E2. exact (SearchSpec.cl_trans _ H c b a E2 E1).
Qed.

(** std::async with two threads, calls overlapping. *)
Definition two_thread_trace : list event :=
  [EvBegin 1 2 4; EvBegin 0 0 2; EvEnd 0 0 2 None; EvEnd 1 2 4 None].

Lemma two_thread_run sp :
  run range_body sp (StaticParallelForLoop range_body false 1 2 0 4 BEST_AVAILABLE)
      two_thread_trace (SFinal (Ok tt)).
Proof.
  set (mk := fun k => start_share range_body 0 4 2 k k).
  change (StaticParallelForLoop range_body false 1 2 0 4 BEST_AVAILABLE)
    with (SAsync mk 0 2 [] []).
  change two_thread_trace with
    ((((((((([] ++ []) ++ []) ++ [EvBegin 1 2 4]) ++ [EvBegin 0 0 2]) ++ [EvEnd 0 0 2 None]) ++
       [EvEnd 1 2 4 None]) ++ []) ++ []) ++ []).
  set (d0 := mkWorker 0 [] Idle). set (d1 := mkWorker 1 [] Idle).
  eapply run_step. 2: exact (step_async_return range_body sp mk 2 2 [d0; d1] ltac:(lia)).
  eapply run_step. 2: exact (step_async_get range_body sp mk 2 2 [d0] 1 [] ltac:(lia)).
  eapply run_step. 2: exact (step_async_get range_body sp mk 2 2 [] 0 [d1] ltac:(lia)).
  eapply run_step. 2: exact (step_async_work range_body sp mk 2 2 [] [d0] _ _ _ [] (wstep_return 1 2 4 [])).
  eapply run_step. 2: exact (step_async_work range_body sp mk 2 2 [] [] _ _ _ _ (wstep_return 0 0 2 [])).
  eapply run_step. 2: exact (step_async_work range_body sp mk 2 2 [] [] _ _ _ _ (wstep_begin 0 0 2 [])).
  eapply run_step. 2: exact (step_async_work range_body sp mk 2 2 [] [_] _ _ _ [] (wstep_begin 1 2 4 [])).
  eapply run_step. 2: exact (step_async_dispatch range_body sp mk 1 2 [mk 0] ltac:(lia)).
  eapply run_step. 2: exact (step_async_dispatch range_body sp mk 0 2 [] ltac:(lia)).
  apply run_start.
Qed.

Lemma two_thread_ok :
  valid_call 2 0 4 1 /\ parallel_execution false false 1 2 0 4 3 two_thread_trace (Ok tt) /\
  parallel_result 99 [7; 5; 8; 5] (fun d => d) full_sort 2 0 4 3 two_thread_trace (Ok tt)
    = Ok [(1, 5); (3, 5); (0, 7)].
Proof.
  split; [exact valid_2_4|]. split; [|reflexivity].
  split; [apply two_thread_run|repeat constructor].
Qed.
