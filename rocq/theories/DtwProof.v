From Verif Require Import Base Effect DtwModel DtwSpec.
Local Open Scope Z_scope.

Section Dtw.
Context {D A B : Type}.
Variables (ltb : D -> D -> bool) (add : D -> D -> D) (zero inf : D).
Notation matrix := (@matrix D).
Notation init := (@InitializeMatrix D zero inf).

(** The borders the algorithm relies on. *)
Definition bordered (m : matrix) : Prop :=
  m_data m 0 0 = zero /\
  (forall r, 1 <= r < m_rows m -> m_data m r 0 = inf) /\ (forall c, 1 <= c < m_cols m -> m_data m 0 c = inf).
(** An evaluator between calls: too small for any sequence, or with its borders. *)
Definition usable (m : matrix) : Prop := m_rows m <= 1 \/ m_cols m <= 1 \/ bordered m.
Definition large (n k : Z) (m : matrix) : Prop := n < m_rows m /\ k < m_cols m.

Lemma init_usable n k m : 0 <= n -> 0 <= k -> usable m -> usable (init n k m).
Proof.
  intros N K U. unfold InitializeMatrix. destruct (_ || _); [|exact U]. unfold usable, bordered. cbn.
  destruct (Z.eq_dec n 0); [left; lia|]. destruct (Z.eq_dec k 0); [right; left; lia|]. right. right.
  assert (E1 : (1 <? n + 1) = true) by lia. assert (E2 : (1 <? k + 1) = true) by lia. rewrite E1, E2. cbn.
  split; [reflexivity|]. split.
  - intros r R. assert (E3 : (1 <=? r) = true) by lia. rewrite E3. reflexivity.
  - intros c C. assert (E3 : (1 <=? c) = true) by lia. rewrite E3. reflexivity.
Qed.
Lemma init_ready n k m : 1 <= n -> 1 <= k -> usable m -> bordered (init n k m) /\ large n k (init n k m).
Proof.
  intros N K U. pose proof (init_usable n k m ltac:(lia) ltac:(lia) U) as V.
  assert (L : large n k (init n k m)).
  { unfold InitializeMatrix, large. destruct ((m_rows m <? n + 1) || (m_cols m <? k + 1)) eqn:E; cbn; lia. }
  split; [|exact L]. destruct L as [L1 L2]. destruct V as [V|[V|V]]; [lia|lia|exact V].
Qed.
Lemma make_usable n k : 0 <= n -> 0 <= k -> usable (MakeDTW zero inf n k).
Proof. intros N K. apply init_usable; [exact N|exact K|]. left. cbn. lia. Qed.

(** ** One cell *)
Variable dist : A -> B -> outcome D.
Notation cell := (dtw_cell ltb add dist).

Lemma m_get_in (m : matrix) n k r c : large n k m -> 0 <= r <= n -> 0 <= c <= k -> m_get m r c = Ok (m_data m r c).
Proof.
  intros [L1 L2] R C. unfold m_get, inside.
  rewrite (proj2 (Z.leb_le _ _)), (proj2 (Z.ltb_lt _ _)), (proj2 (Z.leb_le _ _)), (proj2 (Z.ltb_lt _ _)) by lia. reflexivity.
Qed.
Definition with_cell (m : matrix) (r c : Z) (x : D) : matrix :=
  mkMatrix (m_rows m) (m_cols m) (fun i j => if (i =? r) && (j =? c) then x else m_data m i j).
Lemma m_set_in (m : matrix) n k r c x : large n k m -> 0 <= r <= n -> 0 <= c <= k -> m_set m r c x = Ok (with_cell m r c x).
Proof.
  intros [L1 L2] R C. unfold m_set, inside.
  rewrite (proj2 (Z.leb_le _ _)), (proj2 (Z.ltb_lt _ _)), (proj2 (Z.leb_le _ _)), (proj2 (Z.ltb_lt _ _)) by lia. reflexivity.
Qed.
Lemma with_cell_same m r c x : m_data (with_cell m r c x) r c = x.
Proof. cbn. rewrite !Z.eqb_refl. reflexivity. Qed.
Lemma with_cell_other m r c x i j : i <> r \/ j <> c -> m_data (with_cell m r c x) i j = m_data m i j.
Proof. intros H. cbn. destruct (Z.eqb_spec i r), (Z.eqb_spec j c); cbn; try reflexivity. lia. Qed.
Lemma with_cell_large n k m r c x : large n k m -> large n k (with_cell m r c x).
Proof. intros H. exact H. Qed.
Lemma with_cell_bordered m r c x : 1 <= r -> 1 <= c -> bordered m -> bordered (with_cell m r c x).
Proof.
  intros R C (B0 & B1 & B2). split; [rewrite with_cell_other by lia; exact B0|]. split.
  - intros i I. rewrite with_cell_other by lia. apply B1. exact I.
  - intros j J. rewrite with_cell_other by lia. apply B2. exact J.
Qed.

Definition prev_cost (u d l : D) : D :=
  if ltb u d && ltb u l then u else if ltb l u && ltb l d then l else d.
Lemma cell_run n k i j a b m : large n k m -> 1 <= i <= n -> 1 <= j <= k ->
  cell i j a b m =
   match dist a b with
   | Ok c => (Ok tt, with_cell m i j (add c (prev_cost (m_data m (i - 1) j) (m_data m (i - 1) (j - 1)) (m_data m i (j - 1)))))
   | Throw e => (Throw e, m) | UB => (UB, m) | Diverge => (Diverge, m)
   end.
Proof.
  intros L I J. unfold dtw_cell, ebind, lift, get, put. destruct (dist a b); [|reflexivity|reflexivity|reflexivity].
  rewrite !(m_get_in m n k) by (auto; lia). rewrite (m_set_in m n k) by (auto; lia). reflexivity.
Qed.

(** ** Reuse (C62) *)
Definition sized (m1 m2 : matrix) (n k : Z) : Prop := bordered m1 /\ bordered m2 /\ large n k m1 /\ large n k m2.
Definition agree (n k i j : Z) (m1 m2 : matrix) : Prop :=
  sized m1 m2 n k /\
  forall r c, 1 <= r <= n -> 1 <= c <= k -> r < i \/ (r = i /\ c < j) -> m_data m1 r c = m_data m2 r c.
Lemma agree_all n k i j m1 m2 : agree n k i j m1 m2 ->
  forall r c, 0 <= r <= n -> 0 <= c <= k -> r < i \/ (r = i /\ c < j) -> m_data m1 r c = m_data m2 r c.
Proof.
  intros [((Z1 & R1 & C1) & (Z2 & R2 & C2) & [L1 L1'] & [L2 L2']) AG] r c R C H.
  destruct (Z.eq_dec r 0) as [->|NR].
  - destruct (Z.eq_dec c 0) as [->|NC]; [congruence|]. rewrite C1, C2 by lia. reflexivity.
  - destruct (Z.eq_dec c 0) as [->|NC]; [rewrite R1, R2 by lia; reflexivity|]. apply AG; lia.
Qed.

(** Both runs return the same and leave usable matrices. *)
Definition same_run {X} (n k i j : Z) (m : eff matrix X) : Prop :=
  forall m1 m2, agree n k i j m1 m2 ->
    fst (m m1) = fst (m m2) /\ sized (snd (m m1)) (snd (m m2)) n k.
Lemma cell_same n k i j a b : 1 <= i <= n -> 1 <= j <= k -> forall m1 m2, agree n k i j m1 m2 ->
    fst (cell i j a b m1) = fst (cell i j a b m2) /\ sized (snd (cell i j a b m1)) (snd (cell i j a b m2)) n k /\
    (fst (cell i j a b m1) = Ok tt -> agree n k i (j + 1) (snd (cell i j a b m1)) (snd (cell i j a b m2))).
Proof.
  intros I J m1 m2 AG. pose proof (agree_all _ _ _ _ _ _ AG) as AL. destruct AG as [Sz AG].
  destruct Sz as (B1 & B2 & L1 & L2).
  rewrite (cell_run n k i j a b m1 L1 I J), (cell_run n k i j a b m2 L2 I J).
  destruct (dist a b) as [c|e| |]; cbn [fst snd].
  - split; [reflexivity|].
    assert (SZ : forall x y, sized (with_cell m1 i j x) (with_cell m2 i j y) n k).
    { intros x y. split; [apply with_cell_bordered; [lia|lia|exact B1]|]. split; [apply with_cell_bordered; [lia|lia|exact B2]|]. split; assumption. }
    split; [apply SZ|]. intros _. split; [apply SZ|].
    rewrite (AL (i - 1) j), (AL (i - 1) (j - 1)), (AL i (j - 1)) by lia.
    intros r q R Q H. destruct (Z.eq_dec r i) as [->|NR]; [destruct (Z.eq_dec q j) as [->|NQ]|].
    + rewrite !with_cell_same. reflexivity.
    + rewrite !with_cell_other by lia. apply AG; lia.
    + rewrite !with_cell_other by lia. apply AG; lia.
  - split; [reflexivity|]. split; [exact (conj B1 (conj B2 (conj L1 L2)))|discriminate].
  - split; [reflexivity|]. split; [exact (conj B1 (conj B2 (conj L1 L2)))|discriminate].
  - split; [reflexivity|]. split; [exact (conj B1 (conj B2 (conj L1 L2)))|discriminate].
Qed.
Lemma row_same n k i a : 1 <= i <= n -> forall second j, 1 <= j -> j + Z.of_nat (length second) = k + 1 -> forall m1 m2, agree n k i j m1 m2 ->
  let f := dtw_row ltb add dist i j a second in
  fst (f m1) = fst (f m2) /\ sized (snd (f m1)) (snd (f m2)) n k /\
  (fst (f m1) = Ok tt -> agree n k (i + 1) 1 (snd (f m1)) (snd (f m2))).
Proof.
  intros I. induction second as [|b second IH]; intros j J K m1 m2 AG f; subst f; cbn [dtw_row].
  - cbn. split; [reflexivity|]. split; [exact (proj1 AG)|]. intros _. split; [exact (proj1 AG)|].
    intros r c R C H. cbn in K. apply (proj2 AG); lia.
  - cbn [length] in K. destruct (cell_same n k i j a b I ltac:(lia) m1 m2 AG) as (E & S & N). unfold ebind.
    destruct (cell i j a b m1) as [[[]|e| |] m1'], (cell i j a b m2) as [[[]|e'| |] m2']; cbn [fst snd] in *; try discriminate E.
    + apply IH; [lia|lia|]. apply N. reflexivity.
    + injection E as <-. split; [reflexivity|]. split; [exact S|discriminate].
    + split; [reflexivity|]. split; [exact S|discriminate].
    + split; [reflexivity|]. split; [exact S|discriminate].
Qed.
Lemma rows_same n k second : k = Z.of_nat (length second) -> forall first i, 1 <= i -> i + Z.of_nat (length first) = n + 1 ->
  forall m1 m2, agree n k i 1 m1 m2 ->
  let f := dtw_rows ltb add dist i first second in
  fst (f m1) = fst (f m2) /\ sized (snd (f m1)) (snd (f m2)) n k /\
  (fst (f m1) = Ok tt -> agree n k (n + 1) 1 (snd (f m1)) (snd (f m2))).
Proof.
  intros K. induction first as [|a first IH]; intros i I N m1 m2 AG f; subst f; cbn [dtw_rows].
  - cbn. split; [reflexivity|]. split; [exact (proj1 AG)|]. cbn in N. replace (n + 1) with i by lia. auto.
  - cbn [length] in N. destruct (row_same n k i a ltac:(lia) second 1 ltac:(lia) ltac:(lia) m1 m2 AG) as (E & S & NX).
    unfold ebind.
    destruct (dtw_row ltb add dist i 1 a second m1) as [[[]|e| |] m1'], (dtw_row ltb add dist i 1 a second m2) as [[[]|e'| |] m2'];
      cbn [fst snd] in *; try discriminate E.
    + apply IH; [lia|lia|]. apply NX. reflexivity.
    + injection E as <-. split; [reflexivity|]. split; [exact S|discriminate].
    + split; [reflexivity|]. split; [exact S|discriminate].
    + split; [reflexivity|]. split; [exact S|discriminate].
Qed.

Lemma evaluate_same first second m1 m2 : usable m1 -> usable m2 ->
  fst (EvaluateWarpingCost ltb add zero inf dist first second m1) = fst (EvaluateWarpingCost ltb add zero inf dist first second m2) /\
  usable (snd (EvaluateWarpingCost ltb add zero inf dist first second m1)).
Proof.
  intros U1 U2. unfold EvaluateWarpingCost.
  destruct (Nat.eqb_spec (length first) 0) as [E|E]; [split; [reflexivity|exact U1]|].
  destruct (Nat.eqb_spec (length second) 0) as [E'|E']; [split; [reflexivity|exact U1]|].
  set (n := Z.of_nat (length first)). set (k := Z.of_nat (length second)).
  destruct (init_ready n k m1 ltac:(unfold n; lia) ltac:(unfold k; lia) U1) as [B1 L1].
  destruct (init_ready n k m2 ltac:(unfold n; lia) ltac:(unfold k; lia) U2) as [B2 L2].
  unfold ebind, get, put, lift. cbn.
  assert (AG : agree n k 1 1 (init n k m1) (init n k m2)).
  { split; [exact (conj B1 (conj B2 (conj L1 L2)))|]. intros r c R C H. lia. }
  destruct (rows_same n k second eq_refl first 1 ltac:(lia) ltac:(unfold n; lia) _ _ AG) as (EE & Sz & N).
  destruct (dtw_rows ltb add dist 1 first second (init n k m1)) as [[[]|e| |] m1'],
           (dtw_rows ltb add dist 1 first second (init n k m2)) as [[[]|e'| |] m2']; cbn [fst snd] in *; try discriminate EE.
  - destruct Sz as (B1' & B2' & L1' & L2'). split; [|right; right; exact B1'].
    rewrite !(m_get_in _ n k) by (auto; unfold n, k; lia). f_equal.
    apply (agree_all n k (n + 1) 1); [apply N; reflexivity| | |]; unfold n, k; lia.
  - injection EE as <-. split; [reflexivity|]. right. right. exact (proj1 Sz).
  - split; [reflexivity|]. right. right. exact (proj1 Sz).
  - split; [reflexivity|]. right. right. exact (proj1 Sz).
Qed.
End Dtw.

(** Reuse after any history of evaluations with any distance functions. *)
Section Reuse.
Context {D A B : Type}.
Variables (ltb : D -> D -> bool) (add : D -> D -> D) (zero inf : D).
Notation after_history := (@after_history D A B ltb add zero inf).
Lemma history_usable h : forall m, usable zero inf m -> usable zero inf (after_history h m).
Proof.
  induction h as [|[[d f] s] h IH]; intros m U; cbn [DtwSpec.after_history]; [exact U|]. apply IH.
  exact (proj2 (evaluate_same ltb add zero inf d f s m m U U)).
Qed.
Lemma reuse n k h (dist : A -> B -> outcome D) first second : 0 <= n -> 0 <= k ->
  fst (EvaluateWarpingCost ltb add zero inf dist first second (after_history h (MakeDTW zero inf n k))) =
  FreshWarpingCost ltb add zero inf dist first second.
Proof.
  intros N K. unfold FreshWarpingCost.
  apply (evaluate_same ltb add zero inf dist first second); [apply history_usable, make_usable|apply make_usable]; lia.
Qed.
End Reuse.
