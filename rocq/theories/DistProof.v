From Coq Require Import Reals.
From Flocq Require Import Core BinarySingleNaN.
From Verif Require Import Base Double SearchDouble ParallelismModel ParallelismSpec ParallelismProof ParallelismProof2 ParallelismCalls KnnModel KnnSpec KnnProof DistModel DistSpec.
From Coq Require Import Permutation.
Local Open Scope Z_scope.
Notation size l := (Z.of_nat (length l)).

(** Executions of the index loop. *)
Lemma loop_calls_calls tr : loop_calls tr = calls tr.
Proof. reflexivity. Qed.

Lemma index_execution_calls sp ob team n k tr r :
  valid_call n 0 k team -> index_loop_execution sp ob team n k tr r ->
  r = Ok tt /\ Permutation (map (fun c => fst (snd c)) (loop_calls tr)) (seqZ 0 k) /\
  Forall (fun c => 0 <= fst c < n) (loop_calls tr).
Proof.
  intros V [R NT]. pose proof (nothrow_thrown tr NT) as T.
  assert (LB : loop_body index_body) by (right; reflexivity).
  assert (Er : r = Ok tt).
  { destruct (static_visits _ LB _ _ _ _ _ _ _ _ _ V R) as [(E & _)|(e & _ & I & _)]; [exact E|].
    rewrite T in I. contradiction. }
  subst r. split; [reflexivity|]. rewrite loop_calls_calls. split.
  - pose proof (static_index_calls _ _ _ _ _ _ _ _ V R) as P. apply (Permutation_map fst) in P.
    rewrite !map_map in P. rewrite P. cbn [fst]. rewrite map_id. reflexivity.
  - destruct (static_always _ LB _ _ _ _ _ _ _ _ _ V R) as (_ & TN & _).
    rewrite <- calls_threads in TN. rewrite Forall_map in TN. exact TN.
Qed.

Section H.
Context {D A B : Type}.
Variable ltb : D -> D -> bool.
Variables zero inf : D.
Variable P : D -> Prop.
Hypothesis L : order_on ltb P.
Hypothesis P0 : P zero.
Hypothesis PI : P inf.
Notation le := (leD ltb).

Lemma le_refl_on a : P a -> le a a. Proof. apply (oo_irrefl _ _ L). Qed.
Lemma le_trans_on a b c : P a -> P b -> P c -> le a b -> le b c -> le a c.
Proof. apply (oo_weak _ _ L). Qed.
Lemma lt_le_on a b : P a -> P b -> ltb a b = true -> le a b.
Proof. intros Ha Hb H. destruct (oo_total _ _ L a b Ha Hb) as [X|X]; [exact X|]. unfold leD in X. congruence. Qed.

(** Running minimum. *)
Lemma minimum_spec (get : Z -> outcome D) (vals : Z -> D) : forall m0 js, P m0 ->
  (forall j, In j js -> get j = Ok (vals j) /\ P (vals j)) ->
  exists m, mfold (fun m j => do c <- get j; Ok (if ltb c m then c else m)) m0 js = Ok m /\ P m /\
    le m m0 /\ (forall j, In j js -> le m (vals j)) /\ (m = m0 \/ exists j, In j js /\ m = vals j).
Proof.
  intros m0 js. revert m0. induction js as [|j js IH]; intros m0 H0 Hg; cbn [mfold].
  - exists m0. split; [reflexivity|]. split; [exact H0|]. split; [now apply le_refl_on|]. split; [intros j []|auto].
  - destruct (Hg j ltac:(now left)) as [Ej Pj]. rewrite Ej. cbn [bind].
    destruct (ltb (vals j) m0) eqn:C.
    + destruct (IH (vals j) Pj ltac:(intros i Hi; apply Hg; now right)) as (m & Em & Pm & Lm & Lall & Or).
      exists m. split; [exact Em|]. split; [exact Pm|]. split.
      { apply (le_trans_on _ (vals j)); auto. apply lt_le_on; auto. }
      split; [intros i [<-|Hi]; auto|]. right. destruct Or as [->|(i & Hi & ->)]; [exists j|exists i]; split; auto; [now left|now right].
    + destruct (IH m0 H0 ltac:(intros i Hi; apply Hg; now right)) as (m & Em & Pm & Lm & Lall & Or).
      exists m. split; [exact Em|]. split; [exact Pm|]. split; [exact Lm|]. split.
      { intros i [<-|Hi]; auto. apply (le_trans_on _ m0); auto. }
      destruct Or as [->|(i & Hi & ->)]; [left; reflexivity|right; exists i; split; auto; now right].
Qed.

Lemma maximum_spec : forall l m0, P m0 -> Forall P l ->
  let m := fold_left (fun mx mn => if ltb mx mn then mn else mx) l m0 in
  P m /\ le m0 m /\ (forall x, In x l -> le x m) /\ (m = m0 \/ In m l).
Proof.
  induction l as [|x l IH]; intros m0 H0 F; cbn [fold_left].
  - split; [exact H0|]. split; [now apply le_refl_on|]. split; [intros y []|auto].
  - inversion F as [|? ? Fx Fl]; subst. destruct (ltb m0 x) eqn:C.
    + destruct (IH x Fx Fl) as (Pm & L0 & La & Or). cbv zeta in *. split; [exact Pm|].
      split; [apply (le_trans_on _ x); auto; now apply lt_le_on|]. split; [intros y [<-|Hy]; auto|].
      right. destruct Or as [->|Or]; [now left|now right].
    + destruct (IH m0 H0 Fl) as (Pm & L0 & La & Or). cbv zeta in *. split; [exact Pm|].
      split; [exact L0|]. split.
      { intros y [<-|Hy]; auto. apply (le_trans_on _ m0); auto. }
      destruct Or as [->|Or]; [left; reflexivity|right; now right].
Qed.

Variable dist : A -> B -> D.
Variables (first : list A) (second : list B).
Hypothesis NF : first <> [].
Hypothesis NS : second <> [].
Hypothesis PD : forall a b, In a first -> In b second -> P (dist a b) /\ le zero (dist a b) /\ le (dist a b) inf.
(** How the distance of elements i and j is obtained. *)
Variable get : Z -> Z -> outcome D.
Hypothesis GET : forall i j a b, nth_error first i = Some a -> nth_error second j = Some b ->
  get (Z.of_nat i) (Z.of_nat j) = Ok (dist a b).

(** [m] is the distance from element a to the closest. *)
Definition closest (a : A) (m : D) : Prop :=
  P m /\ le zero m /\ (forall b, In b second -> le m (dist a b)) /\ exists b, In b second /\ le (dist a b) m.

Lemma second_pos : exists b0, In b0 second.
Proof. destruct second as [|b s]; [congruence|]. exists b. now left. Qed.

Lemma row_min i a : nth_error first i = Some a ->
  exists m, minimum_distance ltb inf (get (Z.of_nat i)) (size second) = Ok m /\ closest a m.
Proof.
  intros Ha. assert (Ia := nth_error_In _ _ Ha). destruct second_pos as [b0 Hb0].
  set (vals := fun j => dist a (nth (Z.to_nat j) second b0)).
  assert (NB : forall j, In j (seqZ 0 (size second)) -> nth_error second (Z.to_nat j) = Some (nth (Z.to_nat j) second b0)).
  { intros j Hj. rewrite seqZ_in in Hj. apply nth_error_nth'. lia. }
  destruct (minimum_spec (get (Z.of_nat i)) vals inf (seqZ 0 (size second)) PI) as (m & Em & Pm & Lm & La & Or).
  { intros j Hj. pose proof (NB j Hj) as Nj. rewrite seqZ_in in Hj. split.
    - replace j with (Z.of_nat (Z.to_nat j)) at 1 by lia. apply GET; assumption.
    - apply PD; [exact Ia|exact (nth_error_In _ _ Nj)]. }
  exists m. split; [exact Em|]. split; [exact Pm|].
  assert (All : forall b, In b second -> le m (dist a b)).
  { intros b Hb. destruct (In_nth_error _ _ Hb) as [j Hj].
    assert (Hl : (j < length second)%nat) by (apply nth_error_Some; congruence).
    assert (Ij : In (Z.of_nat j) (seqZ 0 (size second))) by (rewrite seqZ_in; lia).
    specialize (La _ Ij). specialize (NB _ Ij). unfold vals in La. rewrite Nat2Z.id in *.
    rewrite Hj in NB. injection NB as ->. exact La. }
  assert (Ex : exists b, In b second /\ le (dist a b) m).
  { destruct Or as [->|(j & Hj & ->)].
    - exists b0. split; [exact Hb0|]. apply PD; assumption.
    - exists (nth (Z.to_nat j) second b0). specialize (NB j Hj). split; [exact (nth_error_In _ _ NB)|].
      apply le_refl_on. exact Pm. }
  split; [|split; [exact All|exact Ex]].
  destruct Ex as (b & Hb & Lb). destruct (PD a b Ia Hb) as (Pb & Zb & _). apply (le_trans_on _ (dist a b)); auto.
Qed.

Lemma first_pos : exists a0, In a0 first.
Proof. destruct first as [|b s]; [congruence|]. exists b. now left. Qed.

(** A number at least as large as every closest distance, and zero or one of
    them, is the directed distance. *)
Lemma directed_from v : P v -> le zero v ->
  (forall a m, In a first -> closest a m -> le m v) -> (forall a, In a first -> exists m, closest a m) ->
  (v = zero \/ exists a, In a first /\ closest a v) ->
  directed_distance ltb dist first second v.
Proof.
  intros Pv Zv Up Ex Or. split.
  - destruct Or as [->|(a & Ha & Cl)].
    + destruct first_pos as [a0 Ha0]. exists a0. split; [exact Ha0|]. intros b Hb. apply PD; assumption.
    + exists a. split; [exact Ha|]. destruct Cl as (_ & _ & H & _). exact H.
  - intros a Ha. destruct (Ex a Ha) as [m Cl]. pose proof (Up a m Ha Cl) as Hm. destruct Cl as (Pm & _ & _ & (b & Hb & Lb)).
    exists b. split; [exact Hb|]. destruct (PD a b Ha Hb) as (Pb & _ & _). apply (le_trans_on _ m); auto.
Qed.

Lemma closest_le a m m' : In a first -> closest a m -> closest a m' -> le m m'.
Proof.
  intros Ia (Pm & _ & H & _) (Pm' & _ & _ & (b & Hb & Lb)). destruct (PD a b Ia Hb) as (Pb & _ & _).
  apply (le_trans_on _ (dist a b)); auto.
Qed.

Lemma serial_spec : exists v, serial_loop ltb zero inf get (size first) (size second) = Ok v /\
  P v /\ directed_distance ltb dist first second v.
Proof.
  destruct first_pos as [a0 Ha0].
  assert (NA : forall i, In i (seqZ 0 (size first)) -> nth_error first (Z.to_nat i) = Some (nth (Z.to_nat i) first a0)).
  { intros i Hi. rewrite seqZ_in in Hi. apply nth_error_nth'. lia. }
  assert (G : forall is v0, (forall i, In i is -> In i (seqZ 0 (size first))) -> P v0 ->
    exists v, mfold (fun mx i => do mn <- minimum_distance ltb inf (get i) (size second); Ok (if ltb mx mn then mn else mx)) v0 is = Ok v /\
      P v /\ le v0 v /\ (forall i, In i is -> forall m, closest (nth (Z.to_nat i) first a0) m -> le m v) /\
      (v = v0 \/ exists a, In a first /\ closest a v)).
  { induction is as [|i is IH]; intros v0 Hin Hv0; cbn [mfold].
    - exists v0. split; [reflexivity|]. split; [exact Hv0|]. split; [now apply le_refl_on|]. split; [intros i []|auto].
    - pose proof (Hin i ltac:(now left)) as Ii. pose proof (NA i Ii) as Na. rewrite seqZ_in in Ii.
      destruct (row_min _ _ Na) as (mn & Emn & Cmn). rewrite Z2Nat.id in Emn by lia. rewrite Emn. cbn [bind].
      assert (Ia := nth_error_In _ _ Na).
      assert (Pmn : P mn) by (destruct Cmn as [? _]; assumption).
      destruct (ltb v0 mn) eqn:C.
      + destruct (IH mn ltac:(intros; apply Hin; now right) Pmn) as (v & Ev & Pv & Lv & Up & Or).
        exists v. split; [exact Ev|]. split; [exact Pv|]. split.
        { apply (le_trans_on _ mn); auto. now apply lt_le_on. }
        split.
        * intros q [<-|Hq] m Cm; [|now apply (Up q)]. assert (Pm : P m) by (destruct Cm as [? _]; assumption).
          apply (le_trans_on _ mn); auto. now apply (closest_le (nth (Z.to_nat i) first a0)).
        * right. destruct Or as [->|Or]; [|exact Or]. exists (nth (Z.to_nat i) first a0). split; assumption.
      + destruct (IH v0 ltac:(intros; apply Hin; now right) Hv0) as (v & Ev & Pv & Lv & Up & Or).
        exists v. split; [exact Ev|]. split; [exact Pv|]. split; [exact Lv|]. split; [|exact Or].
        intros q [<-|Hq] m Cm; [|now apply (Up q)]. assert (Pm : P m) by (destruct Cm as [? _]; assumption).
        apply (le_trans_on _ mn); auto; [now apply (closest_le (nth (Z.to_nat i) first a0))|].
        apply (le_trans_on _ v0); auto. }
  destruct (G (seqZ 0 (size first)) zero ltac:(auto) P0) as (v & Ev & Pv & Lv & Up & Or).
  exists v. split; [exact Ev|]. split; [exact Pv|]. apply directed_from; auto.
  - intros a m Ha Cm. destruct (In_nth_error _ _ Ha) as [i Hi].
    assert (Hl : (i < length first)%nat) by (apply nth_error_Some; congruence).
    apply (Up (Z.of_nat i)); [rewrite seqZ_in; lia|]. rewrite Nat2Z.id, (nth_error_nth _ _ _ Hi). exact Cm.
  - intros a Ha. destruct (In_nth_error _ _ Ha) as [i Hi]. destruct (row_min _ _ Hi) as (m & _ & Cm). now exists m.
Qed.

Lemma parallel_spec sp ob team n tr r : valid_call n 0 (size first) team ->
  index_loop_execution sp ob team n (size first) tr r ->
  exists v, parallel_loop ltb zero inf get (size second) n tr r = Ok v /\
    P v /\ directed_distance ltb dist first second v.
Proof.
  intros V X. destruct (index_execution_calls _ _ _ _ _ _ _ V X) as (-> & Perm & TN).
  destruct first_pos as [a0 Ha0].
  assert (NA : forall i, In i (seqZ 0 (size first)) -> nth_error first (Z.to_nat i) = Some (nth (Z.to_nat i) first a0)).
  { intros i Hi. rewrite seqZ_in in Hi. apply nth_error_nth'. lia. }
  unfold parallel_loop, after_loop. cbn [bind].
  assert (Hidx : forall c, In c (loop_calls tr) -> In (fst (snd c)) (seqZ 0 (size first))).
  { intros c Hc. apply (Permutation_in _ Perm). apply in_map_iff. now exists c. }
  assert (G : forall cs st, Forall (fun c : Z * (Z * Z) => 0 <= fst c < n) cs -> (forall c, In c cs -> In (fst (snd c)) (seqZ 0 (size first))) ->
    length st = Z.to_nat n -> Forall P st -> (forall s, In s st -> s = zero \/ exists a, In a first /\ closest a s) ->
    exists st', mfold (per_item_work ltb inf get (size second)) st cs = Ok st' /\
      length st' = Z.to_nat n /\ Forall P st' /\ (forall s, In s st' -> s = zero \/ exists a, In a first /\ closest a s) /\
      (forall t s, nth_error st t = Some s -> exists s', nth_error st' t = Some s' /\ le s s') /\
      (forall c m, In c cs -> closest (nth (Z.to_nat (fst (snd c))) first a0) m -> exists s', In s' st' /\ le m s')).
  { induction cs as [|c cs IH]; intros st FT Hin Len FP Hs; cbn [mfold].
    - exists st. split; [reflexivity|]. split; [exact Len|]. split; [exact FP|]. split; [exact Hs|]. split.
      + intros t s Ht. exists s. split; [exact Ht|]. apply le_refl_on. rewrite Forall_forall in FP. apply FP. exact (nth_error_In _ _ Ht).
      + intros c m [].
    - inversion FT as [|? ? Tc FT']; subst. pose proof (Hin c ltac:(now left)) as Ii. pose proof (NA _ Ii) as Na.
      assert (Ia := nth_error_In _ _ Na). rewrite seqZ_in in Ii.
      destruct (row_min _ _ Na) as (mn & Emn & Cmn). rewrite Z2Nat.id in Emn by lia.
      assert (Pmn : P mn) by (destruct Cmn as [? _]; assumption).
      unfold per_item_work at 1. rewrite Emn. cbn [bind]. unfold at_get, at_set.
      destruct (nth_error st (Z.to_nat (fst c))) as [s|] eqn:Es; [|apply nth_error_None in Es; lia]. cbn [bind].
      assert (Ps : P s) by (rewrite Forall_forall in FP; apply FP; exact (nth_error_In _ _ Es)).
      assert (Lt : (Z.to_nat (fst c) < length st)%nat) by (apply nth_error_Some; congruence).
      destruct (ltb s mn) eqn:C.
      + rewrite set_nth_upd by exact Lt. cbn [bind].
        set (st1 := upd st (Z.to_nat (fst c)) mn).
        assert (In1 : forall x, In x st1 -> x = mn \/ In x st).
        { intros x Hx. destruct (In_nth_error _ _ Hx) as [t Ht]. unfold st1 in Ht. rewrite nth_error_upd in Ht.
          destruct (Nat.eq_dec (Z.to_nat (fst c)) t); [destruct (lt_dec _ _); [injection Ht as <-; auto|discriminate]|].
          right. exact (nth_error_In _ _ Ht). }
        destruct (IH st1 FT' ltac:(intros; apply Hin; now right)) as (st' & E' & L' & P' & S' & Mono & Cov).
        * unfold st1. rewrite upd_length. exact Len.
        * rewrite Forall_forall in *. intros x Hx. destruct (In1 x Hx) as [->|Hx']; auto.
        * intros x Hx. destruct (In1 x Hx) as [->|Hx']; auto. right. exists (nth (Z.to_nat (fst (snd c))) first a0). auto.
        * exists st'. split; [exact E'|]. split; [exact L'|]. split; [exact P'|]. split; [exact S'|].
          assert (M1 : exists s', nth_error st' (Z.to_nat (fst c)) = Some s' /\ le mn s').
          { apply Mono. unfold st1. apply nth_error_upd_same. exact Lt. }
          assert (Pst' : forall t x, nth_error st' t = Some x -> P x).
          { intros t x Hx. rewrite Forall_forall in P'. apply P'. exact (nth_error_In _ _ Hx). }
          split.
          -- intros t x Hx. destruct (Nat.eq_dec (Z.to_nat (fst c)) t) as [<-|NE].
             ++ destruct M1 as (s' & Es' & Ls'). exists s'. split; [exact Es'|]. rewrite Es in Hx. injection Hx as <-.
                apply (le_trans_on _ mn); eauto. now apply lt_le_on.
             ++ apply Mono. unfold st1. rewrite nth_error_upd_other by exact NE. exact Hx.
          -- intros c' m [<-|Hc'] Cm; [|now apply (Cov c')]. assert (Pm : P m) by (destruct Cm as [? _]; assumption).
             destruct M1 as (s' & Es' & Ls'). exists s'. split; [exact (nth_error_In _ _ Es')|].
             apply (le_trans_on _ mn); eauto. now apply (closest_le (nth (Z.to_nat (fst (snd c))) first a0)).
      + cbn [bind]. destruct (IH st FT' ltac:(intros; apply Hin; now right) Len FP Hs) as (st' & E' & L' & P' & S' & Mono & Cov).
        exists st'. split; [exact E'|]. split; [exact L'|]. split; [exact P'|]. split; [exact S'|]. split; [exact Mono|].
        intros c' m [<-|Hc'] Cm; [|now apply (Cov c')]. assert (Pm : P m) by (destruct Cm as [? _]; assumption).
        destruct (Mono _ _ Es) as (s' & Es' & Ls'). assert (Ps' : P s').
        { rewrite Forall_forall in P'. apply P'. exact (nth_error_In _ _ Es'). }
        exists s'. split; [exact (nth_error_In _ _ Es')|].
        apply (le_trans_on _ s); auto. apply (le_trans_on _ mn); auto.
        now apply (closest_le (nth (Z.to_nat (fst (snd c))) first a0)). }
  destruct (G (loop_calls tr) (repeat zero (Z.to_nat n)) TN Hidx) as (st & Est & Len & FP & Hs & _ & Cov).
  { apply repeat_length. }
  { apply Forall_forall. intros x Hx. apply repeat_spec in Hx. now subst. }
  { intros s Hx. apply repeat_spec in Hx. auto. }
  rewrite Est. cbn [bind]. eexists. split; [reflexivity|].
  destruct (maximum_spec st zero P0 FP) as (Pm & L0 & La & Or). split; [exact Pm|].
  apply directed_from; auto.
  - intros a m Ha Cm. destruct (In_nth_error _ _ Ha) as [i Hi].
    assert (Hl : (i < length first)%nat) by (apply nth_error_Some; congruence).
    assert (Hc : In (Z.of_nat i) (map (fun c => fst (snd c)) (loop_calls tr))).
    { apply (Permutation_in _ (Permutation_sym Perm)). rewrite seqZ_in. lia. }
    apply in_map_iff in Hc as (c & Ec & Hc).
    destruct (Cov c m Hc) as (s' & Hs' & Ls').
    { rewrite Ec, Nat2Z.id, (nth_error_nth _ _ _ Hi). exact Cm. }
    assert (Pm' : P m) by (destruct Cm as [? _]; assumption). rewrite Forall_forall in FP.
    apply (le_trans_on _ s'); auto.
  - intros a Ha. destruct (In_nth_error _ _ Ha) as [i Hi]. destruct (row_min _ _ Hi) as (m & _ & Cm). now exists m.
  - destruct Or as [E|I]; [left; exact E|]. apply Hs. exact I.
Qed.

Lemma directed_unique v v' : P v -> P v' -> directed_distance ltb dist first second v ->
  directed_distance ltb dist first second v' -> sameD ltb v v'.
Proof.
  assert (G : forall x y, P x -> P y -> directed_distance ltb dist first second x ->
    directed_distance ltb dist first second y -> le x y).
  { intros x y Px Py ((a & Ha & H1) & _) (_ & H2). destruct (H2 a Ha) as (b & Hb & Lb).
    destruct (PD a b Ha Hb) as (Pb & _ & _). apply (le_trans_on _ (dist a b)); auto. }
  intros; split; apply G; assumption.
Qed.
End H.

Section Top.
Context {D A B : Type}.
Variable ltb : D -> D -> bool.
Variables zero inf : D.
Variable P : D -> Prop.
Hypothesis L : order_on ltb P.
Hypothesis P0 : P zero.
Hypothesis PI : P inf.
Variable dist : A -> B -> D.
Variables (first : list A) (second : list B).
Hypothesis NF : first <> [].
Hypothesis NS : second <> [].
Hypothesis PD : forall a b, In a first -> In b second ->
  P (dist a b) /\ leD ltb zero (dist a b) /\ leD ltb (dist a b) inf.

Lemma compute_spec sp ob team n tr r :
  valid_call n 0 (size first) team -> index_loop_execution sp ob team n (size first) tr r ->
  exists v, ComputeDistance ltb zero inf dist first second n tr r = Ok v /\ P v /\
    directed_distance ltb dist first second v.
Proof.
  intros V X. unfold ComputeDistance, nonempty_args.
  destruct (Z.eqb_spec (size first) 0) as [E|_]; [destruct first; [congruence|cbn in E; lia]|].
  destruct (Z.eqb_spec (size second) 0) as [E|_]; [destruct second; [congruence|cbn in E; lia]|].
  assert (GET : forall i j a b, nth_error first i = Some a -> nth_error second j = Some b ->
    from_function dist first second (Z.of_nat i) (Z.of_nat j) = Ok (dist a b)).
  { intros i j a b Ha Hb. unfold from_function, raw_get. rewrite !Nat2Z.id, Ha, Hb. reflexivity. }
  destruct (IsParallel n).
  - exact (parallel_spec ltb zero inf P L P0 PI dist first second NF NS PD _ GET sp ob team n tr r V X).
  - exact (serial_spec ltb zero inf P L P0 PI dist first second NF NS PD _ GET).
Qed.

Lemma compute_matrix_spec sp ob team n tr r m :
  distances_of dist first second m ->
  valid_call n 0 (size first) team -> index_loop_execution sp ob team n (size first) tr r ->
  exists v, ComputeDistanceWithMatrix ltb zero inf m first second n tr r = Ok v /\ P v /\
    directed_distance ltb dist first second v.
Proof.
  intros (MR & MC & MV) V X. unfold ComputeDistanceWithMatrix, matrix_args, nonempty_args.
  destruct (Z.eqb_spec (size first) 0) as [E|_]; [destruct first; [congruence|cbn in E; lia]|].
  destruct (Z.eqb_spec (size second) 0) as [E|_]; [destruct second; [congruence|cbn in E; lia]|].
  rewrite MR, MC, !Z.eqb_refl. cbn [negb orb].
  assert (GET : forall i j a b, nth_error first i = Some a -> nth_error second j = Some b ->
    mat_get m (Z.of_nat i) (Z.of_nat j) = Ok (dist a b)).
  { intros i j a b Ha Hb. unfold mat_get. rewrite MR, MC.
    assert ((i < length first)%nat) by (apply nth_error_Some; congruence).
    assert ((j < length second)%nat) by (apply nth_error_Some; congruence).
    repeat (match goal with |- context [Z.leb ?x ?y] => destruct (Z.leb_spec x y); [|lia] end).
    repeat (match goal with |- context [Z.ltb ?x ?y] => destruct (Z.ltb_spec x y); [|lia] end).
    cbn. f_equal. now apply MV. }
  destruct (IsParallel n).
  - exact (parallel_spec ltb zero inf P L P0 PI dist first second NF NS PD _ GET sp ob team n tr r V X).
  - exact (serial_spec ltb zero inf P L P0 PI dist first second NF NS PD _ GET).
Qed.
End Top.
