(** Sampling: the cached segment never changes an answer (for ordinary times). *)
From Coq Require Import Lia List Bool Arith ZArith.
From Verif Require Import Base MathModel MathLinModel TotpModel TotpSpec TotpProof.

Section Query.
Context {A : Type} (ar : arith A) (ex : extras A).
Notation c0 := (a_of ar 0).
Hypothesis le01 : aleb ar c0 (a_of ar 1) = true.
Hypothesis le_trans : forall a b c, aleb ar a b = true -> aleb ar b c = true -> aleb ar a c = true.
(** [t] is a number, [c] too: one of them is not greater. *)
Hypothesis le_total : forall a b, aleb ar a a = true -> aleb ar b b = true -> altb ar a b = false -> aleb ar b a = true.
Hypothesis le_num : forall a b, aleb ar a b = true -> aleb ar b b = true.
Hypothesis lt_not : forall a, aleb ar c0 a = true -> altb ar a c0 = false.

Notation timed := (@timed A).
Definition reached (t : A) (x : timed) : Prop := aleb ar (t_time x) t = true.
(** Position of the first step that is not reached at [t]. *)
Fixpoint position (l : list timed) (t : A) : nat :=
  match l with [] => 0%nat | x :: r => if aleb ar (t_time x) t then S (position r t) else 0%nat end.

Lemma advance_position : forall l k t, (position l t < length l)%nat -> advance ar l k t = Ok (k + position l t)%nat.
Proof.
  induction l as [|x l IH]; cbn; intros k t H; [lia|].
  destruct (aleb ar (t_time x) t); [|now rewrite Nat.add_0_r].
  rewrite IH by lia. f_equal. lia.
Qed.
Lemma position_lt l x t : aleb ar (t_time x) t = false -> In x l -> (position l t < length l)%nat.
Proof.
  intros H. induction l as [|y l IH]; cbn; [tauto|]. intros [->|I].
  - rewrite H. lia.
  - destruct (aleb ar (t_time y) t); [|lia]. specialize (IH I). lia.
Qed.
Lemma position_skip : forall l k t, Forall (reached t) (firstn k l) -> (k <= length l)%nat ->
  (k + position (skipn k l) t)%nat = position l t.
Proof.
  induction l as [|x l IH]; intros [|k] t F L; cbn in *; try reflexivity; try lia.
  inversion_clear F as [|? ? R F']. unfold reached in R. rewrite R. f_equal. apply IH; [exact F'|lia].
Qed.
Lemma position_reached : forall l t, Forall (reached t) (firstn (position l t) l).
Proof.
  induction l as [|x l IH]; intros t; cbn; [constructor|].
  destruct (aleb ar (t_time x) t) eqn:e; constructor; [exact e|apply IH].
Qed.

Variable tr : @trajectory A.
Hypothesis TB : built ar tr.
Notation steps := (tr_steps tr).

(** The cache agrees with the trajectory; [own] says whose list the iterator may point into. *)
Definition cache_ok (own : nat -> Prop) (c : @cache A) : Prop :=
  (ca_time c = e_max ex /\ ca_segment c = None) \/
  (aleb ar (ca_time c) (ca_time c) = true /\
   exists owner k, ca_segment c = Some (owner, k) /\ own owner /\ (k <= length steps)%nat /\
     Forall (reached (ca_time c)) (firstn k steps)).
Definition heap_ok (own : nat -> nat -> Prop) (live : list nat) (h : @heap A) : Prop :=
  forall id, In id live -> exists o, h id = Some o /\ ob_trajectory o = tr /\ cache_ok (own id) (ob_cache o).

Definition place (t : A) : nat :=
  match rev steps with
  | back :: _ => if aleb ar (t_time back) t then (length steps - 1)%nat else position steps t
  | [] => 0%nat
  end.

Lemma segment_of own live h id o t :
  heap_ok own live h -> (forall id owner, In id live -> own id owner -> In owner live) -> own id id ->
  In id live -> h id = Some o -> ordinary ar ex t ->
  exists c, GetTrajectorySegment ar h id o t = Ok (steps, place t, c) /\ cache_ok (own id) c.
Proof.
  intros HH HO OI I E (T0 & T1). destruct (HH id I) as (o' & E' & ET & EC). rewrite E in E'. injection E' as <-.
  unfold GetTrajectorySegment, place. rewrite ET.
  destruct (rev steps) as [|back rest] eqn:R.
  { exfalso. destruct TB as [_ H _]. apply (f_equal (@rev _)) in R. rewrite rev_involutive in R. rewrite R in H. discriminate. }
  destruct (aleb ar (t_time back) t) eqn:B; [eauto|].
  assert (IB : In back steps). { apply in_rev. rewrite R. now left. }
  pose proof (position_lt _ _ _ B IB) as PL.
  assert (NT : aleb ar t t = true) by (eapply le_num; exact T0).
  assert (NEW : forall owner, own id owner -> cache_ok (own id) (mkCache t (Some (owner, position steps t)))).
  { intros owner OO. right. cbn. split; [exact NT|]. exists owner, (position steps t).
    repeat split; [exact OO|lia|apply position_reached]. }
  destruct (altb ar t (ca_time (ob_cache o))) eqn:C.
  - rewrite E, ET. cbn [skipn]. rewrite advance_position by exact PL. cbn [bind Nat.add]. eexists. split; [reflexivity|]. now apply NEW.
  - destruct EC as [(EC & _)|(NC & owner & k & ES & OO & KL & F)].
    { rewrite EC in C. congruence. }
    rewrite ES. destruct (HH owner (HO _ _ I OO)) as (o2 & E2 & ET2 & _). rewrite E2, ET2.
    assert (F' : Forall (reached t) (firstn k steps)).
    { eapply Forall_impl; [|exact F]. intros x Hx. unfold reached in *. eapply le_trans; [exact Hx|]. now apply le_total. }
    pose proof (position_skip _ _ _ F' KL) as PS.
    rewrite advance_position by (rewrite skipn_length; lia). rewrite PS. cbn [bind]. eexists. split; [reflexivity|]. now apply NEW.
Qed.

Definition spec_answer (t : A) : outcome (list A * list A * A) :=
  match place t with
  | O => UB
  | S k' =>
    do it <- raw_get steps (S k');
    do previous <- raw_get steps k';
    do pv <- sample_between ar ex (tr_path tr) previous it t;
    Ok (fst pv, snd pv, t)
  end.

Lemma place_pos t : ordinary ar ex t -> (0 < place t < length steps)%nat.
Proof.
  intros (T0 & T1). unfold place. destruct TB as [_ H (l & x & HL & NL & _)].
  assert (L2 : (2 <= length steps)%nat). { rewrite HL, app_length. destruct l; [congruence|]. cbn. lia. }
  destruct (rev steps) as [|back rest] eqn:R.
  { apply (f_equal (@rev _)) in R. rewrite rev_involutive in R. rewrite R in H. discriminate. }
  destruct (aleb ar (t_time back) t) eqn:B; [lia|].
  assert (IB : In back steps). { apply in_rev. rewrite R. now left. }
  pose proof (position_lt _ _ _ B IB) as PL.
  destruct steps as [|s0 ss]; [discriminate|]. cbn in H. injection H as ->. cbn [position t_time] in *. rewrite T0 in *. lia.
Qed.
Lemma sample_total p i t : exists pos vel, sample_between ar ex (tr_path tr) p i t = Ok (pos, vel) /\ length pos = length vel.
Proof.
  destruct TB as [(n & D) _ _]. unfold sample_between.
  destruct (GetConfig_total ar ex le01 n (tr_path tr)
    (aadd ar (aadd ar (t_pos p) (amul ar (asub ar t (t_time p)) (t_vel p)))
             (amul ar (amul ar (amul ar (lit_half ar) (asub ar t (t_time p))) (asub ar t (t_time p)))
               (adiv ar (amul ar (a_of ar 2) (asub ar (asub ar (t_pos i) (t_pos p)) (amul ar (asub ar (t_time i) (t_time p)) (t_vel p))))
                 (amul ar (asub ar (t_time i) (t_time p)) (asub ar (t_time i) (t_time p)))))) D) as (r & -> & Hr).
  cbn [bind].
  match goal with |- context [GetTangent ar ex (tr_path tr) ?s] => destruct (GetTangent_total ar ex n (tr_path tr) s D) as (r' & -> & Hr') end.
  cbn [bind]. do 2 eexists. split; [reflexivity|]. unfold eig_scale. rewrite map_length. congruence.
Qed.
Lemma spec_answer_ok t : ordinary ar ex t -> exists pos vel, spec_answer t = Ok (pos, vel, t).
Proof.
  intros O. pose proof (place_pos t O) as P. unfold spec_answer. destruct (place t) as [|k]; [lia|].
  unfold raw_get. destruct (nth_error steps (S k)) eqn:E1; [|apply nth_error_None in E1; lia].
  destruct (nth_error steps k) eqn:E2; [|apply nth_error_None in E2; lia]. cbn [bind].
  destruct (sample_total t1 t0 t) as (a & b & -> & _). cbn. eauto.
Qed.

Lemma query_step own live h id t :
  heap_ok own live h -> (forall id owner, In id live -> own id owner -> In owner live) -> own id id ->
  In id live -> ordinary ar ex t ->
  exists r h', GetPositionVelocityTimePoint ar ex h id t = Ok (r, h') /\ spec_answer t = Ok r /\ heap_ok own live h' /\
    (forall i, i <> id -> h' i = h i) /\ (forall i, h' i = None <-> h i = None).
Proof.
  intros HH HO OI I O. destruct (HH id I) as (o & E & ET & EC).
  destruct (segment_of own live h id o t HH HO OI I E O) as (c & SG & CO).
  pose proof (place_pos t O) as P. unfold GetPositionVelocityTimePoint. rewrite E, SG. cbn [bind].
  destruct (place t) as [|k] eqn:PE; [lia|].
  assert (SA : spec_answer t = match S k with O => UB | S k' => do it <- raw_get steps (S k');
    do previous <- raw_get steps k'; do pv <- sample_between ar ex (tr_path tr) previous it t; Ok (fst pv, snd pv, t) end).
  { unfold spec_answer. now rewrite PE. }
  rewrite SA. unfold raw_get in *. destruct (nth_error steps (S k)) eqn:E1; [|apply nth_error_None in E1; lia].
  destruct (nth_error steps k) eqn:E2; [|apply nth_error_None in E2; lia]. cbn [bind]. rewrite ET.
  destruct (sample_total t1 t0 t) as (a & b & -> & L). cbn [bind fst snd]. rewrite L, Nat.eqb_refl. cbn [negb].
  rewrite (lt_not t (proj1 O)). do 2 eexists. split; [reflexivity|]. split; [reflexivity|]. split; [|split].
  - intros i Hi. unfold heap_set. destruct (Nat.eqb_spec i id) as [->|N]; [|now apply HH].
    eexists. split; [reflexivity|]. cbn. auto.
  - intros i N. unfold heap_set. now destruct (Nat.eqb_spec i id).
  - intros i. unfold heap_set. destruct (Nat.eqb_spec i id) as [->|N]; [|tauto]. rewrite E. split; discriminate.
Qed.

Lemma only_ok own : heap_ok own [0%nat] (only ex tr).
Proof.
  intros id [<-|[]]. exists (fresh_object ex tr). split; [reflexivity|]. split; [reflexivity|]. left. cbn. auto.
Qed.
Lemma first_answer_spec t : ordinary ar ex t -> first_answer ar ex tr t = spec_answer t.
Proof.
  intros O. unfold first_answer, answer.
  destruct (query_step eq [0%nat] (only ex tr) 0 t (only_ok eq)) as (r & h' & -> & -> & _); auto.
  - intros id owner I <-. exact I.
  - now left.
Qed.
Lemma answers own live h : heap_ok own live h -> (forall id owner, In id live -> own id owner -> In owner live) ->
  (forall id, In id live -> own id id) -> forall id t, In id live -> ordinary ar ex t ->
  answer ar ex h id t = first_answer ar ex tr t /\ exists pos vel, first_answer ar ex tr t = Ok (pos, vel, t).
Proof.
  intros HH HO HI id t I O. rewrite (first_answer_spec t O). split; [|now apply spec_answer_ok]. unfold answer.
  destruct (query_step own live h id t HH HO (HI id I) I O) as (r & h' & -> & -> & _). reflexivity.
Qed.

(** Without destruction, iterators may point into the list of any other trajectory. *)
Lemma run_shared : forall ops live h, heap_ok (fun _ owner => In owner live) live h ->
  legal ar ex live ops -> existsb drops ops = false ->
  exists h', run_ops ar ex h ops = Ok h' /\ heap_ok (fun _ owner => In owner (alive live ops)) (alive live ops) h'.
Proof.
  induction ops as [|o ops IH]; intros live h HH LG ND; cbn [run_ops mfold alive] in *; [eauto|].
  cbn [existsb] in ND. apply orb_false_iff in ND as (N1 & N2).
  destruct o as [id t|id new_id|id]; cbn [legal drops] in *; [| |discriminate].
  - destruct LG as (I & O & LG).
    destruct (query_step _ _ h id t HH (fun _ _ _ H => H) I I O) as (r & h' & E & _ & HH' & _).
    unfold run_op at 1. rewrite E. cbn [bind snd]. now apply IH.
  - destruct LG as (I & NI & LG). destruct (HH id I) as (o & E & ET & EC). unfold run_op at 1, Clone. rewrite E. cbn [bind].
    apply IH; [|exact LG|exact N2]. intros i Hi.
    assert (W : forall c, cache_ok (fun owner => In owner live) c -> cache_ok (fun owner => In owner (new_id :: live)) c).
    { intros c [CA|(NC & owner & k & ES & OO & R)]; [now left|right]. split; [exact NC|]. exists owner, k.
      split; [exact ES|]. split; [now right|exact R]. }
    unfold heap_set. destruct (Nat.eqb_spec i new_id) as [->|N].
    + exists o. split; [reflexivity|]. split; [exact ET|]. apply W, EC.
    + destruct Hi as [->|Hi]; [congruence|]. destruct (HH i Hi) as (o2 & E2 & ET2 & EC2). exists o2.
      split; [exact E2|]. split; [exact ET2|]. apply W, EC2.
Qed.

(** When nothing is cloned after it was sampled, every iterator points into the list of
    its own trajectory. *)
Lemma run_own : forall ops live sampled h, heap_ok eq live h ->
  (forall id, In id live -> ~ In id sampled -> exists o, h id = Some o /\ ca_segment (ob_cache o) = None) ->
  legal ar ex live ops -> clones_unsampled sampled ops ->
  exists h', run_ops ar ex h ops = Ok h' /\ heap_ok eq (alive live ops) h'.
Proof.
  induction ops as [|o ops IH]; intros live sampled h HH HS LG CL; cbn [run_ops mfold alive] in *; [eauto|].
  destruct o as [id t|id new_id|id]; cbn [legal clones_unsampled] in *.
  - destruct LG as (I & O & LG).
    destruct (query_step eq live h id t HH) as (r & h' & E & _ & HH' & HN & _); auto.
    { intros i owner Hi <-. exact Hi. }
    unfold run_op at 1. rewrite E. cbn [bind snd]. apply (IH live (id :: sampled)); [exact HH'| |exact LG|exact CL].
    intros i Hi NI. rewrite HN by (intros ->; apply NI; now left). apply HS; [exact Hi|]. intros ?; apply NI; now right.
  - destruct LG as (I & NI & LG). destruct CL as (NS & CL). destruct (HH id I) as (o & E & ET & EC).
    destruct (HS id I NS) as (o' & E' & EN). rewrite E in E'. injection E' as <-.
    unfold run_op at 1, Clone. rewrite E. cbn [bind].
    apply (IH (new_id :: live) sampled); [| |exact LG|exact CL].
    + intros i Hi. unfold heap_set. destruct (Nat.eqb_spec i new_id) as [->|N].
      * exists o. split; [reflexivity|]. split; [exact ET|]. left. destruct EC as [EC|(_ & ow & k & ES & _)]; [exact EC|]. congruence.
      * destruct Hi as [->|Hi]; [congruence|]. now apply HH.
    + intros i Hi NI'. unfold heap_set. destruct (Nat.eqb_spec i new_id) as [->|N].
      * exists o. split; [reflexivity|exact EN].
      * destruct Hi as [->|Hi]; [congruence|]. now apply HS.
  - destruct LG as (I & LG). unfold run_op at 1. cbn [bind].
    assert (RM : forall i, In i (remove Nat.eq_dec id live) -> In i live /\ Destroy h id i = h i).
    { intros i Hi. apply in_remove in Hi as (Hi & N). split; [exact Hi|]. unfold Destroy, heap_set. now destruct (Nat.eqb_spec i id). }
    apply (IH (remove Nat.eq_dec id live) sampled); [| |exact LG|exact CL].
    + intros i Hi. destruct (RM i Hi) as (Hi' & ->). now apply HH.
    + intros i Hi. destruct (RM i Hi) as (Hi' & ->). now apply HS.
Qed.

(** Negative times: undefined, whatever happened before. *)
Lemma negative_undefined h id o t :
  h id = Some o -> ob_trajectory o = tr -> ca_segment (ob_cache o) = None -> ca_time (ob_cache o) = e_max ex ->
  (forall back rest, rev steps = back :: rest -> aleb ar (t_time back) t = false) ->
  altb ar t (e_max ex) = true -> aleb ar c0 t = false ->
  GetPositionVelocityTimePoint ar ex h id t = UB.
Proof.
  intros E ET EN EM HB HM HZ. unfold GetPositionVelocityTimePoint, GetTrajectorySegment. rewrite E, ET.
  destruct (rev steps) as [|back rest] eqn:R; [reflexivity|]. rewrite (HB _ _ eq_refl), EM, HM, E, ET.
  destruct TB as [_ H _]. destruct steps as [|s0 ss]; [discriminate|]. cbn in H. injection H as ->.
  cbn [skipn advance t_time]. rewrite HZ. reflexivity.
Qed.
End Query.
