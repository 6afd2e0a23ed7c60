(** Proofs about A* (C18-C22). *)
From Coq Require Import Permutation ZifyBool ZifyNat.
From Verif Require Import Base GraphModel GraphSpec SearchModel SearchSpec.

Section Laws.
Context {C : Type} (ops : cost_ops C) (L : cost_laws ops).
Notation le := (cle ops). Notation lt := (clt ops).

Lemma not_lt a b : ~ lt a b <-> le b a.
Proof. unfold clt, cle. destruct (cltb ops a b); split; congruence. Qed.
Lemma lt_le a b : lt a b -> le a b.
Proof.
  intros H. destruct (cl_total _ L a b) as [|H']; [assumption|].
  unfold cle, clt in *. congruence.
Qed.
Lemma lt_irrefl a : ~ lt a a.
Proof. apply not_lt, (cl_refl _ L). Qed.
Lemma le_lt_trans a b c : le a b -> lt b c -> lt a c.
Proof.
  intros H1 H2. destruct (cltb ops a c) eqn:E; [exact E|]. exfalso.
  assert (le c a) as H3 by exact E. pose proof (cl_trans _ L _ _ _ H3 H1) as H4. unfold cle, clt in *. congruence.
Qed.
Lemma lt_le_trans a b c : lt a b -> le b c -> lt a c.
Proof.
  intros H1 H2. destruct (cltb ops a c) eqn:E; [exact E|]. exfalso.
  assert (le c a) as H3 by exact E. pose proof (cl_trans _ L _ _ _ H2 H3) as H4. unfold cle, clt in *. congruence.
Qed.
Lemma geb_false a b : cgeb ops a b = false <-> lt a b.
Proof.
  pose proof (cl_geb _ L a b) as H. unfold clt. destruct (cgeb ops a b).
  - split; [discriminate|]. intros H'. unfold cle in H. destruct (proj1 H eq_refl). congruence.
  - split; [intros _|reflexivity]. destruct (cltb ops a b) eqn:E; [reflexivity|]. exfalso.
    destruct H as [_ H]. unfold cle in H. specialize (H E). discriminate.
Qed.
End Laws.

Section Walks.
Context {T C : Type} (ops : cost_ops C) (step : T -> T -> C -> Prop).

Lemma walk_snoc s c l m cm n w : walk ops step s c l m cm -> step m n w ->
  walk ops step s c (l ++ [n]) n (cadd ops cm w).
Proof.
  induction 1 as [s c|s c m' w' l t d Hs Hw IH]; intros H; simpl.
  - eapply walk_on; [exact H|constructor].
  - eapply walk_on; [exact Hs|apply IH, H].
Qed.

Lemma walk_first s c l t d : walk ops step s c l t d -> exists l', l = s :: l'.
Proof. destruct 1; eauto. Qed.

Lemma walk_last s c l t d : walk ops step s c l t d -> exists l', l = l' ++ [t].
Proof.
  induction 1 as [s c|s c m w l t d Hs Hw (l' & ->)]; [exists []; reflexivity|].
  exists (s :: l'). reflexivity.
Qed.

Lemma walk_nonneg (L : cost_laws ops) s c l t d :
  (forall a b w, step a b w -> cle ops (czero ops) w) ->
  walk ops step s c l t d -> cle ops c d.
Proof.
  intros N. induction 1 as [s c|s c m w l t d Hs Hw IH]; [apply cl_refl, L|].
  eapply cl_trans; [exact L| |exact IH]. apply cl_infl; [exact L|]. eapply N, Hs.
Qed.
End Walks.

Lemma remove_at_perm {A} (l : list A) : forall i e, nth_error l i = Some e ->
  Permutation l (e :: remove_at i l).
Proof.
  induction l as [|x l IH]; intros [|i] e H; try discriminate.
  - injection H as <-. reflexivity.
  - simpl in *. rewrite perm_swap. apply perm_skip, IH, H.
Qed.

Lemma pq_pop_spec {E C} (ops : cost_ops C) key (pick : picker E) k q :
  valid_pick ops key pick -> q <> [] ->
  exists e rest, pq_pop pick k q = Ok (e, rest) /\ Permutation q (e :: rest) /\
    forall e', In e' q -> cle ops (key e) (key e').
Proof.
  intros V H. destruct (V k q H) as (e & He & M). exists e, (remove_at (pick k q) q).
  unfold pq_pop, raw_get. rewrite He. simpl. split; [reflexivity|]. split; [|exact M].
  apply remove_at_perm, He.
Qed.

Section Maps.
Context {T A : Type} (eqb : T -> T -> bool).
Hypothesis eqb_ok : forall a b, eqb a b = true <-> a = b.

Lemma map_find_put t (a : A) m s :
  map_find eqb s (map_put t a m) = if eqb s t then Some a else map_find eqb s m.
Proof. reflexivity. Qed.

Lemma eqb_refl' t : eqb t t = true.
Proof. apply eqb_ok. reflexivity. Qed.

Lemma eqb_false a b : eqb a b = false <-> a <> b.
Proof. pose proof (eqb_ok a b). destruct (eqb a b); split; intros; try congruence; [|intros ->]; intuition congruence. Qed.

Lemma map_find_erase t (m : list (T * A)) s :
  map_find eqb s (map_erase eqb t m) = if eqb s t then None else map_find eqb s m.
Proof.
  induction m as [|[t' a] m IH]; simpl; [destruct (eqb s t); reflexivity|].
  destruct (eqb t t') eqn:E; simpl.
  - apply eqb_ok in E. subst t'. rewrite IH. destruct (eqb s t); reflexivity.
  - destruct (eqb s t') eqn:E'.
    + apply eqb_ok in E'. subst t'. destruct (eqb s t) eqn:E''; [|reflexivity].
      apply eqb_ok in E''. subst. rewrite eqb_refl' in E. discriminate.
    + exact IH.
Qed.

Lemma map_find_in t (m : list (T * A)) a : map_find eqb t m = Some a -> In t (map fst m).
Proof.
  induction m as [|[t' a'] m IH]; simpl; [discriminate|]. destruct (eqb t t') eqn:E.
  - apply eqb_ok in E. auto.
  - auto.
Qed.
End Maps.

Section Astar.
Context {T C : Type} (ops : cost_ops C) (eqb : T -> T -> bool).
Hypothesis eqb_ok : forall a b, eqb a b = true <-> a = b.
Hypothesis L : cost_laws ops.
Notation le := (cle ops). Notation lt := (clt ops).
Notation ZERO := (czero ops).
Notation elem := (pq_elem T C).
Variables (starts : list (T * C)) (goal : T -> bool) (children : T -> outcome (list (T * C)))
  (heuristic : T -> C) (limit : bool).
Notation child := (child_of children).
Hypothesis CO : costs_ok ops children starts.

Notation find ex s := (map_find eqb s ex).

(** Position of the newest binding of a state, counted from the oldest. *)
Fixpoint rank (n : T) (ex : explored_list T C) : nat :=
  match ex with
  | [] => 0
  | (t, _) :: r => if eqb n t then length ex else rank n r
  end.

Lemma rank_le n ex : rank n ex <= length ex.
Proof. induction ex as [|[t x] r IH]; simpl; [lia|]. destruct (eqb n t); lia. Qed.

Definition covered (q : list elem) (ex : explored_list T C) (s : T) (c : C) : Prop :=
  (exists e, In e q /\ el_state e = s /\ le (el_cost e) c) \/
  (exists c1 b, find ex s = Some (c1, b) /\ le c1 c).

(** Where a queue entry or explored entry comes from. *)
Definition origin (ex : explored_list T C) (s : T) (c : C) (back : option T) : Prop :=
  le ZERO c /\
  match back with
  | None => In (s, c) starts
  | Some p => exists c0 w c1 b1, child p s w /\ c = cadd ops c0 w /\ le ZERO c0 /\
      find ex p = Some (c1, b1) /\ le c1 c0
  end.

Definition elem_ok (ex : explored_list T C) (e : elem) : Prop :=
  origin ex (el_state e) (el_cost e) (el_back e) /\
  el_value e = match el_back e with
               | None => heuristic (el_state e)
               | Some _ => cadd ops (el_cost e) (heuristic (el_state e))
               end.

(** Strictly lower cost, or not higher and entered earlier. *)
Definition below (ex : explored_list T C) (p : T) (cp : C) (n : T) (cn : C) : Prop :=
  lt cp cn \/ (le cp cn /\ rank p ex < rank n ex).

Definition explored_ok (ex : explored_list T C) : Prop :=
  forall n c b, find ex n = Some (c, b) ->
    origin ex n c b /\
    (forall p c1 b1, b = Some p -> find ex p = Some (c1, b1) -> below ex p c1 n c).

(** Some walk from a start accumulates exactly this cost. *)
Definition realised (t : T) (d : C) : Prop :=
  exists s c l, In (s, c) starts /\ walk ops child s c l t d.

Record Inv (q : list elem) (m : list (T * C)) (ex : explored_list T C) : Prop := mkInv {
  inv_elems : forall e, In e q -> elem_ok ex e;
  inv_members : limit = true -> forall s c, map_find eqb s m = Some c ->
    exists e, In e q /\ el_state e = s /\ el_cost e = c;
  inv_explored : explored_ok ex;
  inv_starts : forall s c, In (s, c) starts -> covered q ex s c;
  inv_closed : forall n c b t w, find ex n = Some (c, b) -> child n t w ->
    covered q ex t (cadd ops c w);
  inv_nogoal : forall n x, find ex n = Some x -> goal n = false;
  inv_real : forall e, In e q -> realised (el_state e) (el_cost e) }.

Lemma covered_mono q q' ex s c c' : incl q q' -> le c c' -> covered q ex s c -> covered q' ex s c'.
Proof.
  intros I H [(e & He & Es & Hc)|(c1 & b & F & Hc)].
  - left. exists e. split; [apply I, He|]. split; [exact Es|]. eapply cl_trans; eauto.
  - right. exists c1, b. split; [exact F|]. eapply cl_trans; eauto.
Qed.

(** Initialization. *)
Lemma init_inv l : forall q m pre,
  (forall e, In e q -> elem_ok [] e) ->
  (limit = true -> forall s c, map_find eqb s m = Some c -> exists e, In e q /\ el_state e = s /\ el_cost e = c) ->
  (forall s c, In (s, c) pre -> covered q [] s c) ->
  (forall e, In e q -> realised (el_state e) (el_cost e)) ->
  starts = pre ++ l ->
  let (q', m') := fold_left (push_start ops eqb limit heuristic) l (q, m) in
  Inv q' m' [] /\ length q' <= length q + length l.
Proof.
  induction l as [|[s c] l IH]; intros q m pre H1 H2 H3 HR E; simpl.
  - split; [|lia]. constructor; auto; try discriminate.
    intros s c Hs. apply H3. rewrite E, app_nil_r in Hs. exact Hs.
  - assert (In (s, c) starts) as Hin by (rewrite E; apply in_app_iff; right; left; reflexivity).
    destruct (is_queue_better ops eqb limit m s c) eqn:QB.
    + specialize (IH q m (pre ++ [(s, c)])). 
      destruct (fold_left _ l (q, m)) as [q' m'] eqn:EF. destruct IH as [IH1 IH2]; auto; [| |split; [exact IH1|lia]].
      * intros s' c' Hs'. apply in_app_iff in Hs' as [Hs'|[Hs'|[]]]; [auto|]. injection Hs' as <- <-.
        unfold is_queue_better in QB. destruct limit; [|discriminate].
        destruct (map_find eqb s m) as [cm|] eqn:F; [|discriminate].
        destruct (H2 eq_refl s cm F) as (e & He & Es & Ec). left. exists e. split; [exact He|].
        split; [exact Es|]. rewrite Ec. apply (cl_geb _ L). exact QB.
      * rewrite <- app_assoc. exact E.
    + set (e0 := mkElem s c (heuristic s) None).
      specialize (IH (q ++ [e0]) (if limit then map_put s c m else m) (pre ++ [(s, c)])).
      destruct (fold_left _ l (q ++ [e0], _)) as [q' m'] eqn:EF. destruct IH as [IH1 IH2].
      * intros e He. apply in_app_iff in He as [He|[<-|[]]]; [auto|]. split; [|reflexivity].
        split; [|exact Hin]. apply (proj1 CO s c Hin).
      * intros HL s' c' F. rewrite HL in F. rewrite map_find_put in F. destruct (eqb s' s) eqn:E1.
        -- apply eqb_ok in E1. subst s'. injection F as <-. exists e0. split; [apply in_app_iff; right; left; reflexivity|auto].
        -- destruct (H2 HL s' c' F) as (e & He & X). exists e. split; [apply in_app_iff; auto|exact X].
      * intros s' c' Hs'. apply in_app_iff in Hs' as [Hs'|[Hs'|[]]].
        -- eapply covered_mono; [|apply cl_refl, L|apply H3, Hs']. intros x Hx. apply in_app_iff. auto.
        -- injection Hs' as <- <-. left. exists e0. split; [apply in_app_iff; right; left; reflexivity|].
           split; [reflexivity|apply cl_refl, L].
      * intros e He. apply in_app_iff in He as [He|[<-|[]]]; [auto|]. exists s, c, [s].
        split; [exact Hin|]. constructor.
      * rewrite <- app_assoc. exact E.
      * split; [exact IH1|]. rewrite app_length in IH2. simpl in IH2. lia.
Qed.

(** Popped entry that is not better than what was explored. *)
Lemma skip_inv q m ex top rest : Inv q m ex -> Permutation q (top :: rest) ->
  is_explored_better ops eqb ex (el_state top) (el_cost top) = true ->
  Inv rest (if limit then map_erase eqb (el_state top) m else m) ex.
Proof.
  intros I P B. unfold is_explored_better in B.
  destruct (find ex (el_state top)) as [[c1 b1]|] eqn:F; [|discriminate]. apply (cl_geb _ L) in B.
  assert (forall e, In e rest -> In e q) as Hsub.
  { intros e He. apply (Permutation_in e (Permutation_sym P)). right. exact He. }
  assert (forall s c, covered q ex s c -> covered rest ex s c) as Hcov.
  { intros s c [(e & He & Es & Hc)|H]; [|right; exact H].
    apply (Permutation_in e P) in He as [<-|He]; [|left; exists e; auto].
    right. exists c1, b1. rewrite <- Es. split; [exact F|]. eapply cl_trans; eauto. }
  constructor.
  - intros e He. apply (inv_elems _ _ _ I). auto.
  - intros HL s c Hm. rewrite HL in Hm. rewrite map_find_erase in Hm by exact eqb_ok.
    destruct (eqb s (el_state top)) eqn:E; [discriminate|]. apply (eqb_false eqb eqb_ok) in E.
    destruct (inv_members _ _ _ I HL s c Hm) as (e & He & Es & Ec).
    apply (Permutation_in e P) in He as [<-|He]; [congruence|]. exists e. auto.
  - apply I.
  - intros s c Hs. apply Hcov. apply (inv_starts _ _ _ I). exact Hs.
  - intros n c b t w Hn Hc. apply Hcov. eapply (inv_closed _ _ _ I); eauto.
  - apply I.
  - intros e He. apply (inv_real _ _ _ I). auto.
Qed.

(** Entering the popped entry in the explored list. *)
Section Expand.
Variables (q : list elem) (m : list (T * C)) (ex : explored_list T C) (top : elem) (rest : list elem).
Hypothesis I : Inv q m ex.
Hypothesis P : Permutation q (top :: rest).
Hypothesis B : is_explored_better ops eqb ex (el_state top) (el_cost top) = false.
Let ex' := map_put (el_state top) (el_cost top, el_back top) ex.

Lemma old_worse c b : find ex (el_state top) = Some (c, b) -> lt (el_cost top) c.
Proof. intros F. unfold is_explored_better in B. rewrite F in B. apply (geb_false ops L), B. Qed.

Lemma find_new s : find ex' s = if eqb s (el_state top) then Some (el_cost top, el_back top) else find ex s.
Proof. reflexivity. Qed.

(** explored costs only go down *)
Lemma find_down s c b : find ex s = Some (c, b) -> exists c' b', find ex' s = Some (c', b') /\ le c' c.
Proof.
  intros F. rewrite find_new. destruct (eqb s (el_state top)) eqn:E.
  - apply eqb_ok in E. subst s. do 2 eexists. split; [reflexivity|]. apply (lt_le ops L), (old_worse _ _ F).
  - exists c, b. split; [exact F|apply cl_refl, L].
Qed.

Lemma origin_down s c b : origin ex s c b -> origin ex' s c b.
Proof.
  intros [H0 H]. split; [exact H0|]. destruct b as [p|]; [|exact H].
  destruct H as (c0 & w & c1 & b1 & H1 & H2 & H3 & H4 & H5).
  destruct (find_down p c1 b1 H4) as (c1' & b1' & F & Hle).
  exists c0, w, c1', b1'. repeat split; auto. eapply cl_trans; eauto.
Qed.

Lemma rank_new s : rank s ex' = if eqb s (el_state top) then S (length ex) else rank s ex.
Proof. reflexivity. Qed.

Lemma top_ok : elem_ok ex top.
Proof. apply (inv_elems _ _ _ I). apply (Permutation_in top (Permutation_sym P)). left. reflexivity. Qed.

Lemma expand_explored : explored_ok ex'.
Proof.
  intros n c b F. rewrite find_new in F. destruct (eqb n (el_state top)) eqn:E.
  - apply eqb_ok in E. subst n. injection F as <- <-. pose proof (proj1 top_ok) as O.
    split; [apply origin_down, O|]. intros p c1 b1 Hb F.
    rewrite find_new in F. destruct (eqb p (el_state top)) eqn:E.
    + (* the entry would be its own parent *)
      exfalso. apply eqb_ok in E. subst p. rewrite Hb in O.
      destruct O as (_ & c0 & w & cx & bx & Hc & Ec & H0 & Fx & Hle).
      pose proof (old_worse _ _ Fx) as Hlt. apply (lt_irrefl ops L (el_cost top)).
      eapply lt_le_trans; [exact L|exact Hlt|]. eapply cl_trans; [exact L|exact Hle|].
      rewrite Ec. apply cl_infl; [exact L|]. eapply (proj2 CO), Hc.
    + rewrite Hb in O. destruct O as (_ & c0 & w & cx & bx & Hc & Ec & H0 & Fx & Hle).
      rewrite Fx in F. injection F as <- <-. right. split.
      * eapply cl_trans; [exact L|exact Hle|]. rewrite Ec. apply cl_infl; [exact L|]. eapply (proj2 CO), Hc.
      * rewrite !rank_new, E, (eqb_refl' eqb eqb_ok). pose proof (rank_le p ex). lia.
  - destruct (inv_explored _ _ _ I n c b F) as (O & HB).
    split; [apply origin_down, O|]. intros p c1 b1 -> F1.
    destruct O as (_ & c0 & w & cx & bx & Hc & Ec & H0 & Fx & Hle).
    specialize (HB p cx bx eq_refl Fx).
    rewrite find_new in F1. destruct (eqb p (el_state top)) eqn:Ep.
    + apply eqb_ok in Ep. subst p. injection F1 as <- <-. left.
      eapply lt_le_trans; [exact L|exact (old_worse _ _ Fx)|]. destruct HB as [HB|[HB _]]; [apply (lt_le ops L), HB|exact HB].
    + rewrite Fx in F1. injection F1 as <- <-. destruct HB as [HB|[HB1 HB2]]; [left; exact HB|].
      right. split; [exact HB1|]. rewrite !rank_new, E, Ep. exact HB2.
Qed.

Lemma expand_cov s c : covered q ex s c -> covered rest ex' s c.
Proof.
  intros [(e & He & Es & Hc)|(c1 & b1 & F & Hc)].
  - apply (Permutation_in e P) in He as [<-|He]; [|left; exists e; auto].
    right. exists (el_cost top), (el_back top). rewrite <- Es. rewrite find_new, (eqb_refl' eqb eqb_ok). auto.
  - right. destruct (find_down s c1 b1 F) as (c' & b' & F' & Hle). exists c', b'. split; [exact F'|].
    eapply cl_trans; eauto.
Qed.

Hypothesis G : goal (el_state top) = false.
Variable cs : list (T * C).
Hypothesis HC : children (el_state top) = Ok cs.

(** State of the children loop after the children [pre]. *)
Record ExpInv (pre : list (T * C)) (q1 : list elem) (m1 : list (T * C)) : Prop := mkExp {
  ei_elems : forall e, In e q1 -> elem_ok ex' e;
  ei_members : limit = true -> forall s c, map_find eqb s m1 = Some c ->
    exists e, In e q1 /\ el_state e = s /\ el_cost e = c;
  ei_rest : incl rest q1;
  ei_pre : forall t w, In (t, w) pre -> covered q1 ex' t (cadd ops (el_cost top) w);
  ei_new : forall e, In e q1 -> In e rest \/ (exists t w, In (t, w) pre /\
    e = mkElem t (cadd ops (el_cost top) w)
          (cadd ops (cadd ops (el_cost top) w) (heuristic t)) (Some (el_state top)) /\
    is_explored_better ops eqb ex' t (cadd ops (el_cost top) w) = false);
  ei_len : length q1 <= length rest + length pre;
  ei_real : forall e, In e q1 -> realised (el_state e) (el_cost e) }.

Lemma exp_init : ExpInv [] rest (if limit then map_erase eqb (el_state top) m else m).
Proof.
  constructor.
  - intros e He. destruct (inv_elems _ _ _ I e) as [O Hv].
    + apply (Permutation_in e (Permutation_sym P)). right. exact He.
    + split; [apply origin_down, O|exact Hv].
  - intros HL s c Hm. rewrite HL in Hm. rewrite map_find_erase in Hm by exact eqb_ok.
    destruct (eqb s (el_state top)) eqn:E; [discriminate|]. apply (eqb_false eqb eqb_ok) in E.
    destruct (inv_members _ _ _ I HL s c Hm) as (e & He & Es & Ec).
    apply (Permutation_in e P) in He as [<-|He]; [congruence|]. exists e. auto.
  - intros e He. exact He.
  - intros t w [].
  - auto.
  - simpl. lia.
  - intros e He. apply (inv_real _ _ _ I). apply (Permutation_in e (Permutation_sym P)). right. exact He.
Qed.

Lemma exp_step pre t w q1 m1 : In (t, w) cs -> ExpInv pre q1 m1 ->
  let (q2, m2) := push_child ops eqb limit heuristic ex' top (q1, m1) (t, w) in
  ExpInv (pre ++ [(t, w)]) q2 m2.
Proof.
  intros Hin E. unfold push_child. simpl fst. simpl snd.
  set (cost := cadd ops (el_cost top) w).
  assert (child (el_state top) t w) as Hch by (exists cs; auto).
  assert (le ZERO (el_cost top)) as Hz by apply top_ok.
  assert (le ZERO w) as Hw by (eapply (proj2 CO), Hch).
  assert (forall q2, (forall e, In e q1 -> In e q2) ->
    forall t' w', In (t', w') pre -> covered q2 ex' t' (cadd ops (el_cost top) w')) as Hpre.
  { intros q2 Hs t' w' H. eapply covered_mono; [|apply cl_refl, L|apply (ei_pre _ _ _ E), H]. exact Hs. }
  destruct (is_explored_better ops eqb ex' t cost) eqn:EB; [|destruct (is_queue_better ops eqb limit m1 t cost) eqn:QB].
  - constructor; try apply E.
    + intros t' w' H. apply in_app_iff in H as [H|[H|[]]]; [apply (ei_pre _ _ _ E), H|].
      injection H as <- <-. right. unfold is_explored_better in EB.
      destruct (find ex' t) as [[c b]|] eqn:F; [|discriminate]. exists c, b. split; [reflexivity|].
      apply (cl_geb _ L). exact EB.
    + intros e He. destruct (ei_new _ _ _ E e He) as [X|(t' & w' & X & Y)]; [auto|].
      right. exists t', w'. split; [apply in_app_iff; auto|exact Y].
    + pose proof (ei_len _ _ _ E). rewrite app_length. simpl. lia.
  - constructor; try apply E.
    + intros t' w' H. apply in_app_iff in H as [H|[H|[]]]; [apply (ei_pre _ _ _ E), H|].
      injection H as <- <-. left. unfold is_queue_better in QB. destruct limit eqn:HLim; [|discriminate].
      destruct (map_find eqb t m1) as [cm|] eqn:F; [|discriminate].
      destruct (ei_members _ _ _ E HLim t cm F) as (e & He & Es & Ec). exists e.
      split; [exact He|]. split; [exact Es|]. rewrite Ec. apply (cl_geb _ L). exact QB.
    + intros e He. destruct (ei_new _ _ _ E e He) as [X|(t' & w' & X & Y)]; [auto|].
      right. exists t', w'. split; [apply in_app_iff; auto|exact Y].
    + pose proof (ei_len _ _ _ E). rewrite app_length. simpl. lia.
  - set (e0 := mkElem t cost (cadd ops cost (heuristic t)) (Some (el_state top))). constructor.
    + intros e He. apply in_app_iff in He as [He|[<-|[]]]; [apply (ei_elems _ _ _ E), He|].
      split; [|reflexivity]. split; [eapply cl_trans; [exact L|exact Hz|]; apply cl_infl; assumption|].
      cbn [e0 el_back el_cost el_state]. exists (el_cost top), w, (el_cost top), (el_back top).
      split; [exact Hch|]. split; [reflexivity|]. split; [exact Hz|]. split; [|apply cl_refl, L].
      rewrite find_new, (eqb_refl' eqb eqb_ok). reflexivity.
    + intros HL s c F. rewrite HL in F. rewrite map_find_put in F. destruct (eqb s t) eqn:E1.
      * apply eqb_ok in E1. subst s. injection F as <-. exists e0. split; [apply in_app_iff; right; left; reflexivity|auto].
      * destruct (ei_members _ _ _ E HL s c F) as (e & He & X). exists e. split; [apply in_app_iff; auto|exact X].
    + intros e He. apply in_app_iff. left. apply (ei_rest _ _ _ E), He.
    + intros t' w' H. apply in_app_iff in H as [H|[H|[]]].
      * apply Hpre; [|exact H]. intros e He. apply in_app_iff. auto.
      * injection H as <- <-. left. exists e0. split; [apply in_app_iff; right; left; reflexivity|].
        split; [reflexivity|apply cl_refl, L].
    + intros e He. apply in_app_iff in He as [He|[<-|[]]].
      * destruct (ei_new _ _ _ E e He) as [X|(t' & w' & X & Y)]; [auto|].
        right. exists t', w'. split; [apply in_app_iff; auto|exact Y].
      * right. exists t, w. split; [apply in_app_iff; right; left; reflexivity|]. split; [reflexivity|exact EB].
    + pose proof (ei_len _ _ _ E). rewrite !app_length. simpl. lia.
    + intros e He. apply in_app_iff in He as [He|[<-|[]]]; [apply (ei_real _ _ _ E), He|].
      destruct (inv_real _ _ _ I top) as (s0 & c0 & l0 & H0 & W0).
      { apply (Permutation_in top (Permutation_sym P)). left. reflexivity. }
      exists s0, c0, (l0 ++ [t]). split; [exact H0|]. eapply walk_snoc; eauto.
Qed.

Lemma exp_fold l : forall pre q1 m1, cs = pre ++ l -> ExpInv pre q1 m1 ->
  let (q2, m2) := fold_left (push_child ops eqb limit heuristic ex' top) l (q1, m1) in
  ExpInv cs q2 m2.
Proof.
  induction l as [|[t w] l IH]; intros pre q1 m1 Ecs E.
  - simpl. rewrite app_nil_r in Ecs. rewrite Ecs. exact E.
  - cbn [fold_left]. pose proof (exp_step pre t w q1 m1) as S.
    destruct (push_child ops eqb limit heuristic ex' top (q1, m1) (t, w)) as [q2 m2].
    apply (IH (pre ++ [(t, w)])).
    + rewrite <- app_assoc. exact Ecs.
    + apply S; [|exact E]. rewrite Ecs. apply in_app_iff. right. left. reflexivity.
Qed.

Lemma expand_inv q2 m2 : ExpInv cs q2 m2 -> Inv q2 m2 ex'.
Proof.
  intros E. constructor.
  - apply E.
  - apply E.
  - apply expand_explored.
  - intros s c Hs. eapply covered_mono; [apply (ei_rest _ _ _ E)|apply cl_refl, L|].
    apply expand_cov. apply (inv_starts _ _ _ I). exact Hs.
  - intros n c b t w F Hc. rewrite find_new in F. destruct (eqb n (el_state top)) eqn:En.
    + apply eqb_ok in En. subst n. injection F as <- <-. destruct Hc as (cs' & Ecs & Hin).
      rewrite HC in Ecs. injection Ecs as <-. apply (ei_pre _ _ _ E). exact Hin.
    + eapply covered_mono; [apply (ei_rest _ _ _ E)|apply cl_refl, L|].
      apply expand_cov. eapply (inv_closed _ _ _ I); eauto.
  - intros n x F. rewrite find_new in F. destruct (eqb n (el_state top)) eqn:En.
    + apply eqb_ok in En. subst n. exact G.
    + eapply (inv_nogoal _ _ _ I); eauto.
  - apply E.
Qed.

End Expand.

Variable pick : picker elem.
Hypothesis VP : valid_pick ops (@el_value T C) pick.

(** What the loop returns. *)
Inductive loop_post : outcome (option T * explored_list T C) -> Prop :=
| post_diverge : loop_post Diverge
| post_throw s c e : realised s c -> children s = Throw e -> loop_post (Throw e)
| post_ub s c : realised s c -> children s = UB -> loop_post UB
| post_div s c : realised s c -> children s = Diverge -> loop_post Diverge
| post_none m ex : Inv [] m ex -> loop_post (Ok (None, ex))
| post_some q m ex top rest : Inv q m ex -> Permutation q (top :: rest) ->
    (forall e, In e q -> le (el_value top) (el_value e)) ->
    is_explored_better ops eqb ex (el_state top) (el_cost top) = false ->
    goal (el_state top) = true ->
    loop_post (Ok (Some (el_state top), map_put (el_state top) (el_cost top, el_back top) ex)).

Lemma astar_loop_post fuel : forall k q m ex, Inv q m ex ->
  loop_post (astar_loop ops eqb goal children heuristic limit pick fuel k q m ex).
Proof.
  induction fuel as [|fuel IH]; intros k q m ex I.
  - destruct q as [|e0 q0]; simpl; [apply (post_none m), I|constructor].
  - destruct q as [|e0 q0] eqn:Eq; [simpl; apply (post_none m), I|]. rewrite <- Eq in *.
    destruct (pq_pop_spec ops (@el_value T C) pick k q VP) as (top & rest & Ep & P & M); [congruence|].
    cbn [astar_loop]. rewrite Eq at 1. rewrite Ep. cbn [bind].
    destruct (is_explored_better ops eqb ex (el_state top) (el_cost top)) eqn:EB.
    + apply IH. apply (skip_inv q m ex top rest); assumption.
    + assert (realised (el_state top) (el_cost top)) as RT.
      { apply (inv_real _ _ _ I). apply (Permutation_in top (Permutation_sym P)). left. reflexivity. }
      destruct (goal (el_state top)) eqn:G.
      * apply (post_some q m ex top rest); assumption.
      * destruct (children (el_state top)) as [cs|x| |] eqn:HC; cbn [bind].
        -- pose proof (exp_fold q m ex top rest I P EB G cs HC cs [] rest _ eq_refl (exp_init q m ex top rest I P EB G)) as F.
           destruct (fold_left _ cs (rest, _)) as [q2 m2]. apply IH.
           apply (expand_inv q m ex top rest I P EB G cs HC). exact F.
        -- eapply post_throw; eauto.
        -- eapply post_ub; eauto.
        -- eapply post_div; eauto.
Qed.

(** *** Path extraction *)

Lemma below_trans ex a ca b cb n cn : below ex a ca b cb -> below ex b cb n cn -> below ex a ca n cn.
Proof.
  intros [H1|[H1 R1]] [H2|[H2 R2]].
  - left. eapply lt_le_trans; [exact L|exact H1|apply (lt_le ops L), H2].
  - left. eapply lt_le_trans; eauto.
  - left. eapply le_lt_trans; eauto.
  - right. split; [eapply cl_trans; eauto|lia].
Qed.

Lemma below_irrefl ex a ca : ~ below ex a ca a ca.
Proof. intros [H|[_ H]]; [apply (lt_irrefl ops L _ H)|lia]. Qed.

Lemma back_track_spec ex : explored_ok ex -> forall fuel vis acc n c b,
  find ex n = Some (c, b) ->
  NoDup (n :: vis) -> incl (n :: vis) (map fst ex) ->
  (forall v, In v vis -> exists cv bv, find ex v = Some (cv, bv) /\ below ex n c v cv) ->
  length ex < fuel + S (length vis) ->
  exists l s c0 d, back_track eqb ex fuel acc b = Ok (acc ++ l) /\ In (s, c0) starts /\
    walk ops child s c0 (rev l ++ [n]) n d /\ le d c.
Proof.
  intros EX. induction fuel as [|fuel IH]; intros vis acc n c b F ND IN BV LF.
  - exfalso. pose proof (NoDup_incl_length ND IN) as H. rewrite map_length in H. simpl in H. lia.
  - destruct (EX n c b F) as (O & HB). destruct b as [p|]; cbn [back_track].
    + destruct O as (_ & c1 & w & cp & bp & Hch & Ec & Hz & Fp & Hle).
      pose proof (HB p cp bp eq_refl Fp) as Hb. rewrite Fp.
      destruct (IH (n :: vis) (acc ++ [p]) p cp bp Fp) as (l & s & c0 & d & E & Hs & Hw & Hd).
      * constructor; [|exact ND]. intros [E|Hv].
        -- subst p. rewrite F in Fp. injection Fp as <- <-. apply (below_irrefl ex n c Hb).
        -- destruct (BV p Hv) as (cv & bv & Fv & Bv). rewrite Fp in Fv. injection Fv as <- <-.
           apply (below_irrefl ex p cp). eapply below_trans; eauto.
      * intros x [<-|Hx]; [|apply IN, Hx]. eapply (map_find_in eqb eqb_ok), Fp.
      * intros v [<-|Hv]; [exists c, (Some p); auto|]. destruct (BV v Hv) as (cv & bv & Fv & Bv).
        exists cv, bv. split; [exact Fv|]. eapply below_trans; eauto.
      * simpl. simpl in LF. lia.
      * exists (p :: l), s, c0, (cadd ops d w). rewrite E. split; [rewrite <- app_assoc; reflexivity|].
        split; [exact Hs|]. split.
        -- simpl. apply (walk_snoc ops child s c0 (rev l ++ [p]) p d n w); assumption.
        -- rewrite Ec. apply cl_mono; [exact L|]. eapply cl_trans; eauto.
    + exists [], n, c, c. rewrite app_nil_r. split; [reflexivity|]. split; [apply O|].
      split; [constructor|apply cl_refl, L].
Qed.

Lemma extract_spec ex g c b : explored_ok ex -> find ex g = Some (c, b) ->
  exists path s c0 d, In (s, c0) starts /\ walk ops child s c0 path g d /\ le d c /\ path <> [] /\
    ExtractAstarResult ops eqb ex (S (length ex)) g = MakeAstarResult ops path c.
Proof.
  intros EX F. unfold ExtractAstarResult. rewrite F.
  destruct (back_track_spec ex EX (S (length ex)) [] [g] g c b F) as (l & s & c0 & d & E & Hs & Hw & Hd).
  - constructor; [intros []|constructor].
  - intros x [<-|[]]. eapply (map_find_in eqb eqb_ok), F.
  - intros v [].
  - simpl. lia.
  - rewrite E. cbn [bind]. exists (rev ([g] ++ l)), s, c0, d. split; [exact Hs|]. split; [exact Hw|].
    split; [exact Hd|]. split; [|reflexivity]. simpl. intros E'. apply app_eq_nil in E' as [_ E']. discriminate.
Qed.

(** *** Optimality and completeness *)

Lemma covered_walk q m ex s c l g d : Inv q m ex -> le ZERO c -> covered q ex s c ->
  walk ops child s c l g d ->
  (exists e cx l', In e q /\ le ZERO cx /\ le (el_cost e) cx /\ walk ops child (el_state e) cx l' g d) \/
  (exists c1 b, find ex g = Some (c1, b) /\ le c1 d).
Proof.
  intros I Hz Hc W. revert Hz Hc. induction W as [s c|s c n w l t d Hs Hw IH]; intros Hz Hc.
  - destruct Hc as [(e & He & Es & Hle)|H]; [|right; exact H].
    left. exists e, c, [s]. split; [exact He|]. split; [exact Hz|]. split; [exact Hle|]. rewrite Es. constructor.
  - destruct Hc as [(e & He & Es & Hle)|(c1 & b & F & Hle)].
    + left. exists e, c, (s :: l). split; [exact He|]. split; [exact Hz|]. split; [exact Hle|].
      rewrite Es. eapply walk_on; eauto.
    + apply IH.
      * eapply cl_trans; [exact L|exact Hz|]. apply cl_infl; [exact L|]. eapply (proj2 CO), Hs.
      * eapply covered_mono; [apply incl_refl| |eapply (inv_closed _ _ _ I); eauto]. apply cl_mono; assumption.
Qed.

Lemma none_no_route m ex path d : Inv [] m ex -> ~ route ops children starts goal path d.
Proof.
  intros I (s & c & g & Hs & Hg & W).
  destruct (covered_walk [] m ex s c path g d I) as [(e & cx & l' & [] & _)|(c1 & b & F & _)]; auto.
  - apply (proj1 CO s c Hs).
  - apply (inv_starts _ _ _ I). exact Hs.
  - apply (inv_nogoal _ _ _ I) in F. congruence.
Qed.

Lemma pop_optimal q m ex top path d :
  admissible ops children goal heuristic ->
  Inv q m ex -> In top q ->
  (forall e, In e q -> le (el_value top) (el_value e)) ->
  goal (el_state top) = true -> (forall s c, In (s, c) starts -> goal s = false) ->
  route ops children starts goal path d -> le (el_cost top) d.
Proof.
  intros [A1 A2] I Ht M G NG (s & c & g & Hs & Hg & W).
  destruct (covered_walk q m ex s c path g d I) as [(e & cx & l' & He & Hz & Hle & W')|(c1 & b & F & _)]; auto.
  - apply (proj1 CO s c Hs).
  - apply (inv_starts _ _ _ I). exact Hs.
  - assert (le (el_cost top) (el_value top)) as H1.
    { destruct (inv_elems _ _ _ I top Ht) as [[_ O] V]. destruct (el_back top).
      - rewrite V. apply cl_infl; [exact L|]. apply A2, G.
      - exfalso. rewrite (NG _ _ O) in G. discriminate. }
    assert (le (el_value e) d) as H2.
    { assert (le (cadd ops (el_cost e) (heuristic (el_state e))) d) as H2.
      { eapply cl_trans; [exact L| |eapply A1; eauto]. apply cl_mono; assumption. }
      destruct (inv_elems _ _ _ I e He) as [[Ez _] V]. destruct (el_back e); rewrite V; [exact H2|].
      eapply cl_trans; [exact L|apply cl_infl_l; [exact L|exact Ez]|exact H2]. }
    eapply cl_trans; [exact L|exact H1|]. eapply cl_trans; [exact L|apply M, He|exact H2].
  - apply (inv_nogoal _ _ _ I) in F. congruence.
Qed.

(** *** Termination *)
Section Termination.
Variables (space : list T) (branching : nat).
Hypothesis FS : finite_space children starts space.
Hypothesis BR : forall s cs, In s space -> children s = Ok cs -> length cs <= branching.

Definition lineage (ex : explored_list T C) (e : elem) (l : list T) : Prop :=
  In (el_state e) space /\ NoDup l /\ incl l space /\
  forall x, In x l -> exists c b, find ex x = Some (c, b) /\ le c (el_cost e).

Definition weigh (ls : list (list T)) : nat :=
  list_sum (map (fun l => (branching + 1) ^ (length space - length l)) ls).

Lemma weight_pos (l : list T) : 1 <= (branching + 1) ^ (length space - length l).
Proof. pose proof (Nat.pow_nonzero (branching + 1) (length space - length l)). lia. Qed.

Lemma Forall2_perm_l {A B} (R : A -> B -> Prop) l l' ls : Permutation l l' -> Forall2 R l ls ->
  exists ls', Permutation ls ls' /\ Forall2 R l' ls'.
Proof.
  intros P. revert ls. induction P as [|x l l' P IH|x y l|l l' l'' P1 IH1 P2 IH2]; intros ls F.
  - exists ls. split; [reflexivity|exact F].
  - inversion F as [|? b ? bs H1 H2]; subst. destruct (IH bs H2) as (bs' & Pb & Fb).
    exists (b :: bs'). split; [apply perm_skip, Pb|constructor; assumption].
  - inversion F as [|? b ? bs H1 H2]; subst. inversion H2 as [|? b' ? bs' H3 H4]; subst.
    exists (b' :: b :: bs'). split; [apply perm_swap|]. constructor; [exact H3|]. constructor; assumption.
  - destruct (IH1 ls F) as (l1 & Pa & Fa). destruct (IH2 l1 Fa) as (l2 & Pb & Fb).
    exists l2. split; [etransitivity; eauto|exact Fb].
Qed.

Lemma list_sum_perm l l' : Permutation l l' -> list_sum l = list_sum l'.
Proof. induction 1; simpl; lia. Qed.

Lemma weigh_perm l l' : Permutation l l' -> weigh l = weigh l'.
Proof. intros P. apply list_sum_perm, Permutation_map, P. Qed.

Lemma lineage_down ex top e l :
  is_explored_better ops eqb ex (el_state top) (el_cost top) = false ->
  lineage ex e l -> lineage (map_put (el_state top) (el_cost top, el_back top) ex) e l.
Proof.
  intros B (H1 & H2 & H3 & H4). repeat split; auto. intros x Hx. destruct (H4 x Hx) as (c & b & F & Hle).
  destruct (find_down ex top B x c b F) as (c' & b' & F' & Hle'). exists c', b'.
  split; [exact F'|]. eapply cl_trans; eauto.
Qed.

(** The children loop leaves weights: at most one new entry per child. *)
Lemma push_lineage ex' top l' cs :
  In (el_state top) space -> children (el_state top) = Ok cs ->
  le ZERO (el_cost top) ->
  NoDup l' -> incl l' space ->
  (forall x, In x l' -> exists c b, find ex' x = Some (c, b) /\ le c (el_cost top)) ->
  forall l q1 m1 ls, (forall x, In x l -> In x cs) -> Forall2 (lineage ex') q1 ls ->
  exists ls', Forall2 (lineage ex') (fst (fold_left (push_child ops eqb limit heuristic ex' top) l (q1, m1))) ls' /\
    weigh ls' <= weigh ls + length l * (branching + 1) ^ (length space - length l').
Proof.
  intros Hs HC Hz ND IN HF. induction l as [|[t w] l IH]; intros q1 m1 ls Hl F.
  - exists ls. split; [exact F|]. simpl. lia.
  - cbn [fold_left]. assert (forall x, In x l -> In x cs) as Hl' by (intros x Hx; apply Hl; right; exact Hx).
    unfold push_child at 2. cbn [fst snd].
    assert (child (el_state top) t w) as Hch by (exists cs; split; [exact HC|apply Hl; left; reflexivity]).
    destruct (is_explored_better ops eqb ex' t (cadd ops (el_cost top) w)).
    { destruct (IH q1 m1 ls Hl' F) as (ls' & F' & W). exists ls'. split; [exact F'|]. simpl. lia. }
    destruct (is_queue_better ops eqb limit m1 t (cadd ops (el_cost top) w)).
    { destruct (IH q1 m1 ls Hl' F) as (ls' & F' & W). exists ls'. split; [exact F'|]. simpl. lia. }
    destruct (IH (q1 ++ [mkElem t (cadd ops (el_cost top) w)
        (cadd ops (cadd ops (el_cost top) w) (heuristic t)) (Some (el_state top))])
      (if limit then map_put t (cadd ops (el_cost top) w) m1 else m1) (ls ++ [l']) Hl') as (ls' & F' & W).
    + apply Forall2_app; [exact F|]. constructor; [|constructor]. split; [|split; [exact ND|split; [exact IN|]]].
      * cbn [el_state]. eapply (proj2 FS); eauto.
      * intros x Hx. destruct (HF x Hx) as (c & b & Fx & Hle). exists c, b. split; [exact Fx|].
        eapply cl_trans; [exact L|exact Hle|]. cbn [el_cost]. apply cl_infl; [exact L|]. eapply (proj2 CO), Hch.
    + exists ls'. split; [exact F'|]. unfold weigh in *. rewrite map_app, list_sum_app in W. simpl in W |- *. lia.
Qed.

Lemma astar_loop_terminates fuel : forall k q m ex ls, Inv q m ex -> Forall2 (lineage ex) q ls ->
  weigh ls <= fuel -> (forall s, In s space -> children s <> Diverge) ->
  astar_loop ops eqb goal children heuristic limit pick fuel k q m ex <> Diverge.
Proof.
  induction fuel as [|fuel IH]; intros k q m ex ls I F W ND.
  - destruct q as [|e q]; [discriminate|]. exfalso. inversion F as [|? l ? ls' H1 H2]; subst.
    unfold weigh in W. simpl in W. pose proof (weight_pos l). lia.
  - destruct q as [|e0 q0] eqn:Eq; [discriminate|]. rewrite <- Eq in *.
    destruct (pq_pop_spec ops (@el_value T C) pick k q VP) as (top & rest & Ep & P & M); [congruence|].
    destruct (Forall2_perm_l _ _ _ _ P F) as (ls' & PL & F'). inversion F' as [|? lt ? lr HT HR]; subst ls' x l.
    rewrite (weigh_perm _ _ PL) in W. unfold weigh in W. simpl in W. fold (weigh lr) in W.
    pose proof (weight_pos lt) as Wp.
    cbn [astar_loop]. rewrite Eq at 1. rewrite Ep. cbn [bind].
    destruct (is_explored_better ops eqb ex (el_state top) (el_cost top)) eqn:EB.
    + apply (IH _ _ _ _ lr); [apply (skip_inv q m ex top rest); assumption|exact HR|lia|exact ND].
    + destruct (goal (el_state top)) eqn:G; [discriminate|].
      destruct (children (el_state top)) as [cs|x| |] eqn:HC; cbn [bind]; try discriminate; [|exfalso; eapply ND; [exact (proj1 HT)|exact HC]].
      pose proof (exp_fold q m ex top rest I P EB G cs HC cs [] rest _ eq_refl (exp_init q m ex top rest I P EB G)) as E.
      destruct HT as (HS & HN & HI & HX).
      assert (~ In (el_state top) lt) as Hnt.
      { intros C1. destruct (HX _ C1) as (c & b & Fc & Hle). pose proof (old_worse ex top EB c b Fc) as Hlt.
        apply (lt_irrefl ops L c). eapply le_lt_trans; eauto. }
      destruct (push_lineage (map_put (el_state top) (el_cost top, el_back top) ex) top (el_state top :: lt) cs)
        with (l := cs) (q1 := rest) (m1 := if limit then map_erase eqb (el_state top) m else m) (ls := lr)
        as (ls2 & F2 & W2).
      * exact HS.
      * exact HC.
      * apply (top_ok q m ex top rest I P).
      * constructor; assumption.
      * intros y [<-|Hy]; [exact HS|apply HI, Hy].
      * intros y [<-|Hy].
        -- exists (el_cost top), (el_back top). split; [|apply cl_refl, L].
           rewrite map_find_put, (eqb_refl' eqb eqb_ok). reflexivity.
        -- destruct (HX y Hy) as (c & b & Fc & Hle).
           destruct (find_down ex top EB y c b Fc) as (c' & b' & F1 & Hle'). exists c', b'.
           split; [exact F1|]. eapply cl_trans; eauto.
      * auto.
      * clear - HR EB eqb_ok L. induction HR; constructor; auto. apply lineage_down; assumption.
      * destruct (fold_left _ cs (rest, _)) as [q2 m2]. cbn [fst] in F2.
        apply (IH _ _ _ _ ls2); [|exact F2| |exact ND].
        -- apply (expand_inv q m ex top rest I P EB G cs HC). exact E.
        -- assert (length (el_state top :: lt) <= length space) as Hlen.
           { apply NoDup_incl_length; [constructor; assumption|]. intros y [<-|Hy]; [exact HS|apply HI, Hy]. }
           simpl in Hlen, W2. pose proof (BR _ _ HS HC) as Hb.
           remember (length space - S (length lt)) as dd.
           replace (length space - length lt) with (S dd) in W by lia. rewrite Nat.pow_succ_r' in W.
           pose proof (Nat.pow_nonzero (branching + 1) dd) as Hp. nia.
Qed.

Lemma start_lineage q m : Inv q m [] -> (forall e, In e q -> el_back e = None) ->
  Forall2 (lineage []) q (map (fun _ => []) q).
Proof.
  intros I H. assert (forall e, In e q -> lineage [] e []) as G.
  { intros e He. split; [|split; [constructor|split; [intros x []|intros x []]]].
    destruct (inv_elems _ _ _ I e He) as [[_ O] _]. rewrite (H e He) in O. eapply (proj1 FS), O. }
  clear - G. induction q as [|e q IH]; constructor; auto.
  - apply G. left. reflexivity.
  - apply IH. intros x Hx. apply G. right. exact Hx.
Qed.
End Termination.

End Astar.
