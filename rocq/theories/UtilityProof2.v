(** Proofs for UtilityModel2.v. *)
From Coq Require Import ZArith Lia List.
From Verif Require Import Base UtilityModel UtilitySpec UtilityProof UtilityModel2 UtilitySpec2.

(** ** Maps *)
Section M.
Context {K V : Type}.
Variable ltb : K -> K -> bool.
Hypothesis SWO : strict_weak_order ltb.
Notation eqv := (equivalent ltb).
Implicit Types m : list (K * V).

Lemma fold_app {A B} (f : A -> B) l acc : fold_left (fun r x => r ++ [f x]) l acc = acc ++ map f l.
Proof. revert acc. induction l as [|x l IH]; intros acc; cbn [fold_left map]; [rewrite app_nil_r; reflexivity|]. rewrite IH, <- app_assoc. reflexivity. Qed.
Lemma keys_map m : GetKeysFromMapLike m = map fst m. Proof. unfold GetKeysFromMapLike. rewrite (fold_app fst m []). reflexivity. Qed.
Lemma pairs_map m : GetKeysAndValues m = m. Proof. unfold GetKeysAndValues. rewrite (fold_app (fun x => x) m []), map_id. reflexivity. Qed.

(** < respects equality of keys. *)
Lemma lt_eqv a b c : ltb a b = true -> same_key ltb b c -> ltb a c = true.
Proof.
  intros H [E1 E2]. destruct (ltb a c) eqn:AC; [reflexivity|]. destruct (ltb c a) eqn:CA.
  - rewrite (swo_trans _ SWO _ _ _ CA H) in E2. discriminate.
  - destruct (swo_incomp _ SWO a c b AC CA E2 E1) as [X _]. congruence.
Qed.
Lemma eqv_lt a b c : same_key ltb a b -> ltb b c = true -> ltb a c = true.
Proof.
  intros [E1 E2] H. destruct (ltb a c) eqn:AC; [reflexivity|]. destruct (ltb c a) eqn:CA.
  - rewrite (swo_trans _ SWO _ _ _ H CA) in E2. discriminate.
  - destruct (swo_incomp _ SWO b a c E2 E1 AC CA) as [X _]. congruence.
Qed.
Lemma same_eqv a b : same_key ltb a b <-> eqv a b = true.
Proof. unfold same_key, equivalent. rewrite Bool.andb_true_iff, !Bool.negb_true_iff. reflexivity. Qed.
Lemma lt_not_eqv a b : ltb a b = true -> eqv a b = false /\ eqv b a = false.
Proof. intros H. unfold equivalent. rewrite H. split; [reflexivity|apply Bool.andb_false_r]. Qed.

Lemma assign_keys m k v x : In x (map fst (map_assign ltb m k v)) -> x = k \/ In x (map fst m).
Proof.
  induction m as [|[k' v'] m IH]; cbn; [intros [->|[]]; auto|]. destruct (ltb k' k); [|destruct (ltb k k')]; cbn; intros [->|H]; auto.
  destruct (IH H); auto.
Qed.
Lemma assign_increasing m k v : increasing ltb (map fst m) -> increasing ltb (map fst (map_assign ltb m k v)).
Proof.
  induction m as [|[k' v'] m IH]; cbn; [auto|]. intros [H1 H2].
  destruct (ltb k' k) eqn:A; [|destruct (ltb k k') eqn:B]; cbn.
  - split; [|auto]. intros x Hx. apply assign_keys in Hx as [->|Hx]; auto.
  - split; [|auto]. intros x [<-|Hx]; [exact B|]. eapply (swo_trans _ SWO); eauto.
  - auto.
Qed.
Lemma find_eqv m a b : eqv a b = true -> map_find ltb m a = map_find ltb m b.
Proof.
  intros E. unfold map_find. induction m as [|[k v] m IH]; cbn [find fst]; [reflexivity|].
  assert (X : eqv k a = eqv k b) by (rewrite (eqv_sym ltb k a), (eqv_sym ltb k b); apply eqv_l; assumption). rewrite X. destruct (eqv k b); [reflexivity|exact IH].
Qed.
Lemma assign_find m k v x : increasing ltb (map fst m) -> map_find ltb (map_assign ltb m k v) x = if eqv k x then Some v else map_find ltb m x.
Proof.
  intros I. induction m as [|[k' v'] m IH]; cbn [map_assign].
  - unfold map_find. cbn [find fst]. destruct (eqv k x); reflexivity.
  - cbn in I. destruct I as [I1 I2]. specialize (IH I2). destruct (ltb k' k) eqn:A; [|destruct (ltb k k') eqn:B].
    + unfold map_find in *. cbn [find fst] in *. destruct (eqv k' x) eqn:E; [|exact IH].
      destruct (eqv k x) eqn:F; [|reflexivity]. exfalso. assert (G : eqv k' k = true) by (eapply eqv_trans; [exact SWO|exact E|rewrite eqv_sym; exact F]).
      destruct (lt_not_eqv _ _ A). congruence.
    + unfold map_find. cbn [find fst]. destruct (eqv k x); reflexivity.
    + assert (G : eqv k' k = true) by (apply same_eqv; split; assumption). unfold map_find. cbn [find fst snd]. rewrite (eqv_l ltb SWO k' k x G).
      destruct (eqv k x); reflexivity.
Qed.
Lemma make_gen kvs m : increasing ltb (map fst m) ->
  let r := fold_left (fun m p => map_assign ltb m (fst p) (snd p)) kvs m in
  increasing ltb (map fst r) /\ forall x, map_find ltb r x = match last_value ltb x kvs with Some v => Some v | None => map_find ltb m x end.
Proof.
  revert m. induction kvs as [|[k v] kvs IH]; intros m I; cbn [fold_left]; [auto|].
  destruct (IH _ (assign_increasing m k v I)) as [I' F]. cbn [fst snd] in *. split; [exact I'|]. intros x. rewrite F. cbn [last_value].
  destruct (last_value ltb x kvs); [reflexivity|]. rewrite assign_find by exact I. rewrite eqv_sym. fold (equivalent ltb x k). destruct (eqv x k); reflexivity.
Qed.
Lemma make_keys kvs m x : In x (map fst (fold_left (fun m p => map_assign ltb m (fst p) (snd p)) kvs m)) -> In x (map fst kvs) \/ In x (map fst m).
Proof.
  revert m. induction kvs as [|[k v] kvs IH]; intros m H; cbn [fold_left map fst snd] in *; [auto|]. destruct (IH _ H) as [I|I]; [left; right; exact I|].
  apply assign_keys in I as [->|I]; [left; left; reflexivity|auto].
Qed.
Lemma find_in m x v : map_find ltb m x = Some v -> exists k, In (k, v) m /\ same_key ltb k x.
Proof.
  unfold map_find. destruct (find _ m) as [[k v']|] eqn:E; [|discriminate]. cbn. intros H. injection H as ->. apply find_some in E as [I E]. exists k. split; [exact I|]. apply same_eqv. exact E.
Qed.
Lemma last_some k (v : V) kvs : In (k, v) kvs -> exists v', last_value ltb k kvs = Some v'.
Proof.
  induction kvs as [|[k' v'] r IH]; [intros []|]. cbn [last_value]. intros [H|H].
  - injection H as -> ->. destruct (last_value ltb k r); eauto. rewrite (swo_irr _ SWO). cbn. eauto.
  - destruct (IH H) as (u & ->). eauto.
Qed.
Lemma assign_last m k v : (forall k', In k' (map fst m) -> ltb k' k = true) -> map_assign ltb m k v = m ++ [(k, v)].
Proof.
  induction m as [|[k' v'] m IH]; intros H; [reflexivity|]. cbn [map_assign app]. rewrite (H k') by (left; reflexivity). rewrite IH; [reflexivity|]. intros; apply H; right; assumption.
Qed.
Lemma increasing_app l k r : increasing ltb (l ++ k :: r) -> (forall x, In x l -> ltb x k = true) /\ increasing ltb ((l ++ [k]) ++ r).
Proof.
  rewrite <- app_assoc. cbn. intros H. split; [|exact H]. induction l as [|a l IH]; cbn in *; [intros ? []|]. destruct H as [H1 H2]. intros x [<-|Hx]; [apply H1, in_or_app; right; left; reflexivity|auto].
Qed.
Lemma make_sorted kvs m : increasing ltb (map fst (m ++ kvs)) -> fold_left (fun m p => map_assign ltb m (fst p) (snd p)) kvs m = m ++ kvs.
Proof.
  revert m. induction kvs as [|[k v] kvs IH]; intros m I; cbn [fold_left fst snd]; [rewrite app_nil_r; reflexivity|].
  rewrite map_app in I. cbn [map fst] in I. destruct (increasing_app _ _ _ I) as [H1 H2].
  rewrite assign_last by exact H1. rewrite IH; [rewrite <- app_assoc; reflexivity|]. rewrite !map_app. exact H2.
Qed.
Lemma make_loop_gen (k1 k2 : list K) (v1 v2 : list V) m : length k1 = length v1 -> length k2 = length v2 ->
  make_loop ltb (k1 ++ k2) (v1 ++ v2) m (seq (length k1) (length k2)) = Ok (fold_left (fun m p => map_assign ltb m (fst p) (snd p)) (combine k2 v2) m).
Proof.
  revert k1 v1 v2 m. induction k2 as [|k k2 IH]; intros k1 v1 v2 m L1 L2; destruct v2 as [|v v2]; try discriminate L2; [reflexivity|].
  cbn [length seq make_loop]. unfold raw_get at 1. rewrite nth_error_app2, Nat.sub_diag by lia. cbn [nth_error bind].
  unfold raw_get. rewrite L1, nth_error_app2, Nat.sub_diag by lia. cbn [nth_error bind combine fold_left fst snd].
  specialize (IH (k1 ++ [k]) (v1 ++ [v]) v2 (map_assign ltb m k v)). rewrite !app_length in IH. cbn [length] in IH. rewrite <- !app_assoc in IH. cbn [app] in IH.
  replace (S (length v1)) with (length k1 + 1) by lia. apply IH; cbn in *; lia.
Qed.
End M.

(** ** Clamping and spreading *)
Section O.
Context {T : Type} (ltb leb : T -> T -> bool).
Hypothesis TO : total_order ltb leb.
Lemma nlt a b : ltb a b = false -> leb b a = true.
Proof. intros H. destruct (leb b a) eqn:E; [reflexivity|]. apply (to_lt _ _ TO) in E. congruence. Qed.
Lemma ltf a b : leb b a = true -> ltb a b = false.
Proof. intros H. destruct (ltb a b) eqn:E; [|reflexivity]. apply (to_lt _ _ TO) in E. congruence. Qed.
Lemma lt_le a b : ltb a b = true -> leb a b = true.
Proof. intros H. apply (to_lt _ _ TO) in H. destruct (to_total _ _ TO a b); congruence. Qed.
Lemma le_refl a : leb a a = true. Proof. destruct (to_total _ _ TO a a); assumption. Qed.
Lemma clamp_gen v lo hi : leb lo hi = true -> exists r, ClampValue ltb (fun a b => leb b a) v lo hi = Ok r /\
  leb lo r = true /\ leb r hi = true /\ (leb lo v = true -> leb v hi = true -> r = v) /\ (ltb v lo = true -> r = lo) /\ (ltb hi v = true -> r = hi).
Proof.
  intros L. unfold ClampValue. rewrite L. destruct (ltb v lo) eqn:A; [|destruct (ltb hi v) eqn:B].
  - exists lo. repeat split; auto using le_refl.
    + intros H. rewrite (ltf _ _ H) in A. discriminate.
    + intros H. exfalso. apply (to_lt _ _ TO) in A. rewrite (to_trans _ _ TO lo hi v L (lt_le _ _ H)) in A. discriminate.
  - exists hi. repeat split; auto using le_refl; [|congruence]. intros _ H. rewrite (ltf _ _ H) in B. discriminate.
  - exists v. repeat split; auto using nlt; congruence.
Qed.
Lemma spread_gen v lo mid hi : leb lo mid = true -> leb mid hi = true -> exists r, SpreadValue ltb leb v lo mid hi = Ok r /\
  (leb r lo = true \/ leb hi r = true) /\ (leb v lo = true -> ltb v mid = true -> r = v) /\ (leb hi v = true -> r = v) /\
  (ltb v hi = true -> leb mid v = true -> r = hi) /\ (ltb lo v = true -> ltb v mid = true -> r = lo).
Proof.
  intros L1 L2. unfold SpreadValue. rewrite L1, L2. cbn [andb]. destruct (leb mid v) eqn:A, (ltb v hi) eqn:B; cbn [andb].
  - exists hi. repeat split; auto using le_refl; intros.
    + rewrite (ltf _ _ A) in *. discriminate.
    + apply (to_lt _ _ TO) in B. congruence.
    + rewrite (ltf _ _ A) in *. discriminate.
  - rewrite (ltf _ _ A). cbn [andb]. exists v. repeat split; auto using nlt; intros; try congruence.
  - assert (C : ltb v mid = true) by (apply (to_lt _ _ TO); exact A). rewrite C. cbn [andb]. destruct (ltb lo v) eqn:D.
    + exists lo. repeat split; auto using le_refl; intros; try congruence.
      * rewrite (ltf _ _ H) in D. discriminate.
      * apply (to_lt _ _ TO) in B. congruence.
    + exists v. repeat split; auto using nlt; congruence.
  - assert (C : ltb v mid = true) by (apply (to_lt _ _ TO); exact A). exfalso. apply nlt in B. rewrite (to_trans _ _ TO _ _ _ L2 B) in A. discriminate.
Qed.
End O.

(** ** Strings *)
Section S.
Context {C : Type} (eqc : C -> C -> bool).
Hypothesis EQC : forall a b, eqc a b = true <-> a = b.
Lemma starts_spec s p : starts_with eqc s p = true <-> exists r, s = p ++ r.
Proof.
  revert s. induction p as [|c p IH]; intros s; cbn [starts_with].
  - split; [exists s; reflexivity|destruct s; reflexivity].
  - destruct s as [|d s]; [split; [discriminate|intros (r & H); discriminate]|]. cbn [starts_with]. rewrite Bool.andb_true_iff, EQC, IH. split.
    + intros [<- (r & ->)]. exists r. reflexivity.
    + intros (r & H). cbn in H. injection H as -> ->. split; [reflexivity|exists r; reflexivity].
Qed.
Lemma find_spec s p : string_find eqc s p <> None <-> exists a b, s = a ++ p ++ b.
Proof.
  induction s as [|c s IH]; cbn [string_find].
  - destruct (starts_with eqc [] p) eqn:E.
    + apply starts_spec in E as (r & E). split; [|discriminate]. intros _. exists [], r. exact E.
    + split; [congruence|]. intros (a & b & H). exfalso. assert (starts_with eqc [] p = true); [|congruence]. apply starts_spec. destruct a; [exists b; exact H|discriminate].
  - destruct (starts_with eqc (c :: s) p) eqn:E.
    + apply starts_spec in E as (r & E). split; [|discriminate]. intros _. exists [], r. exact E.
    + destruct (string_find eqc s p) eqn:F.
      * split; [|discriminate]. intros _. destruct (proj1 IH ltac:(discriminate)) as (a & b & ->). exists (c :: a), b. reflexivity.
      * split; [congruence|]. intros ([|d a] & b & H); exfalso.
        -- assert (starts_with eqc (c :: s) p = true); [|congruence]. apply starts_spec. exists b. exact H.
        -- cbn in H. injection H as -> H. apply (proj2 IH); [exists a, b; exact H|reflexivity].
Qed.
Lemma check_all strings p : CheckAllStringsForSubstring eqc strings p = true <-> Forall (fun s => exists a b, s = a ++ p ++ b) strings.
Proof.
  induction strings as [|s r IH]; cbn [CheckAllStringsForSubstring]; [split; auto|]. rewrite Forall_cons_iff, <- IH, <- find_spec.
  destruct (string_find eqc s p); split; intros H; try discriminate; [split; [discriminate|exact H]|apply H|destruct H; congruence].
Qed.
End S.

(** ** Scope guards *)
Section G.
Context {W : Type}.
Lemma body_guard (f : callback W) body w w' g threw : run_body (Some f) body w = (w', g, threw) -> ~ In Disable body -> g = Some f.
Proof.
  revert w. induction body as [|[|h] r IH]; intros w H N; cbn in H; [congruence|exfalso; apply N; left; reflexivity|].
  destruct (h w) as [w1 [|]]; [congruence|]. eapply IH; [exact H|]. intros I. apply N. right. exact I.
Qed.
(** The state after the body, and whether it threw, do not depend on the guard. *)
Lemma body_same g g' (body : list (step W)) w : let '(w1, _, t1) := run_body g body w in let '(w2, _, t2) := run_body g' body w in w1 = w2 /\ t1 = t2.
Proof.
  revert g g' w. induction body as [|[|h] r IH]; intros g g' w; cbn; [auto|apply (IH None None w)|]. destruct (h w) as [w1 [|]]; [auto|apply IH].
Qed.
Lemma body_disabled (body : list (step W)) w : snd (fst (run_body None body w)) = None.
Proof. revert w. induction body as [|[|h] r IH]; intros w; cbn; auto. destruct (h w) as [w1 [|]]; auto. Qed.
End G.

Section G2.
Context {W : Type}.
Lemma in_dec_disable (body : list (step W)) : In Disable body \/ ~ In Disable body.
Proof. induction body as [|[|f] r [D|D]]; [right; intros []|left; left; reflexivity|left; left; reflexivity|left; right; exact D|right; intros [X|X]; [discriminate|auto]]. Qed.
Lemma body_completes g (body : list (step W)) w w' rest : completes body w w' -> exists g', run_body g (body ++ rest) w = run_body g' rest w' /\
  (In Disable body -> g' = None) /\ (~ In Disable body -> g' = g).
Proof.
  intros H. revert g. induction H as [w|r w w' H IH|f r w w1 w' E H IH]; intros g; cbn [app run_body].
  - exists g. repeat split; auto. intros [].
  - destruct (IH None) as (g' & R & A & B). exists g'. repeat split; [exact R| |intros N; exfalso; apply N; left; reflexivity].
    intros _. destruct (in_dec_disable r) as [D|D]; auto.
  - rewrite E. destruct (IH g) as (g' & R & A & B). exists g'. repeat split; [exact R| |].
    + intros [D|D]; [discriminate|auto].
    + intros N. apply B. intros D. apply N. right. exact D.
Qed.
End G2.

(** ** Atomics *)
Lemma asteps_app s tr1 s1 tr2 s2 : asteps s tr1 s1 -> asteps s1 tr2 s2 -> asteps s (tr1 ++ tr2) s2.
Proof. induction 1; cbn; [auto|]. intros. econstructor; eauto. Qed.
Lemma added_set x threads t p th' : set_nth threads t p = Some th' -> forall q, nth_error threads t = Some q ->
  added_all x th' = (added_all x threads - added x (fst q) + added x (fst p))%Z.
Proof.
  revert t th'. induction threads as [|a l IH]; intros [|t] th' H q N; cbn in *; try discriminate.
  - injection H as <-. injection N as <-. cbn [added_all]. lia.
  - destruct (set_nth l t p) as [l'|] eqn:E; [|discriminate]. injection H as <-. cbn [added_all]. rewrite (IH _ _ E q N). lia.
Qed.
Lemma nth_set_other {A} (l l' : list A) i j v : set_nth l i v = Some l' -> j <> i -> nth_error l' j = nth_error l j.
Proof. revert i j l'. induction l as [|a l IH]; intros [|i] [|j] l' H N; cbn in *; try discriminate; try lia; [injection H as <-; reflexivity|destruct (set_nth l i v); [injection H as <-; reflexivity|discriminate]|].
  destruct (set_nth l i v) as [l''|] eqn:E; [|discriminate]. injection H as <-. cbn. apply (IH i j); auto. Qed.
Lemma nth_set_same {A} (l l' : list A) i v : set_nth l i v = Some l' -> nth_error l' i = Some v.
Proof. revert i l'. induction l as [|a l IH]; intros [|i] l' H; cbn in *; try discriminate; [injection H as <-; reflexivity|]. destruct (set_nth l i v) as [l''|] eqn:E; [|discriminate]. injection H as <-. cbn. auto. Qed.
Lemma wrap_plus a b : wrap64 (wrap64 a + b) = wrap64 (a + b). Proof. unfold wrap64. apply Zplus_mod_idemp_l. Qed.
Lemma wrap_minus a b : wrap64 (wrap64 a - b) = wrap64 (a - b). Proof. unfold wrap64. apply Zminus_mod_idemp_l. Qed.
Lemma counter_step x s t s' v : astep s t s' -> Forall (fun th => Forall (only_adds x) (fst th)) (snd s) -> nth_error (fst s) x = Some v ->
  Forall (fun th => Forall (only_adds x) (fst th)) (snd s') /\ exists v', nth_error (fst s') x = Some v' /\ ((0 <= v < 2 ^ 64)%Z -> (0 <= v' < 2 ^ 64)%Z) /\ wrap64 (v' + added_all x (snd s')) = wrap64 (v + added_all x (snd s)).
Proof.
  intros H F N. assert (WR : forall z, (0 <= wrap64 z < 2 ^ 64)%Z) by (intros z; apply Z.mod_pos_bound; lia). destruct H as [mem threads t op rest reg mem' reg' r threads' NT ST SET]. cbn [fst snd] in *.
  assert (FT : Forall (only_adds x) (op :: rest)) by (rewrite Forall_forall in F; apply (F _ (nth_error_In _ _ NT))).
  inversion FT as [|? ? FO FR]; subst.
  assert (F' : Forall (fun th => Forall (only_adds x) (fst th)) threads').
  { apply Forall_forall. intros y Hy. apply In_nth_error in Hy as (j & Hj). destruct (Nat.eq_dec j t) as [->|NJ].
    - rewrite (nth_set_same _ _ _ _ SET) in Hj. injection Hj as <-. exact FR.
    - rewrite (nth_set_other _ _ _ _ _ SET NJ) in Hj. rewrite Forall_forall in F. apply (F _ (nth_error_In _ _ Hj)). }
  split; [exact F'|]. pose proof (added_set x _ _ _ _ SET _ NT) as A. cbn [fst] in A.
  destruct op as [y|y w|y w|y w|y|y]; cbn [atomic_step added only_adds] in ST, A, FO.
  - destruct (raw_get mem y); try discriminate. cbn in ST. injection ST as <- <- <-. exists v. split; [exact N|]. split; [auto|]. f_equal. lia.
  - unfold raw_set in ST. destruct (set_nth mem y (wrap64 w)) as [m|] eqn:E; [|discriminate]. cbn in ST. injection ST as <- <- <-.
    exists v. split; [rewrite (nth_set_other _ _ _ _ _ E) by auto; exact N|]. split; [auto|]. f_equal. lia.
  - unfold raw_get, raw_set in ST. destruct (nth_error mem y) as [old|] eqn:O; [|discriminate]. cbn [bind] in ST. destruct (set_nth mem y (wrap64 (old + w))) as [m|] eqn:E; [|discriminate]. cbn in ST. injection ST as <- <- <-.
    destruct (Nat.eqb_spec y x) as [->|NE].
    + exists (wrap64 (old + w)). split; [apply (nth_set_same _ _ _ _ E)|]. split; [intros; apply WR|]. rewrite N in O. injection O as ->. rewrite wrap_plus. f_equal. lia.
    + exists v. split; [rewrite (nth_set_other _ _ _ _ _ E) by auto; exact N|]. split; [auto|]. f_equal. lia.
  - unfold raw_get, raw_set in ST. destruct (nth_error mem y) as [old|] eqn:O; [|discriminate]. cbn [bind] in ST. destruct (set_nth mem y (wrap64 (old - w))) as [m|] eqn:E; [|discriminate]. cbn in ST. injection ST as <- <- <-.
    destruct (Nat.eqb_spec y x) as [->|NE].
    + exists (wrap64 (old - w)). split; [apply (nth_set_same _ _ _ _ E)|]. split; [intros; apply WR|]. rewrite N in O. injection O as ->. rewrite wrap_plus. f_equal. lia.
    + exists v. split; [rewrite (nth_set_other _ _ _ _ _ E) by auto; exact N|]. split; [auto|]. f_equal. lia.
  - unfold raw_get in ST. destruct (nth_error mem y); [|discriminate]. cbn in ST. injection ST as <- <- <-. exists v. split; [exact N|]. split; [auto|]. f_equal. lia.
  - unfold raw_set in ST. destruct (set_nth mem y reg) as [m|] eqn:E; [|discriminate]. cbn in ST. injection ST as <- <- <-.
    exists v. split; [rewrite (nth_set_other _ _ _ _ _ E) by auto; exact N|]. split; [auto|]. f_equal. lia.
Qed.
Lemma counter_run_range x s tr s' : asteps s tr s' -> forall v, Forall (fun th => Forall (only_adds x) (fst th)) (snd s) -> nth_error (fst s) x = Some v -> (0 <= v < 2 ^ 64)%Z ->
  exists v', nth_error (fst s') x = Some v' /\ (0 <= v' < 2 ^ 64)%Z /\ wrap64 (v' + added_all x (snd s')) = wrap64 (v + added_all x (snd s)).
Proof.
  induction 1 as [s|s t s1 tr s' ST _ IH]; intros v F N B; [eauto|].
  destruct (counter_step x _ _ _ _ ST F N) as (F' & v' & N' & B' & E). destruct (IH v' F' N' (B' B)) as (v'' & N'' & B'' & E'). exists v''. split; [exact N''|]. split; [exact B''|]. congruence.
Qed.
Lemma added_done x threads : Forall (fun th => fst th = []) threads -> added_all x threads = 0%Z.
Proof. induction 1 as [|[ops reg] l H F IH]; cbn in *; [reflexivity|]. rewrite H, IH. reflexivity. Qed.

(** A thread other than [t] does not touch thread [t]. *)
Lemma other_thread s u s' t p : astep s u s' -> u <> t -> nth_error (snd s) t = Some p -> nth_error (snd s') t = Some p.
Proof. intros H N E. destruct H as [? ? ? ? ? ? ? ? ? ? ? ? SET]. cbn [snd] in *. rewrite (nth_set_other _ _ _ _ _ SET) by auto. exact E. Qed.
(** From pending second half to its execution. *)
Lemma copy_second s tr s' t dst rest reg : asteps s tr s' -> nth_error (snd s) t = Some (CopyStore dst :: rest, reg) ->
  (exists k, nth_error (snd s') t = Some (CopyStore dst :: rest, k)) \/
  exists a tr1 tr2, tr = tr1 ++ (t, a) :: tr2 /\ nth_error (fst a) dst = Some reg.
Proof.
  induction 1 as [s|s u s1 tr s' ST R IH]; intros N; [left; eauto|]. destruct (Nat.eq_dec u t) as [->|NU].
  - right. exists s1, [], tr. split; [reflexivity|]. destruct ST as [mem threads t op rest' reg0 mem' reg' r threads' NT AS SET]. cbn [fst snd] in *. rewrite N in NT. injection NT as <- <- <-.
    cbn [atomic_step] in AS. unfold raw_set in AS. destruct (set_nth mem dst reg) as [m|] eqn:E; [|discriminate]. cbn in AS. injection AS as <- <- <-. apply (nth_set_same _ _ _ _ E).
  - destruct (IH (other_thread _ _ _ _ _ ST NU N)) as [H|(a & tr1 & tr2 & -> & E)]; [left; exact H|]. right. exists a, ((u, s1) :: tr1), tr2. auto.
Qed.
Lemma copy_run s tr s' t dst src rest reg : asteps s tr s' -> nth_error (snd s) t = Some (copy_ops dst src ++ rest, reg) ->
  (exists k, nth_error (snd s') t = Some (CopyStore dst :: rest, k) \/ nth_error (snd s') t = Some (copy_ops dst src ++ rest, k)) \/
  exists a b v tr1 tr2 tr3, tr = tr1 ++ (t, a) :: tr2 ++ (t, b) :: tr3 /\ nth_error (fst a) src = Some v /\ nth_error (fst b) dst = Some v.
Proof.
  induction 1 as [s|s u s1 tr s' ST R IH]; intros N; [left; eauto|]. destruct (Nat.eq_dec u t) as [->|NU].
  - destruct ST as [mem threads t op rest' reg0 mem' reg' r threads' NT AS SET]. cbn [fst snd] in *. rewrite N in NT. cbn [copy_ops app] in NT. injection NT as <- <- <-.
    cbn [atomic_step] in AS. unfold raw_get in AS. destruct (nth_error mem src) as [v|] eqn:E; [|discriminate]. cbn in AS. injection AS as <- <- <-.
    pose proof (nth_set_same _ _ _ _ SET) as N'. destruct (copy_second (mem, threads') tr s' t dst rest v R N') as [(k & H)|(b & tr1 & tr2 & -> & EB)]; [left; eauto|].
    right. exists (mem, threads'), b, v, [], tr1, tr2. auto.
  - destruct (IH (other_thread _ _ _ _ _ ST NU N)) as [H|(a & b & v & tr1 & tr2 & tr3 & -> & E1 & E2)]; [left; exact H|]. right. exists a, b, v, ((u, s1) :: tr1), tr2, tr3. auto.
Qed.
