(** Properties C136-C140 (the rest of utility.hpp).  Model in UtilityModel2.v, vocabulary in
    UtilitySpec2.v. *)
From Coq Require Import ZArith Lia List String Ascii.
From Flocq Require Import BinarySingleNaN.
From Verif Require Import Base Double UtilityModel UtilitySpec UtilityProof UtilityModel2 UtilitySpec2 UtilityProof2 Prop_Utility.
Local Open Scope Z_scope.

(** C136: a map made from pairs answers every lookup with the value of the last pair of that
    key, or the default when there is none; its keys are the given keys, each once, in
    increasing order. *)
Theorem C136_lookup : forall (K V : Type) (ltb : K -> K -> bool), strict_weak_order ltb -> forall (pairs : list (K * V)) key default,
  RetrieveOrDefault ltb (MakeFromPairs ltb pairs) key default = match last_value ltb key pairs with Some v => v | None => default end.
Proof.
  intros K V ltb S pairs key d. unfold RetrieveOrDefault, MakeFromPairs. rewrite (proj2 (make_gen ltb S pairs [] I)). destruct (last_value ltb key pairs); reflexivity.
Qed.
Print Assumptions C136_lookup.

Theorem C136_keys : forall (K V : Type) (ltb : K -> K -> bool), strict_weak_order ltb -> forall (pairs : list (K * V)),
  let keys := GetKeysFromMapLike (MakeFromPairs ltb pairs) in
  increasing ltb keys /\ (forall k, In k keys -> In k (map fst pairs)) /\
  (forall k, In k (map fst pairs) -> exists k', In k' keys /\ same_key ltb k' k).
Proof.
  intros K V ltb S pairs. cbn zeta. rewrite keys_map. destruct (make_gen ltb S pairs [] I) as [Inc F]. split; [exact Inc|]. split.
  - intros k H. unfold MakeFromPairs in H. apply make_keys in H as [H|[]]. exact H.
  - intros k H. apply in_map_iff in H as ((k1 & v) & <- & H). cbn [fst]. destruct (last_some ltb S k1 v pairs H) as (v' & L).
    specialize (F k1). rewrite L in F. apply find_in in F as (k' & I' & E). exists k'. split; [|exact E]. apply (in_map fst) in I'. exact I'.
Qed.
Print Assumptions C136_keys.

(** Taking a map apart into its pairs, or into its keys and its values, and making a map of
    them gives the map back. *)
Theorem C136_round_trip : forall (K V : Type) (ltb : K -> K -> bool) (m : list (K * V)), strict_weak_order ltb -> increasing ltb (map fst m) ->
  MakeFromPairs ltb (GetKeysAndValues m) = m /\ MakeFromKeysAndValues ltb (GetKeysFromMapLike m) (map snd m) = Ok m.
Proof.
  intros K V ltb m S Inc. rewrite pairs_map, keys_map.
  assert (E : MakeFromPairs ltb m = m) by (apply (make_sorted ltb m []); exact Inc).
  split; [exact E|]. unfold MakeFromKeysAndValues. rewrite !map_length, Nat.eqb_refl.
  pose proof (make_loop_gen ltb [] (map fst m) [] (map snd m) [] eq_refl) as H. rewrite !map_length in H. cbn [app length] in H. rewrite H by reflexivity.
  replace (combine (map fst m) (map snd m)) with m; [f_equal; exact E|]. clear. induction m as [|[k v] m IH]; cbn; [reflexivity|]. f_equal. exact IH.
Qed.
Print Assumptions C136_round_trip.

(** Keys and values in two containers act as the pairs of elements at the same position;
    containers of different sizes are rejected. *)
Theorem C136_two_containers : forall (K V : Type) (ltb : K -> K -> bool) (keys : list K) (values : list V),
  MakeFromKeysAndValues ltb keys values =
    if (length keys =? length values)%nat then Ok (MakeFromPairs ltb (combine keys values)) else Throw InvalidArgument.
Proof.
  intros K V ltb keys values. unfold MakeFromKeysAndValues. destruct (Nat.eqb_spec (length keys) (length values)) as [L|]; [|reflexivity].
  apply (make_loop_gen ltb [] keys [] values []); auto.
Qed.
Print Assumptions C136_two_containers.

Theorem C136_set_keys : forall (K : Type) (s : list K), GetKeysFromSetLike s = s.
Proof. intros K s. unfold GetKeysFromSetLike. rewrite (fold_app (fun x => x) s []), map_id. reflexivity. Qed.
Print Assumptions C136_set_keys.

Example C136_nonvacuous :
  MakeFromPairs Z.ltb [(3, 30); (1, 10); (3, 31); (2, 20)] = [(1, 10); (2, 20); (3, 31)] /\
  RetrieveOrDefault Z.ltb (MakeFromPairs Z.ltb [(3, 30); (1, 10); (3, 31)]) 3 0 = 31 /\
  RetrieveOrDefault Z.ltb (MakeFromPairs Z.ltb [(3, 30); (1, 10); (3, 31)]) 2 7 = 7 /\
  MakeFromKeysAndValues Z.ltb [2; 1] [20; 10] = Ok [(1, 10); (2, 20)] /\ MakeFromKeysAndValues Z.ltb [2; 1] [20] = Throw InvalidArgument /\
  strict_weak_order Z.ltb.
Proof. do 5 (split; [reflexivity|]). apply Zlt_swo. Qed.

(** C137: ClampValue gives the nearest value of [min, max]; SpreadValue leaves no value
    strictly between the thresholds, moves a value to the threshold on its side of the
    midpoint and no other value. *)
Theorem C137_clamp : forall (T : Type) (ltb leb : T -> T -> bool), total_order ltb leb -> forall val min max, leb min max = true ->
  exists r, ClampValue ltb (fun a b => leb b a) val min max = Ok r /\ leb min r = true /\ leb r max = true /\
    (leb min val = true -> leb val max = true -> r = val) /\ (ltb val min = true -> r = min) /\ (ltb max val = true -> r = max).
Proof. intros T ltb leb TO. exact (clamp_gen ltb leb TO). Qed.
Print Assumptions C137_clamp.

Theorem C137_spread : forall (T : Type) (ltb leb : T -> T -> bool), total_order ltb leb -> forall val low mid high,
  leb low mid = true -> leb mid high = true ->
  exists r, SpreadValue ltb leb val low mid high = Ok r /\ (leb r low = true \/ leb high r = true) /\
    (leb val low = true -> ltb val mid = true -> r = val) /\ (leb high val = true -> r = val) /\
    (ltb val high = true -> leb mid val = true -> r = high) /\ (ltb low val = true -> ltb val mid = true -> r = low).
Proof. intros T ltb leb TO. exact (spread_gen ltb leb TO). Qed.
Print Assumptions C137_spread.

(** A value that is at most the low threshold is left alone even when the midpoint is the low
    threshold, except the low threshold itself, which then counts as the high side. *)
Theorem C137_low_is_mid : forall (T : Type) (ltb leb : T -> T -> bool), total_order ltb leb -> forall mid high, ltb mid high = true ->
  SpreadValue ltb leb mid mid mid high = Ok high.
Proof.
  intros T ltb leb TO mid high H. destruct (spread_gen ltb leb TO mid mid mid high (le_refl ltb leb TO mid) (lt_le ltb leb TO _ _ H)) as (r & E & _ & _ & _ & P & _).
  rewrite E. f_equal. apply P; [exact H|apply (le_refl ltb leb TO)].
Qed.
Print Assumptions C137_low_is_mid.

(** For doubles: a bound that is NaN is rejected by both, and a value that is NaN comes back
    as it is. *)
Theorem C137_nan : forall v a b c : double,
  (is_nan a || is_nan b = true -> ClampValue dlt (fun x y => dle y x) v a b = Throw InvalidArgument) /\
  (is_nan a || is_nan b || is_nan c = true -> SpreadValue dlt dle v a b c = Throw InvalidArgument) /\
  (is_nan v = true -> (dle a b = true -> ClampValue dlt (fun x y => dle y x) v a b = Ok v) /\
     (dle a b = true -> dle b c = true -> SpreadValue dlt dle v a b c = Ok v)).
Proof.
  assert (L : forall x y, is_nan x || is_nan y = true -> dle x y = false /\ dlt x y = false).
  { intros [| | |] [| | |] H; try discriminate H; split; reflexivity. }
  intros v a b c. unfold ClampValue, SpreadValue. repeat split.
  - intros H. destruct (L a b H) as [-> _]. reflexivity.
  - intros H. destruct (is_nan a || is_nan b) eqn:E; [destruct (L a b E) as [-> _]; reflexivity|].
    destruct (L b c) as [-> _]; [apply Bool.orb_false_iff in E as [_ ->]; exact H|]. rewrite Bool.andb_false_r. reflexivity.
  - intros E. rewrite E. destruct (L v a) as [_ ->]; [rewrite H; reflexivity|]. destruct (L b v) as [_ ->]; [rewrite H; apply Bool.orb_true_r|]. reflexivity.
  - intros E1 E2. rewrite E1, E2. cbn [andb]. destruct (L b v) as [-> _]; [rewrite H; apply Bool.orb_true_r|]. destruct (L v b) as [_ ->]; [rewrite H; reflexivity|]. reflexivity.
Qed.
Print Assumptions C137_nan.

Example C137_nonvacuous : total_order Z.ltb Z.leb /\ SpreadValue Z.ltb Z.leb 3 (-5) 0 5 = Ok 5 /\ SpreadValue Z.ltb Z.leb (-3) (-5) 0 5 = Ok (-5) /\
  SpreadValue Z.ltb Z.leb (-9) (-5) 0 5 = Ok (-9) /\ SpreadValue Z.ltb Z.leb 0 (-5) 6 5 = Throw InvalidArgument.
Proof.
  split; [|repeat split]. constructor; intros *; rewrite ?Z.leb_le, ?Z.leb_gt, ?Z.ltb_lt; lia.
Qed.

(** C138: CheckAllStringsForSubstring says yes exactly when every string contains the
    substring as consecutive characters. *)
Theorem C138_substring : forall (C : Type) (eqc : C -> C -> bool), (forall a b, eqc a b = true <-> a = b) ->
  forall strings substring, CheckAllStringsForSubstring eqc strings substring = true <->
    forall s, In s strings -> exists before after, s = before ++ substring ++ after.
Proof. intros C eqc E strings sub. rewrite (check_all eqc E), Forall_forall. reflexivity. Qed.
Print Assumptions C138_substring.

Definition chars (s : string) : list ascii := list_ascii_of_string s.
Example C138_nonvacuous :
  CheckAllStringsForSubstring Ascii.eqb [chars "joint_a"; chars "left_joint"; chars "joint"] (chars "joint") = true /\
  CheckAllStringsForSubstring Ascii.eqb [chars "joint_a"; chars "jjoin"] (chars "joint") = false /\
  CheckAllStringsForSubstring Ascii.eqb [chars "aab"; chars "xaab"] (chars "ab") = true /\
  (forall a b, Ascii.eqb a b = true <-> a = b).
Proof. do 3 (split; [reflexivity|]). apply Ascii.eqb_eq. Qed.

(** C139: the function given to OnScopeExit runs exactly once when the scope is left, at
    its end or by an exception, after everything the body did, unless Disable was called
    before; if it throws, the program ends. *)
Theorem C139_end_of_scope : forall (W : Type) (f : callback W) body w w' w'' failed, completes body w w' -> ~ In Disable body -> f w' = (w'', failed) ->
  in_scope (Some f) body w = Ok (w'', if failed then Terminated else Normal).
Proof.
  intros W f body w w' w'' failed C N F. unfold in_scope. destruct (body_completes (Some f) body w w' [] C) as (g & R & _ & G). rewrite app_nil_r in R. rewrite R, (G N). cbn [run_body].
  rewrite F. destruct failed; reflexivity.
Qed.
Print Assumptions C139_end_of_scope.

Theorem C139_exception : forall (W : Type) (f h : callback W) before after w w1 w2 w3 failed, completes before w w1 -> ~ In Disable before ->
  h w1 = (w2, true) -> f w2 = (w3, failed) ->
  in_scope (Some f) (before ++ Run h :: after) w = Ok (w3, if failed then Terminated else Threw).
Proof.
  intros W f h before after w w1 w2 w3 failed C N H F. unfold in_scope. destruct (body_completes (Some f) before w w1 (Run h :: after) C) as (g & R & _ & G). rewrite R, (G N). cbn [run_body].
  rewrite H, F. destruct failed; reflexivity.
Qed.
Print Assumptions C139_exception.

Theorem C139_disabled : forall (W : Type) (f : callback W) before w w1, completes before w w1 -> In Disable before ->
  in_scope (Some f) before w = Ok (w1, Normal) /\
  forall h after w2, h w1 = (w2, true) -> in_scope (Some f) (before ++ Run h :: after) w = Ok (w2, Threw).
Proof.
  intros W f before w w1 C D. split.
  - unfold in_scope. destruct (body_completes (Some f) before w w1 [] C) as (g & R & G & _). rewrite app_nil_r in R. rewrite R, (G D). reflexivity.
  - intros h after w2 H. unfold in_scope. destruct (body_completes (Some f) before w w1 (Run h :: after) C) as (g & R & G & _). rewrite R, (G D). cbn [run_body]. rewrite H. reflexivity.
Qed.
Print Assumptions C139_disabled.

(** An empty function is refused before the body runs. *)
Theorem C139_empty : forall (W : Type) (body : list (step W)) w, in_scope None body w = Throw InvalidArgument.
Proof. reflexivity. Qed.
Print Assumptions C139_empty.

Definition log (n : nat) : callback (list nat) := fun l => (l ++ [n], false).
Definition log_throw (n : nat) : callback (list nat) := fun l => (l ++ [n], true).
Example C139_nonvacuous :
  in_scope (Some (log 9)) [Run (log 1); Run (log 2)] [] = Ok ([1; 2; 9]%nat, Normal) /\
  in_scope (Some (log 9)) [Run (log 1); Run (log_throw 2); Run (log 3)] [] = Ok ([1; 2; 9]%nat, Threw) /\
  in_scope (Some (log 9)) [Run (log 1); Disable; Run (log 2)] [] = Ok ([1; 2]%nat, Normal) /\
  in_scope (Some (log_throw 9)) [Run (log 1)] [] = Ok ([1; 9]%nat, Terminated) /\
  completes [Run (log 1); Disable; Run (log 2)] [] [1; 2]%nat.
Proof. repeat split. repeat (econstructor; try reflexivity). Qed.

(** C140: an atomic that threads only add to and subtract from (and read, and copy from)
    ends, whatever the schedule, at its starting value plus all that was added, modulo 2^64. *)
Theorem C140_counter : forall x mem threads tr mem' threads' v, asteps (mem, threads) tr (mem', threads') ->
  Forall (fun th => Forall (only_adds x) (fst th)) threads -> nth_error mem x = Some v -> 0 <= v < 2 ^ 64 ->
  Forall (fun th => fst th = []) threads' -> nth_error mem' x = Some ((v + added_all x threads) mod 2 ^ 64).
Proof.
  intros x mem threads tr mem' threads' v H F N B D.
  destruct (counter_run_range x _ _ _ H v F N B) as (v' & N' & B' & E). cbn [fst snd] in *. rewrite (added_done x _ D), Z.add_0_r in E.
  rewrite N'. f_equal. unfold wrap64 in E. rewrite Z.mod_small in E by exact B'. exact E.
Qed.
Print Assumptions C140_counter.

(** A copy, by constructor or assignment, puts into the destination a value the source held
    at a moment during the copy: after the copy's first step the source has it, after its
    second the destination. *)
Theorem C140_copy : forall s tr s' t dst src rest reg reg', asteps s tr s' ->
  nth_error (snd s) t = Some (copy_ops dst src ++ rest, reg) -> nth_error (snd s') t = Some ([], reg') ->
  exists a b v tr1 tr2 tr3, tr = tr1 ++ (t, a) :: tr2 ++ (t, b) :: tr3 /\ nth_error (fst a) src = Some v /\ nth_error (fst b) dst = Some v.
Proof.
  intros s tr s' t dst src rest reg reg' H N D. destruct (copy_run s tr s' t dst src rest reg H N) as [(k & [E|E])|E]; [rewrite D in E; discriminate..|exact E].
Qed.
Print Assumptions C140_copy.

(** Assignment is such a copy, and assigning an object to itself touches nothing. *)
Theorem C140_assign : forall s tr s' t dst src rest reg reg', asteps s tr s' ->
  nth_error (snd s) t = Some (assign_ops dst src ++ rest, reg) -> nth_error (snd s') t = Some ([], reg') ->
  (dst <> src -> exists a b v tr1 tr2 tr3, tr = tr1 ++ (t, a) :: tr2 ++ (t, b) :: tr3 /\ nth_error (fst a) src = Some v /\ nth_error (fst b) dst = Some v) /\
  (dst = src -> rest = [] -> forall a, ~ In (t, a) tr).
Proof.
  intros s tr s' t dst src rest reg reg' H N D. unfold assign_ops in N. destruct (Nat.eqb_spec dst src) as [E|E].
  - split; [contradiction|]. intros _ ->. cbn in N. clear D. revert N. induction H as [|s t0 s1 tr s2 S H IH]; intros N a; [exact (fun F => F)|].
    intros [F|F].
    + injection F as -> <-. inversion S; subst; cbn in *; congruence.
    + refine (IH _ a F). inversion S; subst; cbn in *. destruct (Nat.eq_dec t0 t) as [->|X]; [congruence|]. match goal with E : set_nth _ _ _ = Some _ |- _ => rewrite (nth_set_other _ _ _ _ _ E) by congruence end; exact N.
  - split; [|contradiction]. intros _. eapply C140_copy; eassumption.
Qed.
Print Assumptions C140_assign.

(** Whether a copy is defined depends on the memory orders named by the two types: between
    atomics of the same order, only relaxed and seq_cst work; acquire, release, acq_rel and
    consume make every copy undefined behaviour. *)
Theorem C140_orders : forall o, copy_construct o o = Ok tt <-> o = relaxed \/ o = seq_cst.
Proof. intros o. split; [destruct o; cbn; intros H; try discriminate; auto|intros [->| ->]; reflexivity]. Qed.
Print Assumptions C140_orders.
Theorem C140_orders_all_refuted : ~ forall o, copy_construct o o <> UB.
Proof. intros H. apply (H acq_rel). reflexivity. Qed.
Print Assumptions C140_orders_all_refuted.

(** Two threads, one adding 3 and copying the counter to object 1, the other adding 4 and
    subtracting 1. *)
Example C140_nonvacuous : exists tr mem' threads',
  asteps ([2 ^ 64 - 2; 0], [([FetchAdd 0 3; CopyLoad 0; CopyStore 1], 0); ([FetchAdd 0 4; FetchSub 0 1], 0)]) tr (mem', threads') /\
  Forall (fun th => fst th = []) threads' /\ mem' = [4; 5] /\
  Forall (fun th => Forall (only_adds 0) (fst th)) [([FetchAdd 0 3; CopyLoad 0; CopyStore 1], 0); ([FetchAdd 0 4; FetchSub 0 1], 0)] /\
  added_all 0 [([FetchAdd 0 3; CopyLoad 0; CopyStore 1], 0); ([FetchAdd 0 4; FetchSub 0 1], 0)] = 6.
Proof.
  do 3 eexists. split.
  - eapply ACons; [eapply (AStep _ _ 0%nat) with (reg' := 0); reflexivity|].
    eapply ACons; [eapply (AStep _ _ 1%nat) with (reg' := 0); reflexivity|].
    eapply ACons; [eapply (AStep _ _ 0%nat); reflexivity|].
    eapply ACons; [eapply (AStep _ _ 1%nat) with (reg' := 0); reflexivity|].
    eapply ACons; [eapply (AStep _ _ 0%nat); reflexivity|]. apply ANil.
  - split; [repeat constructor|]. split; [reflexivity|]. split; [|reflexivity]. repeat (apply Forall_cons; [repeat (apply Forall_cons; [cbn; auto|]); auto|]); auto.
Qed.
