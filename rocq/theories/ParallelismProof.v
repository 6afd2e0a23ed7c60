(** Proofs for C08-C11, C73, C74. *)
From Verif Require Import Base ParallelismModel ParallelismSpec.
From Coq Require Import Permutation ZifyBool.
Local Open Scope Z_scope.

(** * Checked arithmetic and the static partition *)

Lemma i64_ok z : int64_min <= z <= int64_max -> i64 z = Ok z.
Proof.
  intros H. unfold i64. destruct (Z.leb_spec int64_min z); [|lia].
  destruct (Z.leb_spec z int64_max); [reflexivity|lia].
Qed.

(** First index of share [k]. *)
Definition share_start (rs re n k : Z) : Z :=
  rs + k * ((re - rs) / n) + Z.min k ((re - rs) mod n).

Lemma share_start_0 rs re n : 1 <= n -> rs <= re -> share_start rs re n 0 = rs.
Proof.
  intros. unfold share_start. pose proof (Z.mod_pos_bound (re - rs) n). lia.
Qed.

Lemma share_start_n rs re n : 1 <= n -> rs <= re -> share_start rs re n n = re.
Proof.
  intros. unfold share_start. pose proof (Z.mod_pos_bound (re - rs) n).
  pose proof (Z.div_mod (re - rs) n). lia.
Qed.

Lemma share_size rs re n k : 1 <= n -> rs <= re ->
  share_start rs re n (k + 1) - share_start rs re n k =
  (re - rs) / n + (if k <? (re - rs) mod n then 1 else 0).
Proof.
  intros. unfold share_start. destruct (Z.ltb_spec k ((re - rs) mod n)); nia.
Qed.

Lemma share_mono rs re n j k : 1 <= n -> rs <= re -> j <= k ->
  share_start rs re n j <= share_start rs re n k.
Proof.
  intros. unfold share_start.
  assert (0 <= (re - rs) / n) by (apply Z.div_pos; lia). nia.
Qed.

Lemma Calc_spec rs re n k :
  int64_min <= rs -> rs <= re -> re <= int64_max -> re - rs <= int64_max ->
  1 <= n -> n <= int64_max -> (re - rs < int64_max \/ 1 < n) -> 0 <= k < n ->
  CalcStaticThreadRangeStartAndEnd rs re n k =
  Ok (share_start rs re n k, share_start rs re n (k + 1)).
Proof.
  intros H1 H2 H3 H4 Hn Hn' Hedge Hk.
  unfold CalcStaticThreadRangeStartAndEnd.
  destruct (Z.ltb_spec re rs); [lia|].
  destruct (Z.ltb_spec n 1); [lia|].
  destruct (Z.ltb_spec k 0); [lia|]. destruct (Z.leb_spec n k); [lia|]. simpl orb. cbv iota.
  assert (Hmin : int64_min <= 0 /\ 1 <= int64_max) by (unfold int64_min, int64_max; lia).
  rewrite i64_ok by lia. simpl bind.
  rewrite Z.quot_div_nonneg, Z.rem_mod_nonneg by lia.
  pose proof (Z.mod_pos_bound (re - rs) n ltac:(lia)) as Hm.
  pose proof (Z.div_mod (re - rs) n ltac:(lia)) as Hd.
  assert (0 <= (re - rs) / n) by (apply Z.div_pos; lia).
  assert ((re - rs) / n <= re - rs) by (apply Z.div_le_upper_bound; nia).
  assert ((re - rs) / n + 1 <= int64_max).
  { destruct Hedge; [lia|]. assert ((re - rs) / n <= (re - rs) / 2) by (apply Z.div_le_compat_l; lia).
    assert ((re - rs) / 2 < int64_max) by (apply Z.div_lt_upper_bound; lia). lia. }
  set (q := (re - rs) / n) in *. set (r := (re - rs) mod n) in *.
  rewrite (i64_ok q) by lia. simpl bind. rewrite (i64_ok r) by lia. simpl bind.
  rewrite (i64_ok (q + 1)) by lia. simpl bind.
  destruct (Z.ltb_spec k r) as [Hkr|Hkr].
  - assert (0 <= k * (q + 1)) by nia.
    assert (k * (q + 1) + (q + 1) <= re - rs) by nia.
    rewrite i64_ok by lia. simpl bind. rewrite i64_ok by lia. simpl bind.
    rewrite i64_ok by lia. simpl bind. unfold share_start. fold q r.
    do 2 f_equal; nia.
  - assert (0 <= r * (q + 1)) by nia.
    assert (0 <= (k - r) * q) by nia.
    assert (r * (q + 1) + (k - r) * q + q <= re - rs) by nia.
    rewrite i64_ok by lia. simpl bind. rewrite i64_ok by lia. simpl bind.
    rewrite i64_ok by lia. simpl bind. rewrite i64_ok by lia. simpl bind.
    rewrite i64_ok by lia. simpl bind. rewrite i64_ok by lia. simpl bind.
    unfold share_start. fold q r. do 2 f_equal; nia.
Qed.

Lemma static_partition rs re n :
  int64_min <= rs -> rs <= re -> re <= int64_max -> re - rs <= int64_max ->
  1 <= n -> n <= int64_max -> (re - rs < int64_max \/ 1 < n) ->
  exists a : Z -> Z,
    a 0 = rs /\ a n = re /\
    (forall k, 0 <= k < n ->
       CalcStaticThreadRangeStartAndEnd rs re n k = Ok (a k, a (k + 1)) /\ a k <= a (k + 1)) /\
    (forall j k, 0 <= j < n -> 0 <= k < n -> (a (k + 1) - a k) - (a (j + 1) - a j) <= 1).
Proof.
  intros. exists (share_start rs re n).
  split; [apply share_start_0; assumption|].
  split; [apply share_start_n; assumption|]. split.
  - intros k Hk. split; [apply Calc_spec; assumption|apply share_mono; lia].
  - intros j k Hj Hk. rewrite !share_size by lia.
    destruct (k <? _), (j <? _); lia.
Qed.

Lemma static_unique_owner rs re n i :
  int64_min <= rs -> rs <= re -> re <= int64_max -> re - rs <= int64_max ->
  1 <= n -> n <= int64_max -> (re - rs < int64_max \/ 1 < n) ->
  (rs <= i < re <->
   exists k, (0 <= k < n /\ exists lo hi,
     CalcStaticThreadRangeStartAndEnd rs re n k = Ok (lo, hi) /\ lo <= i < hi) /\
     forall k', 0 <= k' < n -> forall lo hi,
       CalcStaticThreadRangeStartAndEnd rs re n k' = Ok (lo, hi) -> lo <= i < hi -> k' = k).
Proof.
  intros H1 H2 H3 H4 H5 H6 H7. split.
  - intros Hi.
    assert (Hex : exists k, 0 <= k < n /\ share_start rs re n k <= i < share_start rs re n (k + 1)).
    { assert (G : forall m : nat, Z.of_nat m <= n -> i < share_start rs re n (Z.of_nat m) ->
        exists k, 0 <= k < n /\ share_start rs re n k <= i < share_start rs re n (k + 1)).
      { induction m as [|m IH]; intros Hm Hlt.
        - rewrite share_start_0 in Hlt by lia. lia.
        - destruct (Z_lt_le_dec i (share_start rs re n (Z.of_nat m))) as [L|L].
          + apply IH; lia.
          + exists (Z.of_nat m). split; [lia|]. split; [exact L|].
            rewrite Nat2Z.inj_succ in Hlt. exact Hlt. }
      apply (G (Z.to_nat n)); [lia|]. rewrite Z2Nat.id by lia.
      rewrite share_start_n by lia. lia. }
    destruct Hex as (k & Hk & Hik). exists k. split.
    + split; [exact Hk|]. eexists; eexists. split; [apply Calc_spec; assumption|exact Hik].
    + intros k' Hk' lo hi E Hin. rewrite Calc_spec in E by assumption. injection E as <- <-.
      destruct (Z.lt_trichotomy k k') as [L|[L|L]]; [|auto|].
      * pose proof (share_mono rs re n (k + 1) k'). lia.
      * pose proof (share_mono rs re n (k' + 1) k). lia.
  - intros (k & (Hk & lo & hi & E & Hin) & _). rewrite Calc_spec in E by assumption.
    injection E as <- <-.
    pose proof (share_mono rs re n 0 k). pose proof (share_mono rs re n (k + 1) n).
    rewrite share_start_0 in * by lia. rewrite share_start_n in * by lia. lia.
Qed.

Lemma static_bad_args rs re n k :
  re < rs \/ n < 1 \/ k < 0 \/ n <= k ->
  CalcStaticThreadRangeStartAndEnd rs re n k = Throw InvalidArgument.
Proof.
  intros H. unfold CalcStaticThreadRangeStartAndEnd.
  destruct (Z.ltb_spec re rs); [reflexivity|].
  destruct (Z.ltb_spec n 1); [reflexivity|].
  destruct (Z.ltb_spec k 0); [reflexivity|]. destruct (Z.leb_spec n k); [reflexivity|]. lia.
Qed.

(** * Index sequences *)

Lemma seq_from_length lo n : length (seq_from lo n) = n.
Proof. revert lo; induction n; simpl; auto. Qed.

Lemma seq_from_in lo n i : In i (seq_from lo n) <-> lo <= i < lo + Z.of_nat n.
Proof.
  revert lo; induction n as [|n IH]; intros lo; simpl; [lia|]. rewrite IH. lia.
Qed.

Lemma seq_from_app lo n m : seq_from lo (n + m) = seq_from lo n ++ seq_from (lo + Z.of_nat n) m.
Proof.
  revert lo; induction n as [|n IH]; intros lo; simpl.
  - f_equal; lia.
  - rewrite IH. do 3 f_equal. lia.
Qed.

Lemma seq_from_nodup lo n : NoDup (seq_from lo n).
Proof.
  revert lo; induction n as [|n IH]; intros lo; simpl; constructor; auto.
  rewrite seq_from_in. lia.
Qed.

Lemma seqZ_in lo hi i : In i (seqZ lo hi) <-> lo <= i < hi.
Proof. unfold seqZ. rewrite seq_from_in. lia. Qed.

Lemma seqZ_split lo mid hi : lo <= mid <= hi -> seqZ lo hi = seqZ lo mid ++ seqZ mid hi.
Proof.
  intros. unfold seqZ.
  replace (Z.to_nat (hi - lo)) with (Z.to_nat (mid - lo) + Z.to_nat (hi - mid))%nat by lia.
  rewrite seq_from_app. do 2 f_equal. lia.
Qed.

Lemma seqZ_cons lo hi : lo < hi -> seqZ lo hi = lo :: seqZ (lo + 1) hi.
Proof.
  intros. unfold seqZ. replace (Z.to_nat (hi - lo)) with (S (Z.to_nat (hi - (lo + 1)))) by lia.
  reflexivity.
Qed.

Lemma seqZ_nil lo hi : hi <= lo -> seqZ lo hi = [].
Proof. intros. unfold seqZ. replace (Z.to_nat (hi - lo)) with 0%nat by lia. reflexivity. Qed.

Lemma seqZ_one lo : seqZ lo (lo + 1) = [lo].
Proof. rewrite seqZ_cons by lia. rewrite seqZ_nil by lia. reflexivity. Qed.

Lemma seqZ_length lo hi : Z.of_nat (length (seqZ lo hi)) = Z.max 0 (hi - lo).
Proof. unfold seqZ. rewrite seq_from_length. lia. Qed.

Lemma seqZ_nodup lo hi : NoDup (seqZ lo hi).
Proof. apply seq_from_nodup. Qed.

(** Indices of a list of calls. *)
Definition idxs (l : list (Z * Z)) : list Z := flat_map (fun c => seqZ (fst c) (snd c)) l.

Lemma body_covers body : loop_body body -> forall lo hi, idxs (body lo hi) = seqZ lo hi.
Proof.
  intros [-> | ->] lo hi; unfold idxs.
  - simpl. rewrite app_nil_r. reflexivity.
  - unfold index_body. rewrite flat_map_concat_map, map_map. simpl.
    induction (seqZ lo hi) as [|x l IH]; [reflexivity|].
    simpl map. simpl concat. rewrite seqZ_one, IH. reflexivity.
Qed.

(** Being a permutation of part of [lo, hi) determines the visit counts. *)
Lemma nodup_count (l : list Z) i : NoDup l ->
  count_occ Z.eq_dec l i = if in_dec Z.eq_dec i l then 1%nat else 0%nat.
Proof.
  intros H. destruct (in_dec Z.eq_dec i l) as [Hi|Hi].
  - apply (NoDup_count_occ' Z.eq_dec); assumption.
  - apply count_occ_not_In. assumption.
Qed.

Lemma perm_each_once tr lo hi : Permutation (visited tr) (seqZ lo hi) -> each_once lo hi tr.
Proof.
  intros P i. unfold times_visited.
  rewrite (proj1 (Permutation_count_occ Z.eq_dec _ _) P).
  rewrite nodup_count by apply seqZ_nodup.
  destruct (in_dec Z.eq_dec i (seqZ lo hi)) as [H|H]; rewrite seqZ_in in H;
    destruct (Z.leb_spec lo i), (Z.ltb_spec i hi); simpl; lia.
Qed.

Lemma perm_at_most_once tr rest lo hi :
  Permutation (visited tr ++ rest) (seqZ lo hi) -> at_most_once lo hi tr.
Proof.
  intros P i. unfold times_visited.
  assert (E := proj1 (Permutation_count_occ Z.eq_dec _ _) P i).
  rewrite count_occ_app, (nodup_count (seqZ lo hi)) in E by apply seqZ_nodup.
  destruct (in_dec Z.eq_dec i (seqZ lo hi)) as [H|H]; rewrite seqZ_in in H;
    destruct (Z.leb_spec lo i), (Z.ltb_spec i hi); simpl; lia.
Qed.

(** * Bookkeeping that every interleaving preserves *)

(** Indices a worker has not begun; the call it is inside; its exception. *)
Definition tw (w : worker) : list Z := idxs (w_todo w).
Definition cw (w : worker) : list (Z * (Z * Z)) :=
  match w_phase w with InCall lo hi => [(w_thread w, (lo, hi))] | _ => [] end.
Definition fw (w : worker) : list exn :=
  match w_phase w with Failed e => [e] | _ => [] end.

Lemma visited_app a b : visited (a ++ b) = visited a ++ visited b.
Proof. apply flat_map_app. Qed.
Lemma thread_numbers_app a b : thread_numbers (a ++ b) = thread_numbers a ++ thread_numbers b.
Proof. apply flat_map_app. Qed.
Lemma thrown_app a b : thrown (a ++ b) = thrown a ++ thrown b.
Proof. apply flat_map_app. Qed.

Lemma remove_one_perm c l l' : Permutation l (c :: l') -> Permutation (remove_one c l) l'.
Proof.
  revert l'. induction l as [|y r IH]; intros l' P.
  - apply Permutation_nil in P. discriminate.
  - simpl. destruct (call_eq_dec c y) as [->|Hne].
    + exact (Permutation_cons_inv P).
    + assert (Hy : In y l').
      { assert (In y (c :: l')) by (eapply Permutation_in; [exact P|left; reflexivity]).
        destruct H; [congruence|assumption]. }
      apply in_split in Hy. destruct Hy as (a & b & ->).
      apply Permutation_cons_app. apply IH.
      apply (@Permutation_cons_app_inv _ r (c :: a) b y). exact P.
Qed.

(** Permutations of lists of indices by counting. *)
Ltac permz :=
  rewrite ?(Permutation_count_occ Z.eq_dec) in *;
  let z := fresh "z" in intros z;
  repeat match goal with H : forall _ : Z, count_occ _ _ _ = count_occ _ _ _ |- _ =>
    specialize (H z) end;
  rewrite ?count_occ_app in *; simpl in *; rewrite ?count_occ_app in *; lia.

Record core (ALL : list Z) (N : Z) (ws : list worker) (p : list Z) (x : list exn)
    (tr : list event) : Prop := {
  core_perm : exists dropped,
    Permutation (visited tr ++ flat_map tw ws ++ p ++ dropped) ALL /\
    (flat_map fw ws ++ x = [] -> dropped = []);
  core_running : Permutation (running tr) (flat_map cw ws);
  core_threads : Forall (fun t => 0 <= t < N) (thread_numbers tr);
  core_incl : incl (flat_map fw ws ++ x) (thrown tr);
  core_clean : flat_map fw ws ++ x = [] -> thrown tr = [] }.

Lemma core_wstep ALL N a w ev w' b p x tr :
  wstep w ev w' -> 0 <= w_thread w < N ->
  core ALL N (a ++ w :: b) p x tr -> core ALL N (a ++ w' :: b) p x (tr ++ [ev]).
Proof.
  intros S Ht [(dr & P & Hd) R T I C].
  destruct S as [t lo hi todo|t lo hi todo|t lo hi todo e]; idtac;
    rewrite ?flat_map_app in *; simpl in *; split;
    rewrite ?visited_app, ?thread_numbers_app, ?thrown_app, ?flat_map_app; simpl.
  - exists dr. split; [|exact Hd]. unfold tw, idxs in *. simpl in *. clear -P. permz.
  - unfold running. rewrite fold_left_app. simpl. fold (running tr).
    apply Permutation_cons_app. exact R.
  - rewrite Forall_app. split; [exact T|]. constructor; [exact Ht|constructor].
  - rewrite app_nil_r. exact I.
  - rewrite app_nil_r. exact C.
  - exists dr. rewrite app_nil_r. split; assumption.
  - unfold running. rewrite fold_left_app. simpl. fold (running tr).
    apply remove_one_perm. rewrite R. symmetry. apply Permutation_middle.
  - rewrite app_nil_r. exact T.
  - rewrite app_nil_r. exact I.
  - rewrite app_nil_r. exact C.
  - exists dr. rewrite app_nil_r. split; [exact P|].
    intros E. destruct (flat_map fw a); discriminate.
  - unfold running. rewrite fold_left_app. simpl. fold (running tr).
    apply remove_one_perm. rewrite R. symmetry. apply Permutation_middle.
  - rewrite app_nil_r. exact T.
  - intros y Hy. rewrite <- app_assoc in Hy. apply in_app_or in Hy.
    rewrite in_app_iff.
    destruct Hy as [Hy|Hy]; [left; apply I; rewrite <- app_assoc, in_app_iff; auto|].
    simpl in Hy. destruct Hy as [->|Hy]; [right; simpl; auto|].
    left; apply I; rewrite <- app_assoc, in_app_iff; auto.
  - intros E. destruct (flat_map fw a); discriminate.
Qed.

Lemma core_add ALL N a w b p1 p2 x tr i :
  i = tw w -> cw w = [] -> fw w = [] ->
  core ALL N (a ++ b) (p1 ++ i ++ p2) x tr -> core ALL N (a ++ w :: b) (p1 ++ p2) x tr.
Proof.
  intros -> Hc Hf [(dr & P & Hd) R T I C].
  split; rewrite ?flat_map_app in *; simpl; rewrite ?Hc, ?Hf; simpl; auto.
  exists dr. split; [|exact Hd]. clear -P. permz.
Qed.

Lemma core_remove ALL N a w b p x tr :
  tw w = [] -> cw w = [] -> fw w = [] ->
  core ALL N (a ++ w :: b) p x tr -> core ALL N (a ++ b) p x tr.
Proof.
  intros Ht Hc Hf [(dr & P & Hd) R T I C].
  rewrite ?flat_map_app in *; simpl in *; rewrite ?Ht, ?Hc, ?Hf in *; simpl in *.
  split; rewrite ?flat_map_app in *; auto. exists dr; auto.
Qed.

Lemma core_remove_failed ALL N a w b p x tr e :
  cw w = [] -> fw w = [e] ->
  core ALL N (a ++ w :: b) p x tr -> core ALL N (a ++ b) p [e] tr.
Proof.
  intros Hc Hf [(dr & P & Hd) R T I C].
  rewrite ?flat_map_app in *; simpl in *; rewrite ?Hc, ?Hf in *; simpl in *.
  split; rewrite ?flat_map_app in *; auto.
  - exists (tw w ++ dr). split.
    + clear -P. permz.
    + intros E. destruct (flat_map fw a); [destruct (flat_map fw b)|]; discriminate.
  - intros y Hy. apply I. rewrite !in_app_iff in *. simpl in *. tauto.
  - intros E. destruct (flat_map fw a); [destruct (flat_map fw b)|]; discriminate.
Qed.

Lemma core_abort ALL N ws p x tr e :
  Forall finished ws -> In e (flat_map fw ws ++ x) ->
  core ALL N ws p x tr -> core ALL N [] [] [e] tr.
Proof.
  intros F Hin [(dr & P & Hd) R T I C].
  split; simpl; auto.
  - exists (flat_map tw ws ++ p ++ dr). split; [exact P|discriminate].
  - rewrite R. assert (flat_map cw ws = []) as ->; [|constructor].
    clear -F. induction F as [|w ws Hw _ IH]; [reflexivity|]. simpl. rewrite IH, app_nil_r.
    unfold finished in Hw. unfold cw. destruct (w_phase w); tauto || reflexivity.
  - intros y [<-|[]]. apply I. exact Hin.
  - discriminate.
Qed.

Lemma core_incl_extra ALL N ws p x tr e :
  In e (flat_map fw ws ++ x) -> core ALL N ws p x tr -> core ALL N ws p [e] tr.
Proof.
  intros Hin [(dr & P & Hd) R T I C].
  split; auto.
  - exists dr. split; [exact P|]. intros E. destruct (flat_map fw ws); discriminate.
  - intros y Hy. rewrite in_app_iff in Hy. destruct Hy as [Hy|[<-|[]]]; apply I; [|exact Hin].
    rewrite in_app_iff. auto.
  - intros E. destruct (flat_map fw ws); discriminate.
Qed.

(** * The invariant of loop states *)

Definition omp_workers (threads : list (Z * option worker)) : list worker :=
  flat_map (fun th => match snd th with Some w => [w] | None => [] end) threads.

Definition opt_list {A} (o : option A) : list A := match o with Some a => [a] | None => [] end.

(** A worker constructor that is right for item [i] and thread [t]. *)
Definition mk_ok (w : worker) (t : Z) : Prop := w_thread w = t /\ w_phase w = Idle.

Definition worker_ok (N : Z) (w : worker) : Prop :=
  0 <= w_thread w < N /\ w_phase w <> Undefined.

Definition count_live (act : list (worker * stage)) : Z :=
  Z.of_nat (length (filter (fun p => match snd p with Live => true | _ => false end) act)).

Definition pc_ok (d : dyn) : Prop :=
  match d_pc d with
  | PScan k => (k <= length (d_active d))%nat
  | PWait => d_active d <> []
  | PAsleep => d_active d <> [] /\
      (d_live d = Z.of_nat (length (d_active d)) \/ exists w, In (w, Exited) (d_active d))
  | PUnwind _ => True
  | _ => True
  end.

Section Inv.
Variable body : Z -> Z -> list (Z * Z).
Hypothesis Hbody : loop_body body.
Variable ALL : list Z.
Variable N : Z.

Record async_ok (mk : Z -> worker) (next real : Z) (got rest : list worker)
    (tr : list event) : Prop := {
  ao_core : core ALL N (got ++ rest) (flat_map (fun k => tw (mk k)) (seqZ next real)) [] tr;
  ao_mk : forall k, next <= k < real -> w_thread (mk k) = k /\ w_phase (mk k) = Idle;
  ao_next : 0 <= next <= real;
  ao_real : real <= N;
  ao_threads : map w_thread (got ++ rest) = seqZ 0 next;
  ao_defined : Forall (fun w => w_phase w <> Undefined) (got ++ rest);
  ao_got : Forall (fun w => w_todo w = [] /\ w_phase w = Idle) got;
  ao_got0 : next < real -> got = [] }.

Record dyn_ok (real total : Z) (d : dyn) (tr : list event) : Prop := {
  do_core : core ALL N (map fst (d_active d)) (seqZ (d_dispatched d) total)
         (match d_pc d with PUnwind e => [e] | _ => [] end) tr;
  do_numbers : Permutation (d_keeper d ++ map w_thread (map fst (d_active d))) (seqZ 0 real);
  do_real : 1 <= real <= N;
  do_total : 0 <= d_dispatched d <= total;
  do_max : total <= int64_max;
  do_defined : Forall (fun p => w_phase (fst p) <> Undefined) (d_active d);
  do_finished : Forall (fun p => snd p <> Live -> finished (fst p)) (d_active d);
  do_live : d_live d = count_live (d_active d);
  do_pc : pc_ok d }.

Inductive inv : state -> list event -> Prop :=
| inv_serial w tr :
    core ALL N [w] [] [] tr -> worker_ok N w -> inv (SSerial w) tr
| inv_omp mk items threads ex tr :
    core ALL N (omp_workers threads) (flat_map (fun i => tw (mk i 0)) items) (opt_list ex) tr ->
    (forall i t, In i items -> 0 <= t ->
       w_thread (mk i t) = t /\ w_phase (mk i t) = Idle /\ tw (mk i t) = tw (mk i 0)) ->
    NoDup (map fst threads) -> threads <> [] ->
    Forall (fun th => 0 <= fst th < N /\
              match snd th with Some w => w_thread w = fst th /\ w_phase w <> Undefined
                              | None => True end) threads ->
    inv (SOmp mk items threads ex) tr
| inv_async mk next real got rest tr :
    async_ok mk next real got rest tr -> inv (SAsync mk next real got rest) tr
| inv_async_unwind e ws p tr :
    core ALL N ws p [e] tr ->
    NoDup (map w_thread ws) -> Forall (worker_ok N) ws ->
    inv (SAsyncUnwind e ws) tr
| inv_dyn real total d tr :
    dyn_ok real total d tr -> inv (SDyn real total d) tr
| inv_ok tr : core ALL N [] [] [] tr -> inv (SFinal (Ok tt)) tr
| inv_throw e tr : core ALL N [] [] [e] tr -> inv (SFinal (Throw e)) tr.

Lemma wstep_thread w ev w' : wstep w ev w' -> w_thread w' = w_thread w.
Proof. destruct 1; reflexivity. Qed.

Lemma wstep_defined w ev w' : wstep w ev w' -> w_phase w' <> Undefined.
Proof. destruct 1; discriminate. Qed.

Lemma wstep_not_finished w ev w' : wstep w ev w' -> ~ finished w.
Proof. destruct 1; unfold finished; simpl; auto; discriminate. Qed.

Lemma omp_workers_app a b : omp_workers (a ++ b) = omp_workers a ++ omp_workers b.
Proof. apply flat_map_app. Qed.

Lemma finished_cw w : finished w -> cw w = [].
Proof. unfold finished, cw. destruct (w_phase w); tauto || auto. Qed.

Lemma all_none_workers threads :
  Forall (fun th : Z * option worker => snd th = None) threads -> omp_workers threads = [].
Proof. induction 1 as [|th l H _ IH]; [reflexivity|]. simpl. rewrite H, IH. reflexivity. Qed.

Lemma core_eq ws ws' p p' x x' tr tr' :
  ws = ws' -> p = p' -> x = x' -> tr = tr' ->
  core ALL N ws p x tr -> core ALL N ws' p' x' tr'.
Proof. intros; subst; assumption. Qed.

Lemma filter_app' {A} (f : A -> bool) a b : filter f (a ++ b) = filter f a ++ filter f b.
Proof. induction a; simpl; [|destruct (f a)]; simpl; congruence. Qed.

Lemma count_live_app a b : count_live (a ++ b) = count_live a + count_live b.
Proof. unfold count_live. rewrite filter_app', app_length. lia. Qed.

Lemma count_live_cons p b :
  count_live (p :: b) = (match snd p with Live => 1 | _ => 0 end) + count_live b.
Proof. unfold count_live. cbn [filter]. destruct (snd p); cbn [length]; lia. Qed.

Lemma start_index_spec n t :
  int64_min <= n < int64_max -> 0 <= t ->
  start_index body n t = mkWorker t (body n (n + 1)) Idle.
Proof.
  intros Hn Ht. unfold start_index, start_range. rewrite i64_ok by lia.
  simpl. unfold ThreadWorkRange. destruct (Z.ltb_spec (n + 1) n); [lia|].
  destruct (Z.ltb_spec t 0); [lia|]. reflexivity.
Qed.

Lemma in_exited_app (a b : list (worker * stage)) w sg w' sg' :
  (exists v, In (v, Exited) (a ++ (w, sg) :: b)) -> sg <> Exited ->
  exists v, In (v, Exited) (a ++ (w', sg') :: b).
Proof.
  intros (v & Hv) Hs. exists v. rewrite in_app_iff in *. simpl in *.
  destruct Hv as [Hv|[Hv|Hv]]; auto. injection Hv as -> ->. congruence.
Qed.

Lemma app_neq_nil {A} (a : list A) x b : a ++ x :: b <> [].
Proof. destruct a; discriminate. Qed.

Lemma pc_ok_upd pc n live live' keep a w w' sg sg' b :
  sg <> Exited -> (live = live' \/ sg' = Exited) ->
  pc_ok (mkDyn pc n live keep (a ++ (w, sg) :: b)) ->
  pc_ok (mkDyn pc n live' keep (a ++ (w', sg') :: b)).
Proof.
  unfold pc_ok. intros Hs Hl. simpl. destruct pc; auto.
  - rewrite !app_length. simpl. lia.
  - intros _. apply app_neq_nil.
  - intros [_ H]. split; [apply app_neq_nil|]. destruct Hl as [<- | ->].
    + destruct H as [->|H]; [left; rewrite !app_length; reflexivity|].
      right. eapply in_exited_app; eassumption.
    + right. exists w'. rewrite in_app_iff. simpl. auto.
Qed.

Lemma count_live_le act : count_live act <= Z.of_nat (length act).
Proof.
  unfold count_live. induction act as [|p l IH]; [reflexivity|].
  cbn [filter length]. destruct (snd p); cbn [length]; lia.
Qed.

Lemma NoDup_app_r {A} (a b : list A) : NoDup (a ++ b) -> NoDup b.
Proof. induction a; simpl; [auto|]. inversion 1; auto. Qed.

Lemma core_drop_ok ALL' N' got rest p x tr :
  Forall (fun w => w_todo w = [] /\ w_phase w = Idle) got ->
  core ALL' N' (got ++ rest) p x tr -> core ALL' N' rest p x tr.
Proof.
  induction 1 as [|w got [H1 H2] _ IH]; [auto|]. intros Hc. apply IH.
  eapply (core_remove ALL' N' [] w (got ++ rest)); [..|exact Hc];
    unfold tw, cw, fw; rewrite ?H1, ?H2; reflexivity.
Qed.

Ltac dasync := match goal with H : async_ok _ _ _ _ _ _ |- _ =>
  destruct H as [Hc Hmk Hn Hr Hth Hd Hg Hg0] end.
Ltac ddyn := match goal with H : dyn_ok _ _ _ _ |- _ =>
  destruct H as [Hc Hk Hr Ht Hm Hd Hf Hl Hp] end.

Lemma step_inv spurious s tr ev s' :
  inv s tr -> step body spurious s ev s' -> inv s' (tr ++ ev).
Proof.
  intros I S. destruct S as
   [ w ev w' W | t | t todo e
   | mk i1 i i2 a t b ex | mk items a t w ev w' b ex W | mk items a t w b ex F | mk threads ex F
   | mk next real rest L | mk next real got a w ev w' b W | mk next real got t rest L
   | mk next real got t todo e rest L | mk next real got L | e a w ev w' b W | e ws F
   | real total pc n live keep a w ev w' b W | real total pc n live keep a w b F
   | real total pc n live keep a w b | real total pc n live keep a w b
   | real total n live keep act H | real total n live keep H
   | real total k n live keep a t b K | real total k n live keep a t todo e b K
   | real total k n live keep a w sg b K G | real total k n live keep act K
   | real total n live t keep act L1 L2 | real total n live act L1 L2
   | real total n live keep act H | real total n live keep act H | real total n live keep act H
   | real total n live keep act H | real total e n live keep act F ];
   inversion I; subst; clear I; rewrite ?app_nil_r.
  - (* serial work *) constructor.
    + eapply (core_wstep ALL N [] w ev w' []); [exact W| |eassumption].
      match goal with H : worker_ok _ _ |- _ => apply H end.
    + match goal with H : worker_ok _ _ |- _ => destruct H end.
      split; [rewrite (wstep_thread _ _ _ W); assumption|eapply wstep_defined; eassumption].
  - constructor. eapply (core_remove ALL N [] _ []); [..|eassumption]; reflexivity.
  - constructor. eapply core_abort; [..|eassumption].
    + repeat constructor.
    + simpl. auto.
  - (* take *)
    match goal with H : forall i t, In i _ -> _ |- _ => rename H into Hmk end.
    match goal with H : Forall _ (_ ++ _ :: _) |- _ => rename H into Hth end.
    assert (Ht : 0 <= t).
    { rewrite Forall_app in Hth. destruct Hth as [_ Hth]. inversion Hth; subst. simpl in *. tauto. }
    destruct (Hmk i t ltac:(rewrite in_app_iff; simpl; auto) Ht) as (E1 & E2 & E3).
    constructor; auto.
    + rewrite omp_workers_app in *. simpl in *.
      rewrite flat_map_app in *. simpl in *.
      eapply core_add; [symmetry; exact E3|unfold cw; rewrite E2; reflexivity
        |unfold fw; rewrite E2; reflexivity|assumption].
    + intros j u Hj Hu. apply Hmk; auto. rewrite in_app_iff in *. simpl. tauto.
    + rewrite map_app in *. assumption.
    + destruct a; discriminate.
    + rewrite Forall_app in *. destruct Hth as [Ha Hb]. split; [assumption|].
      inversion Hb; subst. constructor; [|assumption]. simpl in *. rewrite E2.
      intuition discriminate.
  - (* omp work *)
    match goal with H : Forall _ (_ ++ _ :: _) |- _ => rename H into Hth end.
    pose proof Hth as Hth'. rewrite Forall_app in Hth'. destruct Hth' as [Ha Hb].
    inversion Hb as [|? ? Hw Hb']; subst. simpl in Hw. destruct Hw as (Ht & Hwt & Hp).
    constructor; auto.
    + rewrite omp_workers_app in *. simpl in *. eapply core_wstep; [exact W|lia|assumption].
    + rewrite map_app in *. assumption.
    + destruct a; discriminate.
    + rewrite Forall_app. split; [assumption|]. constructor; [|assumption]. simpl.
      split; [assumption|]. rewrite (wstep_thread _ _ _ W).
      split; [assumption|eapply wstep_defined; eassumption].
  - (* iteration done *)
    match goal with H : Forall _ (_ ++ _ :: _) |- _ => rename H into Hth end.
    constructor; auto.
    + rewrite omp_workers_app in *. simpl in *. unfold finished in F.
      destruct (w_phase w) eqn:E; try contradiction.
      * eapply core_remove; [..|eassumption]; unfold tw, cw, fw; rewrite ?E, ?F; reflexivity.
      * simpl. eapply core_remove_failed; [..|eassumption]; unfold cw, fw; rewrite E; reflexivity.
    + rewrite map_app in *. assumption.
    + destruct a; discriminate.
    + rewrite Forall_app in *. destruct Hth as [Ha Hb]. split; [assumption|].
      inversion Hb; subst. constructor; [|assumption]. simpl in *. tauto.
  - (* omp return *)
    match goal with H : core _ _ _ _ _ _ |- _ => rename H into Hc end.
    rewrite (all_none_workers _ F) in Hc. simpl in Hc.
    destruct ex; simpl in Hc; constructor; assumption.
  - (* async dispatch *)
    dasync. simpl in *.
    destruct (Hmk next ltac:(lia)) as (E1 & E2).
    constructor. constructor; simpl; auto; try lia.
    + rewrite seqZ_cons in Hc by lia. simpl in Hc.
      apply (core_add ALL N rest (mk next) [] [] _ [] tr (tw (mk next))); auto.
      * unfold cw; rewrite E2; reflexivity.
      * unfold fw; rewrite E2; reflexivity.
      * rewrite app_nil_r. exact Hc.
    + intros k Hk. apply Hmk. lia.
    + rewrite map_app, Hth. simpl. rewrite E1.
      rewrite (seqZ_split 0 next (next + 1)) by lia. rewrite seqZ_one. reflexivity.
    + rewrite Forall_app. split; [assumption|]. constructor; [rewrite E2; discriminate|constructor].
  - (* async work *)
    dasync.
    assert (Hw : 0 <= w_thread w < next).
    { rewrite <- seqZ_in, <- Hth. apply in_map. rewrite !in_app_iff. simpl. auto. }
    constructor. constructor; auto.
    + rewrite app_assoc in *. eapply core_wstep; [exact W|lia|exact Hc].
    + rewrite <- Hth, !map_app. simpl. rewrite (wstep_thread _ _ _ W). reflexivity.
    + rewrite !Forall_app in *. destruct Hd as (Hd1 & Hd2 & Hd3). repeat split; auto.
      inversion Hd3; subst. constructor; auto. eapply wstep_defined; eassumption.
  - (* get *)
    dasync.
    constructor. constructor; rewrite <- ?app_assoc; auto.
    + rewrite Forall_app. split; [assumption|]. repeat constructor.
    + lia.
  - (* get throws *)
    dasync.
    econstructor.
    + eapply core_incl_extra; [|eapply (core_drop_ok ALL N got _); [exact Hg|exact Hc]].
      simpl. auto.
    + rewrite map_app in Hth. eapply NoDup_app_r. rewrite Hth. apply seqZ_nodup.
    + rewrite Forall_forall. intros w Hw. split.
      * cut (0 <= w_thread w < next); [lia|]. rewrite <- seqZ_in, <- Hth. apply in_map.
        rewrite in_app_iff. auto.
      * rewrite Forall_app in Hd. destruct Hd as [_ Hd]. rewrite Forall_forall in Hd. auto.
  - (* return *)
    dasync. constructor.
    rewrite seqZ_nil in Hc by lia. simpl in Hc.
    exact (core_drop_ok ALL N got [] [] [] tr Hg Hc).
  - (* unwind work *)
    match goal with H : Forall (worker_ok N) _ |- _ => pose proof H as Ho end. rewrite Forall_app in Ho. destruct Ho as [Ha Hb].
    inversion Hb as [|? ? [Hw Hp] Hb']; subst.
    econstructor.
    + eapply core_wstep; [exact W|lia|eassumption].
    + rewrite map_app in *. simpl. rewrite (wstep_thread _ _ _ W). assumption.
    + rewrite Forall_app. split; [assumption|]. constructor; [|assumption].
      split; [rewrite (wstep_thread _ _ _ W); assumption|eapply wstep_defined; eassumption].
  - constructor. eapply core_abort; [exact F| |eassumption]. rewrite in_app_iff. simpl. auto.
  - (* dyn work *)
    ddyn. simpl in *.
    assert (Hw : 0 <= w_thread w < N).
    { cut (0 <= w_thread w < real); [lia|]. rewrite <- seqZ_in. eapply Permutation_in; [exact Hk|].
      rewrite in_app_iff. right. apply in_map. apply (in_map fst _ (w, Live)).
      rewrite in_app_iff. simpl. auto. }
    rewrite Forall_app in Hd, Hf. destruct Hd as [Hd1 Hd2], Hf as [Hf1 Hf2].
    rewrite Forall_cons_iff in Hd2, Hf2; destruct Hd2 as [Hx1 Hx2], Hf2 as [Hy1 Hy2].
    constructor. constructor; simpl; auto.
    + rewrite map_app in *. simpl in *. eapply core_wstep; [exact W|lia|exact Hc].
    + rewrite <- Hk, !map_app. simpl. rewrite (wstep_thread _ _ _ W). reflexivity.
    + rewrite Forall_app. split; [assumption|]. constructor; [|assumption].
      eapply wstep_defined; eassumption.
    + rewrite Forall_app. split; [assumption|]. constructor; [|assumption]. simpl. congruence.
    + rewrite Hl, !count_live_app, ?count_live_cons; cbn [snd]; lia.
    + eapply pc_ok_upd; [..|exact Hp]; [discriminate|]. left. reflexivity.
  - (* decrement *)
    ddyn. simpl in *.
    rewrite Forall_app in Hd, Hf. destruct Hd as [Hd1 Hd2], Hf as [Hf1 Hf2].
    rewrite Forall_cons_iff in Hd2, Hf2; destruct Hd2 as [Hx1 Hx2], Hf2 as [Hy1 Hy2].
    constructor. constructor; simpl; auto; rewrite ?map_app in *; simpl in *; auto.
    + rewrite Forall_app. auto.
    + rewrite Forall_app. auto.
    + rewrite Hl, !count_live_app, ?count_live_cons; cbn [snd]; lia.
    + eapply pc_ok_upd; [..|exact Hp]; [discriminate|]. right. reflexivity.
  - (* notify *)
    ddyn. simpl in *.
    rewrite Forall_app in Hd, Hf. destruct Hd as [Hd1 Hd2], Hf as [Hf1 Hf2].
    rewrite Forall_cons_iff in Hd2, Hf2; destruct Hd2 as [Hx1 Hx2], Hf2 as [Hy1 Hy2].
    constructor. constructor; simpl; auto; rewrite ?map_app in *; simpl in *; auto.
    + destruct pc; exact Hc.
    + rewrite Forall_app. auto.
    + rewrite Forall_app. split; [assumption|]. constructor; [|assumption]. simpl. intros _.
      apply Hy1. discriminate.
    + rewrite Hl, !count_live_app, ?count_live_cons; cbn [snd]; lia.
    + unfold pc_ok in *. simpl in *. destruct pc; simpl; auto.
      * rewrite app_length in *. simpl in *. lia.
      * apply app_neq_nil.
      * apply app_neq_nil.
  - (* ready *)
    ddyn. simpl in *.
    rewrite Forall_app in Hd, Hf. destruct Hd as [Hd1 Hd2], Hf as [Hf1 Hf2].
    rewrite Forall_cons_iff in Hd2, Hf2; destruct Hd2 as [Hx1 Hx2], Hf2 as [Hy1 Hy2].
    constructor. constructor; simpl; auto; rewrite ?map_app in *; simpl in *; auto.
    + rewrite Forall_app. auto.
    + rewrite Forall_app. split; [assumption|]. constructor; [|assumption]. simpl. intros _.
      apply Hy1. discriminate.
    + rewrite Hl, !count_live_app, ?count_live_cons; cbn [snd]; lia.
    + eapply pc_ok_upd; [..|exact Hp]; [discriminate|]. left. reflexivity.
  - (* loop head *)
    ddyn. constructor. constructor; simpl in *; auto.
    unfold pc_ok; simpl; lia.
  - ddyn. simpl in *. constructor.
    rewrite seqZ_nil in Hc by lia. exact Hc.
  - (* reap *)
    ddyn. simpl in *.
    rewrite Forall_app in Hd, Hf. destruct Hd as [Hd1 Hd2], Hf as [Hf1 Hf2].
    rewrite Forall_cons_iff in Hd2, Hf2; destruct Hd2 as [Hx1 Hx2], Hf2 as [Hy1 Hy2].
    constructor. constructor; simpl; auto.
    + rewrite map_app in *. simpl in *. eapply core_remove; [..|exact Hc]; reflexivity.
    + rewrite <- Hk, !map_app. simpl. rewrite <- app_assoc. apply Permutation_app_head.
      simpl. apply Permutation_middle.
    + rewrite Forall_app. auto.
    + rewrite Forall_app. auto.
    + rewrite Hl, !count_live_app, ?count_live_cons; cbn [snd]; lia.
    + unfold pc_ok in *; simpl in *. rewrite app_length. lia.
  - (* reap throws *)
    ddyn. simpl in *.
    constructor. constructor; simpl; auto.
    + eapply core_incl_extra; [|exact Hc]. rewrite map_app, flat_map_app, !in_app_iff. simpl. auto.
    + exact Logic.I.
  - (* skip *)
    ddyn. simpl in *.
    constructor. constructor; simpl; auto.
    unfold pc_ok in *; simpl in *. rewrite app_length in *. simpl in *. lia.
  - ddyn. simpl in *.
    constructor. constructor; simpl; auto. exact Logic.I.
  - (* dispatch *)
    ddyn. simpl in *.
    assert (Hi : 0 <= t < real).
    { rewrite <- seqZ_in. eapply Permutation_in; [exact Hk|]. left. reflexivity. }
    rewrite start_index_spec by (unfold int64_min; lia).
    constructor. constructor; simpl; auto; try lia.
    + rewrite map_app. simpl. rewrite seqZ_cons in Hc by lia.
      apply (core_add ALL N _ _ [] [] _ [] tr [n]); try reflexivity.
      * unfold tw. simpl. rewrite body_covers by exact Hbody. rewrite seqZ_one. reflexivity.
      * rewrite app_nil_r. exact Hc.
    + rewrite !map_app. simpl. rewrite app_assoc. rewrite <- Permutation_cons_append. exact Hk.
    + rewrite Forall_app. split; [assumption|]. constructor; [discriminate|constructor].
    + rewrite Forall_app. split; [assumption|]. constructor; [simpl; congruence|constructor].
    + rewrite count_live_app, count_live_cons. simpl. change (count_live []) with 0. lia.
  - (* no number: impossible *)
    ddyn. simpl in *.
    apply Permutation_length in Hk. rewrite !map_length in Hk.
    pose proof (seqZ_length 0 real). lia.
  - ddyn. simpl in *.
    constructor. constructor; simpl; auto.
    + destruct act; exact Hc.
    + unfold pc_ok; simpl; destruct act; simpl; [exact Logic.I|discriminate].
  - ddyn. simpl in *.
    constructor. constructor; simpl; auto. exact Logic.I.
  - ddyn. simpl in *.
    constructor. constructor; simpl; auto. unfold pc_ok in *; simpl in *.
    split; [assumption|]. left. pose proof (count_live_le act). lia.
  - ddyn. simpl in *.
    constructor. constructor; simpl; auto. unfold pc_ok in *; simpl in *. tauto.
  - ddyn. simpl in *. constructor.
    eapply core_abort; [| |exact Hc].
    + rewrite Forall_map. rewrite Forall_forall in *. intros p Hpin. apply Hf; [assumption|].
      rewrite (F _ Hpin). discriminate.
    + rewrite in_app_iff. simpl. auto.
Qed.

(** ** Initial states *)

Lemma core_init ws p :
  Permutation (flat_map tw ws ++ p) ALL ->
  Forall (fun w => w_phase w = Idle) ws -> core ALL N ws p [] [].
Proof.
  intros P F.
  assert (Hc : flat_map cw ws = [] /\ flat_map fw ws = []).
  { clear P. induction F as [|w l H _ [IH1 IH2]]; [split; reflexivity|].
    simpl. rewrite IH1, IH2. unfold cw, fw. rewrite H. split; reflexivity. }
  destruct Hc as [Hc Hf]. split; simpl.
  - exists []. rewrite app_nil_r. split; [exact P|reflexivity].
  - rewrite Hc. constructor.
  - constructor.
  - rewrite Hf. intros x [].
  - reflexivity.
Qed.
End Inv.

Lemma flat_map_ext_in {A B} (f g : A -> list B) l :
  (forall x, In x l -> f x = g x) -> flat_map f l = flat_map g l.
Proof.
  induction l as [|x l IH]; intros H; [reflexivity|]. simpl.
  rewrite (H x (or_introl eq_refl)), IH; [reflexivity|]. intros y Hy. apply H. right. exact Hy.
Qed.

Lemma flat_map_chain (a : Z -> Z) n :
  0 <= n -> (forall k, 0 <= k < n -> a k <= a (k + 1)) ->
  flat_map (fun k => seqZ (a k) (a (k + 1))) (seqZ 0 n) = seqZ (a 0) (a n).
Proof.
  intros Hn Hm. rewrite <- (Z2Nat.id n) in * by assumption.
  induction (Z.to_nat n) as [|m IH].
  - rewrite (seqZ_nil (a 0)) by (simpl; lia). reflexivity.
  - rewrite Nat2Z.inj_succ in *. unfold Z.succ in *.
    rewrite (seqZ_split 0 (Z.of_nat m) (Z.of_nat m + 1)) by lia.
    rewrite flat_map_app, IH by (intros; try apply Hm; lia). rewrite seqZ_one. simpl.
    rewrite app_nil_r. symmetry. apply seqZ_split. split; [|apply Hm; lia].
    assert (G : forall j : nat, Z.of_nat j <= Z.of_nat m -> a 0 <= a (Z.of_nat j)).
    { induction j as [|j IHj]; intros Hj; [simpl; lia|].
      rewrite Nat2Z.inj_succ in *. unfold Z.succ in *.
      etransitivity; [apply IHj; lia|]. apply Hm. lia. }
    apply G. lia.
Qed.

Section Init.
Variable body : Z -> Z -> list (Z * Z).
Hypothesis Hbody : loop_body body.

Lemma start_range_spec lo hi t : lo <= hi -> 0 <= t ->
  start_range body (Ok (lo, hi)) t = mkWorker t (body lo hi) Idle.
Proof.
  intros. unfold start_range. simpl. unfold ThreadWorkRange.
  destruct (Z.ltb_spec hi lo); [lia|]. destruct (Z.ltb_spec t 0); [lia|]. reflexivity.
Qed.

Lemma start_share_spec rs re n k t :
  int64_min <= rs -> rs <= re -> re <= int64_max -> re - rs <= int64_max ->
  1 < n -> n <= int64_max -> 0 <= k < n -> 0 <= t ->
  start_share body rs re n k t =
  mkWorker t (body (share_start rs re n k) (share_start rs re n (k + 1))) Idle.
Proof.
  intros. unfold start_share. rewrite Calc_spec by lia.
  apply start_range_spec; [apply share_mono; lia|assumption].
Qed.

Lemma omp_team_workers ob team real : omp_workers (omp_team ob team real) = [].
Proof.
  apply all_none_workers. unfold omp_team. rewrite Forall_map. rewrite Forall_forall. reflexivity.
Qed.

Lemma omp_team_fst ob team real :
  map fst (omp_team ob team real) = seq_from 0 (if ob then Nat.min team (Z.to_nat real) else 1).
Proof. unfold omp_team. rewrite map_map. simpl. apply map_id. Qed.

Lemma omp_team_ok ob team real N : (1 <= team)%nat -> 1 <= real <= N ->
  NoDup (map fst (omp_team ob team real)) /\ omp_team ob team real <> [] /\
  Forall (fun th => 0 <= fst th < N /\
              match snd th with Some w => w_thread w = fst th /\ w_phase w <> Undefined
                              | None => True end) (omp_team ob team real).
Proof.
  intros H1 H2. split; [rewrite omp_team_fst; apply seq_from_nodup|]. split.
  - intros E. apply (f_equal (map fst)) in E. rewrite omp_team_fst in E.
    apply (f_equal (@length Z)) in E. rewrite seq_from_length in E. simpl in E.
    destruct ob; lia.
  - unfold omp_team. rewrite Forall_map, Forall_forall. intros t Ht. rewrite seq_from_in in Ht.
    simpl. split; [|exact I]. destruct ob; lia.
Qed.

Lemma degree_ok n : DegreeOfParallelism n = Ok n -> 1 <= n.
Proof. unfold DegreeOfParallelism. destruct (Z.leb_spec 1 n); [auto|discriminate]. Qed.

Lemma serial_inv n rs re : 1 <= n -> rs <= re ->
  inv (seqZ rs re) n (SSerial (start_range body (Ok (rs, re)) 0)) [].
Proof.
  intros Hn Hle. rewrite start_range_spec by lia. constructor.
  - apply core_init; [|repeat constructor]. simpl. rewrite !app_nil_r.
    unfold tw. simpl. rewrite body_covers by exact Hbody. reflexivity.
  - split; simpl; [lia|discriminate].
Qed.

Lemma static_inv ob team n rs re bk : valid_call n rs re team ->
  inv (seqZ rs re) n (StaticParallelForLoop body ob team n rs re bk) [].
Proof.
  intros (Hn & H1 & H2 & H3 & H4 & Ht). apply degree_ok in Hn.
  unfold StaticParallelForLoop. destruct (Z.ltb_spec re rs); [lia|].
  rewrite i64_ok by (unfold int64_min; lia).
  destruct (Z.eqb_spec (re - rs) 0) as [E|E].
  { constructor. apply core_init; [|constructor]. rewrite seqZ_nil by lia. constructor. }
  unfold IsParallel.
  destruct (Z.ltb_spec 1 n) as [Hpar|]; simpl; [|apply serial_inv; lia].
  destruct (Z.eqb_spec (re - rs) 1) as [E1|E1]; [apply serial_inv; lia|].
  set (real := Z.min n (re - rs)).
  assert (Hreal : 1 < real /\ real <= n /\ real <= int64_max) by lia.
  assert (Hp : forall t, 0 <= t -> flat_map (fun k => tw (start_share body rs re real k t)) (seqZ 0 real) = seqZ rs re).
  { intros t Ht0. rewrite (flat_map_ext_in _ (fun k => seqZ (share_start rs re real k) (share_start rs re real (k + 1)))).
    - rewrite flat_map_chain, share_start_0, share_start_n; try lia. reflexivity.
      intros k Hk. apply share_mono; lia.
    - intros k Hk. rewrite seqZ_in in Hk. rewrite start_share_spec by lia.
      unfold tw. simpl. apply body_covers. exact Hbody. }
  destruct (use_omp ob bk).
  - destruct (omp_team_ok ob team real n Ht ltac:(lia)) as (T1 & T2 & T3).
    constructor; auto.
    + rewrite omp_team_workers. apply core_init; [|constructor].
      change (flat_map tw [] ++ ?l) with l. rewrite Hp by lia. reflexivity.
    + intros i t Hi Ht0. rewrite seqZ_in in Hi. rewrite !start_share_spec by lia.
      repeat split.
  - constructor. constructor; auto; try lia.
    + change ([] ++ []) with (@nil worker). apply core_init; [|constructor].
      change (flat_map tw [] ++ ?l) with l.
      rewrite <- (Hp 0) by lia.
      rewrite (flat_map_ext_in _ (fun k => tw (start_share body rs re real k 0))); [reflexivity|].
      intros k Hk. rewrite seqZ_in in Hk. rewrite !start_share_spec by lia. reflexivity.
    + intros k Hk. rewrite start_share_spec by lia. split; reflexivity.
    + constructor.
Qed.

(** The dynamic ASYNC loop runs the indices [0, end - start). *)
Definition dynamic_indices (ob : bool) (n rs re : Z) (bk : backend) : list Z :=
  if use_omp ob bk || (n =? 1) || (re - rs =? 1) then seqZ rs re else seqZ 0 (re - rs).

Lemma dynamic_inv ob team n rs re bk : valid_call n rs re team ->
  inv (dynamic_indices ob n rs re bk) n (DynamicParallelForLoop body ob team n rs re bk) [].
Proof.
  intros (Hn & H1 & H2 & H3 & H4 & Ht). apply degree_ok in Hn.
  unfold DynamicParallelForLoop, dynamic_indices. destruct (Z.ltb_spec re rs); [lia|].
  rewrite i64_ok by (unfold int64_min; lia).
  destruct (Z.eqb_spec (re - rs) 0) as [E|E].
  { constructor. apply core_init; [|constructor].
    destruct (_ || _); rewrite seqZ_nil by lia; constructor. }
  unfold IsParallel.
  destruct (Z.ltb_spec 1 n) as [Hpar|Hpar].
  2:{ replace (n =? 1) with true by lia. rewrite orb_true_r. simpl. apply serial_inv; lia. }
  destruct (Z.eqb_spec (re - rs) 1) as [E1|E1].
  { rewrite orb_true_r. simpl. apply serial_inv; lia. }
  replace (n =? 1) with false by lia. rewrite !orb_false_r. simpl negb. simpl orb. cbv iota.
  set (real := Z.min n (re - rs)).
  destruct (use_omp ob bk).
  - destruct (omp_team_ok ob team real n Ht ltac:(lia)) as (T1 & T2 & T3).
    constructor; auto.
    + rewrite omp_team_workers. apply core_init; [|constructor].
      change (flat_map tw [] ++ ?l) with l.
      rewrite (flat_map_ext_in _ (fun i => [i])).
      * assert (E2 : forall l : list Z, flat_map (fun i => [i]) l = l).
        { induction l as [|x l IH]; simpl; congruence. }
        rewrite E2. reflexivity.
      * intros i Hi. rewrite seqZ_in in Hi. rewrite start_index_spec by lia.
        unfold tw. simpl. rewrite body_covers by exact Hbody. apply seqZ_one.
    + intros i t Hi Ht0. rewrite seqZ_in in Hi. rewrite !start_index_spec by lia. repeat split.
  - constructor. constructor; simpl; auto; try lia.
    + apply core_init; [reflexivity|constructor].
    + rewrite app_nil_r. reflexivity.
    + reflexivity.
Qed.

Lemma run_inv ALL N spurious s tr s' :
  inv ALL N s [] -> run body spurious s tr s' -> inv ALL N s' tr.
Proof.
  intros I R. induction R as [|tr s1 ev s2 R IH S]; [exact I|].
  exact (step_inv body Hbody ALL N spurious s1 tr ev s2 IH S).
Qed.

(** ** What the invariant says about observable behaviour *)

(** Every state of an execution: no two running calls share a thread number and
    no index is handed out twice. *)
Lemma inv_core ALL N s tr : inv ALL N s tr ->
  exists ws p x, core ALL N ws p x tr /\ NoDup (map w_thread ws) /\
    Forall (fun w => 0 <= w_thread w < N) ws.
Proof.
  intros I. destruct I as [w tr Hc Hw|mk items th ex tr Hc Hmk Hnd Hne Hth
    |mk next real got rest tr H|e ws p tr Hc Hnd Hw|real total d tr H|tr Hc|e tr Hc].
  - exists [w], [], []. split; [exact Hc|]. split; [repeat constructor; auto|].
    constructor; [apply Hw|constructor].
  - eexists; eexists; eexists. split; [exact Hc|].
    clear -Hnd Hth. induction th as [|[t [w|]] th IH]; simpl in *.
    + split; constructor.
    + rewrite Forall_cons_iff in Hth. destruct Hth as [(Ht & Hw & _) Hth]. simpl in *.
      inversion Hnd as [|? ? Hni Hnd']; subst.
      destruct (IH Hnd' Hth) as [I1 I2]. split; constructor; auto.
      * rewrite in_map_iff. intros (w' & E & Hin). apply Hni. unfold omp_workers in Hin.
        rewrite in_flat_map in Hin. destruct Hin as ([t' [w2|]] & Hin & Hw2); [|destruct Hw2].
        destruct Hw2 as [->|[]]. rewrite Forall_forall in Hth. specialize (Hth _ Hin). simpl in Hth.
        destruct Hth as (_ & Hth & _). apply in_map_iff. exists (t', Some w'). simpl. split; [congruence|exact Hin].
    + rewrite Forall_cons_iff in Hth. inversion Hnd; subst. apply IH; tauto.
  - destruct H as [Hc Hmk Hn Hr Hth Hd Hg Hg0]. eexists; eexists; eexists. split; [exact Hc|].
    rewrite Hth. split; [apply seqZ_nodup|]. rewrite Forall_forall. intros w Hw.
    cut (0 <= w_thread w < next); [lia|]. rewrite <- seqZ_in, <- Hth. apply in_map. exact Hw.
  - eexists; eexists; eexists. split; [exact Hc|]. split; [exact Hnd|].
    eapply Forall_impl; [|exact Hw]. intros w [H _]. exact H.
  - destruct H as [Hc Hk Hr Ht Hm Hd Hf Hl Hp]. eexists; eexists; eexists. split; [exact Hc|].
    split.
    + eapply (NoDup_app_r (d_keeper d)). eapply Permutation_NoDup; [symmetry; exact Hk|apply seqZ_nodup].
    + rewrite Forall_forall. intros w Hw. cut (0 <= w_thread w < real); [lia|].
      rewrite <- seqZ_in. eapply Permutation_in; [exact Hk|]. rewrite in_app_iff. right.
      apply in_map. exact Hw.
  - exists [], [], []. split; [exact Hc|]. split; constructor.
  - exists [], [], [e]. split; [exact Hc|]. split; constructor.
Qed.

Lemma inv_running ALL N s tr : inv ALL N s tr ->
  NoDup (map fst (running tr)) /\ Forall (fun c => 0 <= fst c < N) (running tr) /\
  (0 <= N -> Z.of_nat (length (running tr)) <= N).
Proof.
  intros I. destruct (inv_core _ _ _ _ I) as (ws & p & x & Hc & Hnd & Hf).
  assert (Hsub : map fst (flat_map cw ws) = flat_map (fun w => map fst (cw w)) ws).
  { rewrite !flat_map_concat_map, concat_map, map_map. reflexivity. }
  assert (Hnd2 : NoDup (map fst (flat_map cw ws)) /\ Forall (fun c => 0 <= fst c < N) (flat_map cw ws)).
  { clear Hc Hsub. induction ws as [|w ws IH]; [split; constructor|].
    inversion Hnd as [|? ? Hni Hnd']; subst. rewrite Forall_cons_iff in Hf. destruct Hf as [Hw Hf].
    destruct (IH Hnd' Hf) as [I1 I2]. simpl. unfold cw at 1 3.
    destruct (w_phase w) as [|lo hi| |]; simpl; auto.
    split; constructor; auto. intros Hin. apply Hni. rewrite in_map_iff in Hin.
    destruct Hin as ([t c] & E & Hin). simpl in E. subst t. rewrite in_flat_map in Hin.
    destruct Hin as (w' & Hw' & Hc). unfold cw in Hc. destruct (w_phase w'); try destruct Hc.
    - injection H as E _. rewrite <- E. apply in_map. exact Hw'.
    - destruct H. }
  destruct Hnd2 as [D1 D2]. pose proof (core_running _ _ _ _ _ _ Hc) as R.
  assert (A : NoDup (map fst (running tr))).
  { eapply Permutation_NoDup; [|exact D1]. apply Permutation_map. symmetry. exact R. }
  assert (B : Forall (fun c => 0 <= fst c < N) (running tr)).
  { rewrite Forall_forall in *. intros c Hin. apply D2. eapply Permutation_in; eassumption. }
  split; [exact A|]. split; [exact B|]. intros HN.
  assert (L : (length (map fst (running tr)) <= length (seqZ 0 N))%nat).
  { apply NoDup_incl_length; [exact A|]. intros t Hin. rewrite in_map_iff in Hin.
    destruct Hin as (c & <- & Hin). rewrite seqZ_in. rewrite Forall_forall in B. apply B. exact Hin. }
  rewrite map_length in L. pose proof (seqZ_length 0 N). lia.
Qed.

Lemma inv_visits ALL N s tr : inv ALL N s tr ->
  exists rest, Permutation (visited tr ++ rest) ALL.
Proof.
  intros I. destruct (inv_core _ _ _ _ I) as (ws & p & x & Hc & _).
  destruct (core_perm _ _ _ _ _ _ Hc) as (d & P & _). eexists. exact P.
Qed.

Lemma inv_thread_numbers ALL N s tr : inv ALL N s tr ->
  Forall (fun t => 0 <= t < N) (thread_numbers tr).
Proof.
  intros I. destruct (inv_core _ _ _ _ I) as (ws & p & x & Hc & _).
  exact (core_threads _ _ _ _ _ _ Hc).
Qed.

Lemma inv_final ALL N r tr : inv ALL N (SFinal r) tr ->
  running tr = [] /\
  ((r = Ok tt /\ thrown tr = [] /\ Permutation (visited tr) ALL) \/
   (exists e, r = Throw e /\ In e (thrown tr))).
Proof.
  intros I. inversion I as [| | | | |tr' Hc E|e tr' Hc E]; subst;
    (split; [apply Permutation_nil; symmetry; exact (core_running _ _ _ _ _ _ Hc)|]).
  - left. split; [reflexivity|]. split; [exact (core_clean _ _ _ _ _ _ Hc eq_refl)|].
    destruct (core_perm _ _ _ _ _ _ Hc) as (d & P & D). rewrite (D eq_refl) in P.
    simpl in P. rewrite app_nil_r in P. exact P.
  - right. exists e. split; [reflexivity|]. apply (core_incl _ _ _ _ _ _ Hc). left. reflexivity.
Qed.

End Init.
