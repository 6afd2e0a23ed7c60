(** Proofs about the collection of primitives and the selection of the next
    primitive (C66, C67, C87). *)
From Coq Require Import String.
From Verif Require Import Base SearchModel SearchSpec SearchProof SearchProof2 TaskModel TaskSpec.
Local Open Scope Z_scope.
Local Open Scope list_scope.

(** * The collection *)
Section Registry.
Context {State C W : Type}.
Notation prim := (primitive State C W).
Notation rop := (registry_op State C W).
Implicit Types (lg : option (string -> outcome unit)) (ps : list prim).

Lemma keep_filter lg names ps kept : keep_others lg names ps = Ok kept ->
  kept = filter (fun p => negb (existsb (String.eqb (Name p)) names)) ps.
Proof.
  revert kept. induction ps as [|p ps IH]; intros kept; cbn [keep_others filter]; [now intros [= <-]|].
  destruct (existsb (String.eqb (Name p)) names); cbn [negb].
  - destruct (Log lg (Name p)); try discriminate. cbn. apply IH.
  - destruct (keep_others lg names ps) as [k| | |] eqn:E; try discriminate. cbn. intros [= <-]. f_equal. apply IH. reflexivity.
Qed.
Lemma keep_ok lg names ps : (forall p, In p ps -> In (Name p) names -> Log lg (Name p) = Ok tt) ->
  keep_others lg names ps = Ok (filter (fun p => negb (existsb (String.eqb (Name p)) names)) ps).
Proof.
  induction ps as [|p ps IH]; intros H; cbn [keep_others filter]; [reflexivity|].
  destruct (existsb (String.eqb (Name p)) names) eqn:E; cbn [negb].
  - rewrite H; [|now left|]; [cbn; apply IH; intros; apply H; [now right|assumption]|].
    apply existsb_exists in E as (n & Hn & En). apply String.eqb_eq in En. now rewrite En.
  - rewrite IH; [reflexivity|]. intros q Hq. apply H. now right.
Qed.
Lemma kept_in names ps p :
  In p (filter (fun p => negb (existsb (String.eqb (Name p)) names)) ps) <-> In p ps /\ ~ In (Name p) names.
Proof.
  rewrite filter_In, negb_true_iff. split; intros [A B]; split; try exact A.
  - intros H. assert (existsb (String.eqb (Name p)) names = true); [|congruence]. apply existsb_exists. exists (Name p). split; [exact H|apply String.eqb_refl].
  - destruct (existsb (String.eqb (Name p)) names) eqn:E; [|reflexivity]. exfalso. apply existsb_exists in E as (n & Hn & En). apply String.eqb_eq in En. apply B. now rewrite En.
Qed.
Lemma in_use (ps : list prim) n : existsb (fun q => String.eqb (Name q) n) ps = true <-> In n (map Name ps).
Proof.
  rewrite existsb_exists, in_map_iff. split; intros (q & A & B).
  - exists q. apply String.eqb_eq in B. auto.
  - exists q. split; [exact B|]. now apply String.eqb_eq.
Qed.

(** What one call does to the primitives. *)
Lemma call_cases lg ps (o : rop) :
  snd (call lg ps o) = ps \/
  match o with
  | Register p => ~ In (Name p) (map Name ps) /\ snd (call lg ps o) = ps ++ [p]
  | Unregister names => snd (call lg ps o) = filter (fun p => negb (existsb (String.eqb (Name p)) names)) ps
  | Clear => snd (call lg ps o) = []
  end.
Proof.
  destruct o as [p|names|]; cbn [call].
  - unfold RegisterPrimitive. destruct (existsb _ ps) eqn:E; [now left|]. destruct (Log lg (Name p)); auto. right. split; [|reflexivity].
    intros H. apply in_use in H. congruence.
  - unfold UnregisterPrimitivesByName. destruct (keep_others lg names ps) eqn:E; auto. right. apply keep_filter in E. now subst.
  - now right.
Qed.
Lemma nodup_filter_names (f : prim -> bool) ps : NoDup (map Name ps) -> NoDup (map Name (filter f ps)).
Proof.
  induction ps as [|p ps IH]; [easy|]. cbn. intros HN. inversion HN as [|? ? NI ND]; subst. destruct (f p); [|now apply IH].
  cbn. constructor; [|now apply IH]. intros HI. apply NI. apply in_map_iff in HI as (q & Eq & Hq). rewrite <- Eq. apply in_map. now apply filter_In in Hq.
Qed.
Lemma call_unique lg ps o : NoDup (map Name ps) -> NoDup (map Name (snd (call lg ps o))).
Proof.
  intros H. destruct (call_cases lg ps o) as [->|K]; [exact H|]. destruct o as [p|names|].
  - destruct K as [N ->]. rewrite map_app. cbn. apply NoDup_rev in H. rewrite <- rev_involutive. apply NoDup_rev. rewrite rev_app_distr. cbn. constructor; [|exact H].
    rewrite <- in_rev. exact N.
  - rewrite K. now apply nodup_filter_names.
  - rewrite K. constructor.
Qed.
Lemma after_unique lg l : forall ps, NoDup (map Name ps) -> NoDup (map Name (after lg ps l)).
Proof. induction l as [|o l IH]; intros ps H; [exact H|]. cbn. apply IH. now apply call_unique. Qed.

Lemma after_app lg l l' : forall ps, after lg ps (l ++ l') = after lg (after lg ps l) l'.
Proof. induction l as [|o l IH]; intros ps; [reflexivity|]. cbn. apply IH. Qed.

(** Exactly what each call does when the logger returns. *)
Lemma register_spec lg ps p : (forall n, Log lg n = Ok tt) ->
  call lg ps (Register p) = if existsb (fun q => String.eqb (Name q) (Name p)) ps then (Throw InvalidArgument, ps) else (Ok tt, ps ++ [p]).
Proof. intros L. cbn. destruct (existsb _ ps); [reflexivity|]. now rewrite L. Qed.
Lemma unregister_spec lg ps names : (forall n, Log lg n = Ok tt) ->
  call lg ps (Unregister names) = (Ok tt, filter (fun p => negb (existsb (String.eqb (Name p)) names)) ps).
Proof. intros L. cbn. unfold UnregisterPrimitivesByName. now rewrite keep_ok by (intros; apply L). Qed.

Lemma removes_dec (o : rop) n : {removes o n} + {~ removes o n}.
Proof. destruct o; cbn; [now right|apply In_dec, string_dec|now left]. Qed.
Lemma registers_dec (o : rop) n : {registers o n} + {~ registers o n}.
Proof. destruct o; cbn; [apply string_dec|now right|now right]. Qed.

Lemma some_removal (l : list rop) n j i :
  (exists k o', (j < k < i)%nat /\ nth_error l k = Some o' /\ removes o' n) \/
  (forall k o', (j < k < i)%nat -> nth_error l k = Some o' -> ~ removes o' n).
Proof.
  induction i as [|i IH]; [right; intros; lia|].
  destruct IH as [(k & o' & A & B & D)|N]; [left; exists k, o'; repeat split; auto; lia|].
  destruct (le_lt_dec i j) as [|Hj]; [right; intros; lia|].
  destruct (nth_error l i) as [o|] eqn:E.
  - destruct (removes_dec o n) as [R|R]; [left; exists i, o; repeat split; auto; lia|].
    right. intros k o' Hk Ek. destruct (Nat.eq_dec k i) as [->|]; [congruence|]. apply (N k); [lia|exact Ek].
  - right. intros k o' Hk Ek. destruct (Nat.eq_dec k i) as [->|]; [congruence|]. apply (N k); [lia|exact Ek].
Qed.

(** A registration of a name that no later call removes implies that some
    primitive holds the name. *)
Lemma holder (l : list rop) n j : forall o, nth_error l j = Some o -> registers o n ->
  (forall k o', (k > j)%nat -> nth_error l k = Some o' -> ~ removes o' n) -> exists i p, Name p = n /\ registered_by l i p.
Proof.
  induction j as [j IH] using lt_wf_ind. intros o Ho R NR.
  destruct o as [p| |]; try contradiction. cbn in R.
  assert (D : (exists j' o', (j' < j)%nat /\ nth_error l j' = Some o' /\ registers o' n /\
                (forall k o2, (j' < k < j)%nat -> nth_error l k = Some o2 -> ~ removes o2 n)) \/
              (forall j' o', (j' < j)%nat -> nth_error l j' = Some o' -> registers o' n ->
                exists k o2, (j' < k < j)%nat /\ nth_error l k = Some o2 /\ removes o2 n)).
  { assert (G : forall m, (m <= j)%nat ->
      (exists j' o', (j' < m)%nat /\ nth_error l j' = Some o' /\ registers o' n /\
         (forall k o2, (j' < k < j)%nat -> nth_error l k = Some o2 -> ~ removes o2 n)) \/
      (forall j' o', (j' < m)%nat -> nth_error l j' = Some o' -> registers o' n ->
         exists k o2, (j' < k < j)%nat /\ nth_error l k = Some o2 /\ removes o2 n)).
    { induction m as [|m IHm]; intros Hm; [right; intros; lia|].
      destruct (IHm ltac:(lia)) as [(j' & o' & A & B)|N]; [left; exists j', o'; split; [lia|exact B]|].
      destruct (nth_error l m) as [om|] eqn:Em.
      - destruct (registers_dec om n) as [Rm|Rm].
        + destruct (some_removal l n m j) as [Y|Nn].
          * right. intros j' o' Hj' Ej' Rj'. destruct (Nat.eq_dec j' m) as [->|]; [exact Y|]. apply (N j' o'); auto; lia.
          * left. exists m, om. repeat split; auto.
        + right. intros j' o' Hj' Ej' Rj'. destruct (Nat.eq_dec j' m) as [->|]; [congruence|]. apply (N j' o'); auto; lia.
      - right. intros j' o' Hj' Ej' Rj'. destruct (Nat.eq_dec j' m) as [->|]; [congruence|]. apply (N j' o'); auto; lia. }
    exact (G j ltac:(lia)). }
  destruct D as [(j' & o' & Hj & Ej & Rj & Nj)|D].
  - apply (IH j' Hj o' Ej Rj). intros k o2 Hk Ek. destruct (Nat.lt_trichotomy k j) as [Hlt|[->|Hgt]].
    + now apply (Nj k).
    + rewrite Ho in Ek. injection Ek as <-. exact (fun F => F).
    + now apply (NR k).
  - exists j, p. split; [exact R|]. split; [exact Ho|]. rewrite R. split; [exact NR|exact D].
Qed.

Lemma registered_in lg (l : list rop) : (forall n, Log lg n = Ok tt) ->
  forall p, In p (after lg [] l) <-> exists i, registered_by l i p.
Proof.
  intros LG. induction l as [|o l IH] using rev_ind; intros p.
  - cbn. split; [easy|]. intros (i & E & _). now destruct i.
  - rewrite after_app. cbn [after]. set (ps := after lg [] l) in *.
    assert (OLD : forall i, (i < length l)%nat -> (registered_by (l ++ [o]) i p <-> registered_by l i p /\ ~ removes o (Name p))).
    { intros i Hi. unfold registered_by. rewrite nth_error_app1 by exact Hi. split.
      - intros (A & B & D). split; [split; [exact A|split]|].
        + intros j o' Hj Ej. apply (B j o' Hj). rewrite nth_error_app1; [exact Ej|]. apply nth_error_Some. congruence.
        + intros j o' Hj Ej R. destruct (D j o' Hj) as (k & o2 & Hk & Ek & R2); [rewrite nth_error_app1 by lia; exact Ej|exact R|].
          exists k, o2. rewrite nth_error_app1 in Ek by lia. auto.
        + apply (B (length l) o); [lia|]. rewrite nth_error_app2, Nat.sub_diag by lia. reflexivity.
      - intros ((A & B & D) & N). split; [exact A|]. split.
        + intros j o' Hj Ej. destruct (lt_dec j (length l)) as [Hl|Hl].
          * rewrite nth_error_app1 in Ej by exact Hl. now apply (B j).
          * rewrite nth_error_app2 in Ej by lia. destruct (j - length l)%nat as [|m]; cbn in Ej; [injection Ej as <-; exact N|destruct m; discriminate].
        + intros j o' Hj Ej R. rewrite nth_error_app1 in Ej by lia. destruct (D j o' Hj Ej R) as (k & o2 & Hk & Ek & R2). exists k, o2. rewrite nth_error_app1 by lia. auto. }
    assert (NEW : forall i, (length l <= i)%nat -> registered_by (l ++ [o]) i p -> i = length l /\ o = Register p).
    { intros i Hi (A & _). rewrite nth_error_app2 in A by exact Hi. destruct (i - length l)%nat as [|m] eqn:Em; cbn in A; [|destruct m; discriminate]. injection A as ->. split; [lia|reflexivity]. }
    assert (ALT : (exists i, registered_by (l ++ [o]) i p) <->
      (In p ps /\ ~ removes o (Name p)) \/ (o = Register p /\ registered_by (l ++ [o]) (length l) p)).
    { split.
      - intros (i & R). destruct (lt_dec i (length l)) as [Hi|Hi].
        + left. apply (OLD i Hi) in R as [R N]. split; [apply IH; now exists i|exact N].
        + right. destruct (NEW i ltac:(lia) R) as [-> E]. now split.
      - intros [[H N]|[_ R]]; [|now exists (length l)]. apply IH in H as (i & R). exists i. apply OLD; [|now split].
        apply nth_error_Some. destruct R as [R _]. congruence. }
    rewrite ALT. destruct o as [q|names|].
    + rewrite (register_spec lg ps q LG). cbn [removes].
      assert (NAME : registered_by (l ++ [Register q]) (length l) q <-> ~ In (Name q) (map Name ps)).
      { split.
        - intros (A & B & D) Hin. apply in_map_iff in Hin as (q' & Eq & Hq). apply IH in Hq as (i & A' & B' & D').
          assert (Hi : (i < length l)%nat) by (apply nth_error_Some; congruence).
          destruct (D i (Register q') Hi) as (k & o2 & Hk & Ek & R2); [rewrite nth_error_app1 by exact Hi; exact A'|exact Eq|].
          rewrite nth_error_app1 in Ek by lia. apply (B' k o2); [lia|exact Ek|]. now rewrite Eq.
        - intros NI. split; [rewrite nth_error_app2, Nat.sub_diag by lia; reflexivity|]. split.
          + intros j o' Hj Ej. exfalso. assert (j < length (l ++ [Register q]))%nat by (apply nth_error_Some; congruence). rewrite app_length in *. cbn in *. lia.
          + intros j o' Hj Ej R. rewrite nth_error_app1 in Ej by exact Hj. destruct (some_removal l (Name q) j (length l)) as [(k & o2 & A & B & D)|N].
            * exists k, o2. rewrite nth_error_app1 by lia. auto.
            * exfalso. apply NI. destruct (holder l (Name q) j o' Ej R) as (i & p' & Ep & Rp).
              { intros k o2 Hk Ek. apply (N k o2); [|exact Ek]. split; [lia|]. apply nth_error_Some. congruence. }
              rewrite <- Ep. apply in_map. apply IH. now exists i. }
      destruct (existsb (fun q0 => String.eqb (Name q0) (Name q)) ps) eqn:E; cbn [snd].
      * apply in_use in E. split; [intros H; left; split; [exact H|exact (fun F => F)]|]. intros [[H _]|[Eq R]]; [exact H|]. injection Eq as ->. apply NAME in R. contradiction.
      * rewrite in_app_iff. cbn [In]. split.
        -- intros [H|[->|[]]]; [left; split; [exact H|exact (fun F => F)]|]. right. split; [reflexivity|]. apply NAME. intros H. apply in_use in H. congruence.
        -- intros [[H _]|[Eq _]]; [now left|]. injection Eq as ->. right. now left.
    + rewrite (unregister_spec lg ps names LG). cbn [snd removes]. rewrite kept_in. split; [intros H; now left|intros [H|[Eq _]]; [exact H|discriminate]].
    + cbn. split; [easy|]. intros [[_ N]|[Eq _]]; [now apply N|discriminate].
Qed.
End Registry.
