(** Proofs for OwningMaybe. *)
From Verif Require Import Base MaybeModel MaybeSpec.

Section P.
Context {T : Type}.
Variable moved : T -> T.
Notation world := (world T).
Notation options := (options T).

Definition cnt (o : option (option T)) : nat := match o with Some (Some _) => 1 | _ => 0 end.
Definition live (e : element T) : nat := if Nat.eqb (e_destroyed e) 0 then 1 else 0.

Lemma holding_app (a b : options) : holding (a ++ b) = holding a + holding b.
Proof. unfold holding. rewrite filter_app, app_length. reflexivity. Qed.

Lemma holding_cons o (a : options) : holding (o :: a) = cnt o + holding a.
Proof. unfold holding. destruct o as [[|]|]; reflexivity. Qed.

Lemma holding_upd : forall (st : options) x o o', nth_error st x = Some o ->
  holding (upd st x o') + cnt o = holding st + cnt o'.
Proof.
  induction st as [|a st IH]; intros [|x] o o' H; try discriminate H.
  - injection H as ->. cbn [upd]. rewrite !holding_cons. lia.
  - cbn [upd]. rewrite !holding_cons. specialize (IH x o o' H). lia.
Qed.

Definition alive_l (l : list (element T)) : nat := length (filter (fun e => Nat.eqb (e_destroyed e) 0) l).
Lemma alive_cons e l : alive_l (e :: l) = live e + alive_l l.
Proof. unfold alive_l, live. cbn [filter]. destruct (Nat.eqb (e_destroyed e) 0); reflexivity. Qed.
Lemma alive_app a b : alive_l (a ++ b) = alive_l a + alive_l b.
Proof. unfold alive_l. rewrite filter_app, app_length. reflexivity. Qed.
Lemma alive_upd : forall l i e e', nth_error l i = Some e -> alive_l (upd l i e') + live e = alive_l l + live e'.
Proof.
  induction l as [|a l IH]; intros [|i] e e' H; try discriminate H.
  - injection H as ->. cbn [upd]. rewrite !alive_cons. lia.
  - cbn [upd]. rewrite !alive_cons. specialize (IH i e e' H). lia.
Qed.

Lemma nth_upd_same {A} (l : list A) i v : i < length l -> nth_error (upd l i v) i = Some v.
Proof. intros H. rewrite nth_error_upd. destruct (Nat.eq_dec i i); [|lia]. destruct (lt_dec i (length l)); [reflexivity|lia]. Qed.
Lemma nth_upd_other {A} (l : list A) i j v : i <> j -> nth_error (upd l i v) j = nth_error l j.
Proof. intros H. rewrite nth_error_upd. destruct (Nat.eq_dec i j); [lia|reflexivity]. Qed.
Lemma nth_in {A} (l : list A) i v : nth_error l i = Some v -> i < length l.
Proof. intros H. apply nth_error_Some. congruence. Qed.

(** Storage [s] holds [h] in elements [l]. *)
Definition shows (l : list (element T)) (s : storage) (h : option T) : Prop :=
  match h with
  | None => s_tag s = TYPE_A
  | Some v => s_tag s = TYPE_B /\ exists i, s_slot s = Some i /\ nth_error l i = Some (mkElement v 0)
  end.

Definition agree (l : list (element T)) (o : option storage) (h : option (option T)) : Prop :=
  match o, h with
  | None, None => True
  | Some s, Some h => shows l s h
  | _, _ => False
  end.

(** Object [x] owns element [i]. *)
Definition owns (w : world) (x i : nat) : Prop :=
  exists s, nth_error (w_objects w) x = Some (Some s) /\ s_tag s = TYPE_B /\ s_slot s = Some i.

(** The invariant; the object [ex], if any, is between destruction and
    construction and counts as empty; [pend] counts elements constructed for it. *)
Record good (ex : option nat) (pend : option (storage * option T)) (w : world) (st : options) : Prop := mkGood {
  g_len : length (w_objects w) = length st;
  g_agree : forall x o h, Some x <> ex -> nth_error (w_objects w) x = Some o -> nth_error st x = Some h ->
            agree (w_elements w) o h;
  g_own : forall x y i, Some x <> ex -> Some y <> ex -> owns w x i -> owns w y i -> x = y;
  g_once : destroyed_at_most_once w;
  g_pend : match pend with
           | None => alive w = holding st
           | Some (s, h) => shows (w_elements w) s h /\ alive w = holding st + cnt (Some h) /\
               forall x i, Some x <> ex -> s_tag s = TYPE_B -> s_slot s = Some i -> ~ owns w x i
           end }.

Lemma held_inv (st : options) x h : held st x = Some h -> nth_error st x = Some (Some h).
Proof. unfold held. destruct (nth_error st x) as [[|]|]; congruence. Qed.

Lemma get_ok ex pend w st x h : good ex pend w st -> Some x <> ex -> held st x = Some h ->
  exists s, nth_error (w_objects w) x = Some (Some s) /\ get_object x w = (w, Ok s) /\ shows (w_elements w) s h.
Proof.
  intros G Hx H. apply held_inv in H. pose proof (nth_in _ _ _ H) as L. rewrite <- (g_len _ _ _ _ G) in L.
  destruct (nth_error (w_objects w) x) as [o|] eqn:E; [|apply nth_error_None in E; lia].
  pose proof (g_agree _ _ _ _ G x o _ Hx E H) as A. destruct o as [s|]; [|destruct A].
  exists s. unfold get_object. rewrite E. auto.
Qed.

Lemma read_ok w s v : shows (w_elements w) s (Some v) -> read_element (s_slot s) w = (w, Ok v).
Proof. intros (_ & i & E & H). unfold read_element. rewrite E, H. reflexivity. Qed.

Lemma shows_elem l s v i : shows l s (Some v) -> s_slot s = Some i -> nth_error l i = Some (mkElement v 0).
Proof. intros (_ & j & E & H) E2. congruence. Qed.

(** Replacing the value or destroying the element of [x] does not disturb others. *)
Lemma others ex w st x s v e' : good ex None w st -> Some x <> ex -> nth_error (w_objects w) x = Some (Some s) ->
  shows (w_elements w) s (Some v) -> forall i, s_slot s = Some i ->
  forall z o h, z <> x -> Some z <> ex -> nth_error (w_objects w) z = Some o -> nth_error st z = Some h ->
  agree (upd (w_elements w) i e') o h.
Proof.
  intros G Hx Ho Hs i Hi z o h Hz Hzx Eo Eh. pose proof (g_agree _ _ _ _ G z o h Hzx Eo Eh) as A.
  destruct o as [s2|], h as [[v2|]|]; try exact A. destruct A as (A1 & j & A2 & A3).
  split; [exact A1|]. exists j. split; [exact A2|]. rewrite nth_upd_other; [exact A3|].
  intros ->. apply Hz. apply (g_own _ _ _ _ G z x j Hzx Hx).
  - exists s2. auto.
  - exists s. destruct Hs as (T1 & _). auto.
Qed.

Lemma once_upd l i v v' k : k <= 1 -> nth_error l i = Some (mkElement v 0) ->
  (forall e : element T, In e l -> e_destroyed e <= 1) -> forall e, In e (upd l i (mkElement v' k)) -> e_destroyed e <= 1.
Proof.
  intros K H A e He. apply In_nth_error in He. destruct He as [j He]. rewrite nth_error_upd in He.
  destruct (Nat.eq_dec i j); [destruct (lt_dec i (length l)); [|discriminate]; injection He as <-; exact K|].
  apply A. eapply nth_error_In, He.
Qed.

Lemma cleanup_ok w st x s h : good None None w st -> held st x = Some h ->
  nth_error (w_objects w) x = Some (Some s) ->
  exists w1, Cleanup s w = (w1, Ok tt) /\ w_objects w1 = w_objects w /\ w_faults w1 = w_faults w /\
    (h = None -> w1 = w) /\ good (Some x) None w1 (upd st x (Some None)).
Proof.
  intros G H Ho. assert (Hx : Some x <> None) by discriminate.
  destruct (get_ok _ _ _ _ _ _ G Hx H) as (s' & E & _ & Sh). rewrite E in Ho. injection Ho as ->.
  pose proof (held_inv _ _ _ H) as Hst. pose proof (nth_in _ _ _ Hst) as Lx.
  assert (U : forall z h', z <> x -> nth_error (upd st x (Some None)) z = Some h' -> nth_error st z = Some h').
  { intros z h' Hz. rewrite nth_upd_other by (intros ->; congruence). auto. }
  pose proof (holding_upd st x _ (Some None) Hst) as HC. cbn [cnt] in HC.
  destruct h as [v|].
  - destruct Sh as (T1 & i & E1 & E2). unfold Cleanup. rewrite T1. unfold destroy_element. rewrite E1, E2.
    eexists. split; [reflexivity|]. cbn [w_objects w_faults]. split; [reflexivity|]. split; [reflexivity|].
    split; [discriminate|].
    constructor; cbn [w_objects w_elements].
    + rewrite upd_length. apply (g_len _ _ _ _ G).
    + intros z o h' Hz Eo Eh. assert (z <> x) by congruence. apply U in Eh; [|assumption].
      eapply (others None w st x s v); eauto. split; [exact T1|]. exists i. auto. discriminate.
    + intros a b j _ _ (sa & A1 & A2 & A3) (sb & B1 & B2 & B3). cbn [w_objects] in *.
      apply (g_own _ _ _ _ G a b j); try discriminate; [exists sa|exists sb]; auto.
    + exact (once_upd _ _ _ _ 1 (le_n _) E2 (g_once _ _ _ _ G)).
    + pose proof (g_pend _ _ _ _ G) as HP. cbn in HP.
      change (alive {| w_elements := upd (w_elements w) i {| e_value := v; e_destroyed := 1 |}; w_objects := w_objects w; w_faults := w_faults w |})
        with (alive_l (upd (w_elements w) i {| e_value := v; e_destroyed := 1 |})).
      change (alive w) with (alive_l (w_elements w)) in HP.
      pose proof (alive_upd _ _ _ {| e_value := v; e_destroyed := 1 |} E2) as HA.
      change (live {| e_value := v; e_destroyed := 0 |}) with 1 in HA. change (live {| e_value := v; e_destroyed := 1 |}) with 0 in HA. cbn [cnt] in HC. lia.
  - cbn in Sh. unfold Cleanup. rewrite Sh. exists w. split; [reflexivity|]. split; [reflexivity|]. split; [reflexivity|].
    split; [reflexivity|].
    constructor.
    + rewrite upd_length. apply (g_len _ _ _ _ G).
    + intros z o h' Hz Eo Eh. assert (z <> x) by congruence. apply U in Eh; [|assumption].
      apply (g_agree _ _ _ _ G z o h'); auto. discriminate.
    + intros a b j _ _. apply (g_own _ _ _ _ G); discriminate.
    + apply (g_once _ _ _ _ G).
    + pose proof (g_pend _ _ _ _ G) as HP. cbn in HP. cbn [cnt] in HC. lia.
Qed.

Lemma agree_app l e o h : agree l o h -> agree (l ++ [e]) o h.
Proof.
  destruct o as [s|], h as [[v|]|]; cbn; auto. intros (A & i & B & C). split; [exact A|]. exists i. split; [exact B|].
  rewrite nth_error_app1; [exact C|]. eapply nth_in, C.
Qed.

Lemma agree_bound ex w st pend x i : good ex pend w st -> Some x <> ex -> owns w x i -> i < length (w_elements w).
Proof.
  intros G Hx (s & A & B & C). pose proof (nth_in _ _ _ A) as L. rewrite (g_len _ _ _ _ G) in L.
  destruct (nth_error st x) as [h|] eqn:E; [|apply nth_error_None in E; lia].
  pose proof (g_agree _ _ _ _ G x _ h Hx A E) as Ag. destruct h as [[v|]|]; [|cbn in Ag; congruence|destruct Ag].
  destruct Ag as (_ & j & E2 & E3). rewrite C in E2. injection E2 as <-. eapply nth_in, E3.
Qed.

(** Constructing one element. *)
Lemma construct_ok ex w st v : good ex None w st ->
  let '(f, r) := draw (w_faults w) in
  exists w1, w_faults w1 = r /\ w_objects w1 = w_objects w /\
  if f then construct_element v w = (w1, Throw (UserException 0)) /\ w_elements w1 = w_elements w
  else construct_element v w = (w1, Ok (length (w_elements w))) /\ w_elements w1 = w_elements w ++ [mkElement v 0] /\
    good ex (Some (mkStorage TYPE_B (Some (length (w_elements w))), Some v)) w1 st.
Proof.
  intros G. unfold construct_element.
  assert (GG : forall r, good ex (Some (mkStorage TYPE_B (Some (length (w_elements w))), Some v))
     (mkWorld (w_elements w ++ [mkElement v 0]) (w_objects w) r) st).
  { intros r. constructor; cbn [w_objects w_elements].
    - apply (g_len _ _ _ _ G).
    - intros x o h Hx Eo Eh. apply agree_app. exact (g_agree _ _ _ _ G x o h Hx Eo Eh).
    - intros x y i Hx Hy (sa & A1 & A2 & A3) (sb & B1 & B2 & B3). cbn [w_objects] in *.
      apply (g_own _ _ _ _ G x y i Hx Hy); [exists sa|exists sb]; auto.
    - intros e He. cbn [w_elements] in He. apply in_app_iff in He. destruct He as [He|[<- |[]]]; [apply (g_once _ _ _ _ G e He)|cbn; lia].
    - split; [|split].
      + split; [reflexivity|]. exists (length (w_elements w)). split; [reflexivity|].
        rewrite nth_error_app2, Nat.sub_diag by lia. reflexivity.
      + pose proof (g_pend _ _ _ _ G) as HP. cbn in HP. cbn [cnt].
        change (alive {| w_elements := w_elements w ++ [mkElement v 0]; w_objects := w_objects w; w_faults := r |})
          with (alive_l (w_elements w ++ [mkElement v 0])). rewrite alive_app.
        change (alive w) with (alive_l (w_elements w)) in HP. change (alive_l [mkElement v 0]) with 1. lia.
      + intros x i Hx _ Ei. cbn [s_slot] in Ei. injection Ei as <-. intros (sa & A1 & A2 & A3). cbn [w_objects] in A1.
        assert (owns w x (length (w_elements w))) as O by (exists sa; auto).
        pose proof (agree_bound _ _ _ _ _ _ G Hx O). lia. }
  destruct (w_faults w) as [|[|] r] eqn:EF; cbn [draw].
  - eexists. split; [|split; [|split; [reflexivity|split; [reflexivity|apply (GG [])]]]]; reflexivity.
  - eexists. split; [|split; [|split; [reflexivity|reflexivity]]]; reflexivity.
  - eexists. split; [|split; [|split; [reflexivity|split; [reflexivity|apply (GG r)]]]]; reflexivity.
Qed.

(** Filling in the excepted object, or adding a new one. *)
Lemma fill_ok x s h w st w' : good (Some x) (Some (s, h)) w st -> x < length st -> nth_error st x = Some (Some None) ->
  w_elements w' = w_elements w -> w_objects w' = upd (w_objects w) x (Some s) ->
  good None None w' (upd st x (Some h)).
Proof.
  intros G L Ex Ee Eo. pose proof (g_pend _ _ _ _ G) as (P1 & P2 & P3).
  assert (Lo : x < length (w_objects w)) by (rewrite (g_len _ _ _ _ G); exact L).
  assert (OW : forall z i, owns w' z i -> (z = x /\ s_tag s = TYPE_B /\ s_slot s = Some i) \/ (z <> x /\ owns w z i)).
  { intros z i (sa & A1 & A2 & A3). rewrite Eo in A1. destruct (Nat.eq_dec z x) as [->|Hz].
    - rewrite nth_upd_same in A1 by exact Lo. injection A1 as <-. left. auto.
    - rewrite nth_upd_other in A1 by congruence. right. split; [exact Hz|]. exists sa. auto. }
  constructor.
  - rewrite Eo, !upd_length. apply (g_len _ _ _ _ G).
  - intros z o h' _. rewrite Eo, Ee. destruct (Nat.eq_dec z x) as [->|Hz].
    + rewrite !nth_upd_same by assumption. intros E1 E2. injection E1 as <-. injection E2 as <-. exact P1.
    + rewrite !nth_upd_other by congruence. apply (g_agree _ _ _ _ G). congruence.
  - intros a b i _ _ A B. apply OW in A. apply OW in B.
    destruct A as [(-> & A1 & A2)|(A1 & A2)], B as [(-> & B1 & B2)|(B1 & B2)]; try reflexivity.
    + exfalso. apply (P3 b i); auto. congruence.
    + exfalso. apply (P3 a i); auto. congruence.
    + apply (g_own _ _ _ _ G a b i); congruence.
  - intros e He. apply (g_once _ _ _ _ G e). rewrite <- Ee. exact He.
  - pose proof (holding_upd st x _ (Some h) Ex) as HC. cbn [cnt] in HC. unfold alive in *. rewrite Ee. cbn [cnt] in *. lia.
Qed.

Lemma push_ok s h w st w' : good None (Some (s, h)) w st ->
  w_elements w' = w_elements w -> w_objects w' = w_objects w ++ [Some s] ->
  good None None w' (st ++ [Some h]).
Proof.
  intros G Ee Eo. pose proof (g_pend _ _ _ _ G) as (P1 & P2 & P3). pose proof (g_len _ _ _ _ G) as L.
  assert (OW : forall z i, owns w' z i -> (z = length st /\ s_tag s = TYPE_B /\ s_slot s = Some i) \/ (owns w z i)).
  { intros z i (sa & A1 & A2 & A3). rewrite Eo in A1. destruct (lt_dec z (length (w_objects w))) as [Hz|Hz].
    - rewrite nth_error_app1 in A1 by exact Hz. right. exists sa. auto.
    - rewrite nth_error_app2 in A1 by lia. destruct (z - length (w_objects w)) as [|k] eqn:Ek; [|destruct k; discriminate].
      injection A1 as <-. left. split; [lia|auto]. }
  constructor.
  - rewrite Eo, !app_length. simpl. lia.
  - intros z o h' _. rewrite Eo, Ee. destruct (lt_dec z (length st)) as [Hz|Hz].
    + rewrite !nth_error_app1 by lia. apply (g_agree _ _ _ _ G). discriminate.
    + rewrite !nth_error_app2 by lia. rewrite L. destruct (z - length st) as [|k]; [|destruct k; discriminate].
      intros E1 E2. injection E1 as <-. injection E2 as <-. exact P1.
  - intros a b i _ _ A B. apply OW in A. apply OW in B.
    destruct A as [(-> & A1 & A2)|A2], B as [(-> & B1 & B2)|B2]; try reflexivity.
    + exfalso. apply (P3 b i); auto. discriminate.
    + exfalso. apply (P3 a i); auto. discriminate.
    + apply (g_own _ _ _ _ G a b i); auto; discriminate.
  - intros e He. apply (g_once _ _ _ _ G e). rewrite <- Ee. exact He.
  - rewrite holding_app, holding_cons. unfold alive in *. rewrite Ee. change (holding []) with 0. lia.
Qed.

Lemma pend_empty ex w st : good ex None w st -> good ex (Some (mkStorage TYPE_A None, None)) w st.
Proof.
  intros G. constructor; try apply G. split; [reflexivity|]. split; [|discriminate].
  pose proof (g_pend _ _ _ _ G) as HP. cbn in HP. cbn [cnt]. lia.
Qed.

(** Faults do not matter to the invariant. *)
Lemma good_faults ex pend w st r : good ex pend w st -> good ex pend (mkWorld (w_elements w) (w_objects w) r) st.
Proof. intros []. constructor; auto. Qed.
Lemma good_same ex pend w w' st : good ex pend w st -> w_elements w' = w_elements w -> w_objects w' = w_objects w -> good ex pend w' st.
Proof. destruct w, w'. cbn. intros G -> ->. exact (good_faults _ _ _ _ _ G). Qed.

(** Writing the value of a live object. *)
Lemma write_ok ex pend w st y s v v' : good ex pend w st -> Some y <> ex -> nth_error (w_objects w) y = Some (Some s) ->
  held st y = Some (Some v) -> (forall p h, pend = Some (p, h) -> s_tag p = TYPE_B -> s_slot p <> s_slot s) ->
  exists w1, write_element (s_slot s) v' w = (w1, Ok tt) /\ w_objects w1 = w_objects w /\ w_faults w1 = w_faults w /\
    good ex pend w1 (upd st y (Some (Some v'))).
Proof.
  intros G Hy Ho H Hp. destruct (get_ok _ _ _ _ _ _ G Hy H) as (s' & E & _ & Sh). rewrite E in Ho. injection Ho as ->.
  pose proof (held_inv _ _ _ H) as Hst. pose proof (nth_in _ _ _ Hst) as Ly.
  destruct Sh as (T1 & i & E1 & E2). unfold write_element. rewrite E1, E2.
  eexists. split; [reflexivity|]. cbn [w_objects w_faults]. split; [reflexivity|]. split; [reflexivity|].
  pose proof (holding_upd st y _ (Some (Some v')) Hst) as HC. cbn [cnt] in HC.
  pose proof (alive_upd _ _ _ (mkElement v' 0) E2) as HA.
  change (live {| e_value := v; e_destroyed := 0 |}) with 1 in HA. change (live {| e_value := v'; e_destroyed := 0 |}) with 1 in HA.
  assert (EA : alive {| w_elements := upd (w_elements w) i (mkElement v' 0); w_objects := w_objects w; w_faults := w_faults w |} = alive w).
  { change (alive_l (upd (w_elements w) i (mkElement v' 0)) = alive_l (w_elements w)). lia. }
  constructor; cbn [w_objects w_elements].
  - rewrite upd_length. apply (g_len _ _ _ _ G).
  - intros z o h' Hz Eo Eh. destruct (Nat.eq_dec z y) as [->|Hzy].
    + rewrite E in Eo. injection Eo as <-. rewrite nth_upd_same in Eh by exact Ly. injection Eh as <-.
      split; [exact T1|]. exists i. split; [exact E1|]. apply nth_upd_same. eapply nth_in, E2.
    + rewrite nth_upd_other in Eh by congruence. pose proof (g_agree _ _ _ _ G z o h' Hz Eo Eh) as A.
      destruct o as [s2|], h' as [[v2|]|]; try exact A. destruct A as (A1 & j & A2 & A3).
      split; [exact A1|]. exists j. split; [exact A2|]. rewrite nth_upd_other; [exact A3|].
      intros ->. apply Hzy. apply (g_own _ _ _ _ G z y j Hz Hy); [exists s2|exists s]; auto.
  - intros a b j Ha Hb (sa & A1 & A2 & A3) (sb & B1 & B2 & B3). cbn [w_objects] in *.
    apply (g_own _ _ _ _ G a b j Ha Hb); [exists sa|exists sb]; auto.
  - exact (once_upd _ _ _ _ 0 (le_S _ _ (le_n _)) E2 (g_once _ _ _ _ G)).
  - pose proof (g_pend _ _ _ _ G) as HP. destruct pend as [[p hp]|].
    + destruct HP as (P1 & P2 & P3). split; [|split].
      * destruct hp as [vp|]; [|exact P1]. destruct P1 as (Q1 & j & Q2 & Q3). split; [exact Q1|]. exists j. split; [exact Q2|].
        rewrite nth_upd_other; [exact Q3|]. intros ->. apply (Hp p (Some vp) eq_refl Q1). congruence.
      * rewrite EA. lia.
      * intros x j Hx Q1 Q2 (sa & A1 & A2 & A3). cbn [w_objects] in A1. apply (P3 x j Hx Q1 Q2). exists sa. auto.
    + rewrite EA. lia.
Qed.

(** ** One operation *)
Definition result_ok (x : outcome (world * reply T)) (st : options) (f : list bool) (a : reply T) : Prop :=
  exists w', x = Ok (w', a) /\ good None None w' st /\ w_faults w' = f.

Lemma done_ok (x : world * outcome unit) w' st f : x = (w', Ok tt) -> good None None w' st -> w_faults w' = f ->
  result_ok (reply_of (fun _ : unit => Done) x) st f Done.
Proof. intros -> G F. exists w'. auto. Qed.

Lemma fail_ok (x : world * outcome unit) w' st f e : x = (w', Throw e) -> good None None w' st -> w_faults w' = f ->
  result_ok (reply_of (fun _ : unit => Done) x) st f (Raised e).
Proof. intros -> G F. exists w'. auto. Qed.

Lemma bm {A B} (m : @state_m T A) (k : A -> @state_m T B) w w1 a : m w = (w1, Ok a) -> bind_m m k w = k a w1.
Proof. intros E. unfold bind_m. rewrite E. reflexivity. Qed.
Lemma bm_throw {A B} (m : @state_m T A) (k : A -> @state_m T B) w w1 e : m w = (w1, Throw e) -> bind_m m k w = (w1, Throw e).
Proof. intros E. unfold bind_m. rewrite E. reflexivity. Qed.

Lemma held_lt (st : options) x h : held st x = Some h -> x < length st.
Proof. intros H. apply held_inv in H. eapply nth_in, H. Qed.
Lemma held_upd_other (st : options) x y h : x <> y -> held (upd st x h) y = held st y.
Proof. intros H. unfold held. rewrite nth_upd_other by exact H. reflexivity. Qed.
Lemma upd_upd {A} (l : list A) i a b : upd (upd l i a) i b = upd l i b.
Proof. revert i. induction l as [|x l IH]; intros [|i]; cbn; [reflexivity..|]. rewrite IH. reflexivity. Qed.
Lemma upd_comm {A} (l : list A) i j a b : i <> j -> upd (upd l i a) j b = upd (upd l j b) i a.
Proof.
  revert i j. induction l as [|x l IH]; intros [|i] [|j] H; cbn; try reflexivity; try lia. rewrite IH by lia. reflexivity.
Qed.
Lemma upd_same {A} (l : list A) i a : nth_error l i = Some a -> upd l i a = l.
Proof. revert i. induction l as [|x l IH]; intros [|i] H; cbn in *; try discriminate; [congruence|]. rewrite IH by exact H. reflexivity. Qed.

Lemma op_ok o w st f st' f' a : good None None w st -> w_faults w = f ->
  (replaces o st -> fst (draw f) = false) ->
  spec_op moved o st f = Some (st', f', a) -> result_ok (run_op moved o w) st' f' a.
Proof.
  intros G F SAFE S.
  assert (NN : forall x : nat, Some x <> None) by discriminate.
  destruct o as [|v|y|y|x y|x y|x|x|x|x|x v]; cbn [spec_op run_op] in *.
  - (* NewEmpty *) injection S as <- <- <-. eapply done_ok; [reflexivity| |exact F].
    eapply push_ok; [apply pend_empty, G|reflexivity|reflexivity].
  - (* NewValue *) pose proof (construct_ok None w st v G) as C. rewrite F in C. destruct (draw f) as [ff r].
    destruct C as (w1 & E1 & E2 & C). destruct ff.
    + injection S as <- <- <-. destruct C as (C1 & C2). eapply fail_ok; [apply (bm_throw _ _ _ _ _ C1)| |exact E1].
      eapply good_same; eauto.
    + injection S as <- <- <-. destruct C as (C1 & C2 & C3). eapply done_ok; [unfold new_value; rewrite (bm _ _ _ _ _ C1); reflexivity| |exact E1].
      eapply push_ok; [exact C3|reflexivity|reflexivity].
  - (* NewCopy *) destruct (held st y) as [h|] eqn:H; [|discriminate].
    destruct (get_ok _ _ _ _ _ _ G (NN y) H) as (s & Eo & Eg & Sh).
    unfold new_copy. rewrite (bm _ _ _ _ _ Eg). unfold ConstructCopy. destruct h as [v|].
    + rewrite (proj1 Sh). pose proof (construct_ok None w st v G) as C. rewrite F in C. destruct (draw f) as [ff r].
      destruct C as (w1 & E1 & E2 & C). pose proof (read_ok _ _ _ Sh) as R. destruct ff.
      * injection S as <- <- <-. destruct C as (C1 & C2). eapply fail_ok; [|eapply good_same; eauto|exact E1].
        apply bm_throw. rewrite (bm _ _ _ _ _ R). apply bm_throw, C1.
      * injection S as <- <- <-. destruct C as (C1 & C2 & C3). eapply done_ok; [| |].
        -- erewrite bm; [|rewrite (bm _ _ _ _ _ R), (bm _ _ _ _ _ C1); reflexivity]. reflexivity.
        -- eapply push_ok; [exact C3|reflexivity|reflexivity].
        -- exact E1.
    + cbn in Sh. rewrite Sh. injection S as <- <- <-. eapply done_ok; [reflexivity| |exact F].
      eapply push_ok; [apply pend_empty, G|reflexivity|reflexivity].
  - (* NewMove *) destruct (held st y) as [h|] eqn:H; [|discriminate].
    destruct (get_ok _ _ _ _ _ _ G (NN y) H) as (s & Eo & Eg & Sh).
    unfold new_move. rewrite (bm _ _ _ _ _ Eg). unfold ConstructMove. destruct h as [v|].
    + rewrite (proj1 Sh). pose proof (construct_ok None w st v G) as C. rewrite F in C. destruct (draw f) as [ff r].
      destruct C as (w1 & E1 & E2 & C). pose proof (read_ok _ _ _ Sh) as R. destruct ff.
      * injection S as <- <- <-. destruct C as (C1 & C2). eapply fail_ok; [|eapply good_same; eauto|exact E1].
        apply bm_throw. rewrite (bm _ _ _ _ _ R). apply bm_throw, C1.
      * injection S as <- <- <-. destruct C as (C1 & C2 & C3).
        destruct (write_ok None _ w1 st y s v (moved v) C3 (NN y)) as (w2 & W1 & W2 & W3 & W4).
        { rewrite E2. exact Eo. } { exact H. }
        { intros p h Ep _. injection Ep as <- <-. cbn [s_slot]. destruct Sh as (_ & i & -> & Ei). intros Ei2. injection Ei2 as <-.
          apply nth_in in Ei. lia. }
        eapply done_ok; [| |].
        -- erewrite bm; [|rewrite (bm _ _ _ _ _ R), (bm _ _ _ _ _ C1), (bm _ _ _ _ _ W1); reflexivity]. reflexivity.
        -- eapply push_ok; [exact W4|reflexivity|reflexivity].
        -- cbn [w_faults]. rewrite W3. exact E1.
    + cbn in Sh. rewrite Sh. injection S as <- <- <-. eapply done_ok; [reflexivity| |exact F].
      eapply push_ok; [apply pend_empty, G|reflexivity|reflexivity].
  - (* AssignCopy *) destruct (held st x) as [hx|] eqn:Hx; [|discriminate]. destruct (held st y) as [hy|] eqn:Hy; [|discriminate].
    unfold assign_copy. destruct (Nat.eqb_spec x y) as [->|Hxy].
    { assert (S' : Some (st, f, Done) = Some (st', f', a)).
      { destruct hy as [v|]; [exact S|]. rewrite <- S. unfold done. rewrite upd_same; [reflexivity|]. apply held_inv, Hy. }
      injection S' as <- <- <-. eapply done_ok; [reflexivity|exact G|exact F]. }
    destruct (get_ok _ _ _ _ _ _ G (NN x) Hx) as (s & Eo & Eg & Sh). rewrite (bm _ _ _ _ _ Eg).
    destruct (cleanup_ok w st x s hx G Hx Eo) as (w1 & K1 & K2 & K3 & K4 & K5). rewrite (bm _ _ _ _ _ K1).
    assert (Hy1 : held (upd st x (Some None)) y = Some hy) by (rewrite held_upd_other by exact Hxy; exact Hy).
    assert (Ny : Some y <> Some x) by congruence. pose proof (held_lt _ _ _ Hx) as Lx.
    assert (Lx' : x < length (upd st x (Some (@None T)))) by (rewrite upd_length; exact Lx).
    destruct (get_ok _ _ _ _ _ _ K5 Ny Hy1) as (t & Fo & Fg & Th). rewrite (bm _ _ _ _ _ Fg). unfold ConstructCopy.
    destruct hy as [v|].
    + rewrite (proj1 Th). pose proof (construct_ok (Some x) w1 _ v K5) as C. rewrite K3, F in C. 
      pose proof (read_ok _ _ _ Th) as R. assert (SAFE2 : forall v', hx = Some v' -> fst (draw f) = false).
      { intros v' ->. apply SAFE. exists x, y, v', v. auto. }
      destruct (draw f) as [ff r]. destruct C as (w2 & E1 & E2 & C). destruct ff.
      * injection S as <- <- <-. destruct C as (C1 & C2).
        destruct hx as [v'|]; [discriminate (SAFE2 v' eq_refl)|]. specialize (K4 eq_refl). subst w1.
        eapply fail_ok; [|eapply good_same; eauto|exact E1]. apply bm_throw. rewrite (bm _ _ _ _ _ R). apply bm_throw, C1.
      * injection S as <- <- <-. destruct C as (C1 & C2 & C3). eapply done_ok; [| |].
        -- erewrite bm; [|rewrite (bm _ _ _ _ _ R), (bm _ _ _ _ _ C1); reflexivity]. reflexivity.
        -- rewrite <- (upd_upd st x (Some None)). eapply fill_ok; [exact C3|exact Lx'|apply nth_upd_same, Lx|reflexivity|reflexivity].
        -- exact E1.
    + cbn in Th. rewrite Th. injection S as <- <- <-. eapply done_ok; [reflexivity| |cbn [w_faults]; rewrite K3; exact F].
      rewrite <- (upd_upd st x (Some None)).
      eapply fill_ok; [apply pend_empty, K5|exact Lx'|apply nth_upd_same, Lx|reflexivity|reflexivity].
  - (* AssignMove *) destruct (held st x) as [hx|] eqn:Hx; [|discriminate]. destruct (held st y) as [hy|] eqn:Hy; [|discriminate].
    unfold assign_move. destruct (Nat.eqb_spec x y) as [->|Hxy].
    { assert (S' : Some (st, f, Done) = Some (st', f', a)).
      { destruct hy as [v|]; [exact S|]. rewrite <- S. unfold done. rewrite upd_same; [reflexivity|]. apply held_inv, Hy. }
      injection S' as <- <- <-. eapply done_ok; [reflexivity|exact G|exact F]. }
    destruct (get_ok _ _ _ _ _ _ G (NN x) Hx) as (s & Eo & Eg & Sh). rewrite (bm _ _ _ _ _ Eg).
    destruct (cleanup_ok w st x s hx G Hx Eo) as (w1 & K1 & K2 & K3 & K4 & K5). rewrite (bm _ _ _ _ _ K1).
    assert (Hy1 : held (upd st x (Some None)) y = Some hy) by (rewrite held_upd_other by exact Hxy; exact Hy).
    assert (Ny : Some y <> Some x) by congruence. pose proof (held_lt _ _ _ Hx) as Lx.
    assert (Lx' : x < length (upd st x (Some (@None T)))) by (rewrite upd_length; exact Lx).
    destruct (get_ok _ _ _ _ _ _ K5 Ny Hy1) as (t & Fo & Fg & Th). rewrite (bm _ _ _ _ _ Fg). unfold ConstructMove.
    destruct hy as [v|].
    + rewrite (proj1 Th). pose proof (construct_ok (Some x) w1 _ v K5) as C. rewrite K3, F in C. 
      pose proof (read_ok _ _ _ Th) as R. assert (SAFE2 : forall v', hx = Some v' -> fst (draw f) = false).
      { intros v' ->. apply SAFE. exists x, y, v', v. auto. }
      destruct (draw f) as [ff r]. destruct C as (w2 & E1 & E2 & C). destruct ff.
      * injection S as <- <- <-. destruct C as (C1 & C2).
        destruct hx as [v'|]; [discriminate (SAFE2 v' eq_refl)|]. specialize (K4 eq_refl). subst w1.
        eapply fail_ok; [|eapply good_same; eauto|exact E1]. apply bm_throw. rewrite (bm _ _ _ _ _ R). apply bm_throw, C1.
      * injection S as <- <- <-. destruct C as (C1 & C2 & C3).
        destruct (write_ok (Some x) _ w2 _ y t v (moved v) C3 Ny) as (w3 & W1 & W2 & W3 & W4).
        { rewrite E2. exact Fo. } { exact Hy1. }
        { intros p h Ep _. injection Ep as <- <-. cbn [s_slot]. destruct Th as (_ & i & -> & Ei). intros Ei2. injection Ei2 as <-.
          apply nth_in in Ei. lia. }
        eapply done_ok; [| |].
        -- erewrite bm; [|rewrite (bm _ _ _ _ _ R), (bm _ _ _ _ _ C1), (bm _ _ _ _ _ W1); reflexivity]. reflexivity.
        -- replace (upd (upd st y (Some (Some (moved v)))) x (Some (Some v))) with
             (upd (upd (upd st x (Some None)) y (Some (Some (moved v)))) x (Some (Some v)))
             by (rewrite (upd_comm _ x y), upd_upd by congruence; reflexivity).
           eapply fill_ok; [exact W4|rewrite upd_length; exact Lx'| |reflexivity|reflexivity].
           rewrite nth_upd_other by congruence. apply nth_upd_same, Lx.
        -- cbn [w_faults]. rewrite W3. exact E1.
    + cbn in Th. rewrite Th. injection S as <- <- <-. eapply done_ok; [reflexivity| |cbn [w_faults]; rewrite K3; exact F].
      rewrite <- (upd_upd st x (Some None)).
      eapply fill_ok; [apply pend_empty, K5|exact Lx'|apply nth_upd_same, Lx|reflexivity|reflexivity].
  - (* Reset *) destruct (held st x) as [hx|] eqn:Hx; [|discriminate]. injection S as <- <- <-.
    destruct (get_ok _ _ _ _ _ _ G (NN x) Hx) as (s & Eo & Eg & Sh). unfold reset. cbv zeta. rewrite (bm _ _ _ _ _ Eg).
    destruct (cleanup_ok w st x s hx G Hx Eo) as (w1 & K1 & K2 & K3 & K4 & K5). rewrite (bm _ _ _ _ _ K1).
    pose proof (held_lt _ _ _ Hx) as Lx.
    eapply done_ok; [reflexivity| |cbn [w_faults]; rewrite K3; exact F].
    rewrite <- (upd_upd st x (Some None)).
    eapply fill_ok; [apply pend_empty, K5|rewrite upd_length; exact Lx|apply nth_upd_same, Lx|reflexivity|reflexivity].
  - (* Destroy *) destruct (held st x) as [hx|] eqn:Hx; [|discriminate]. injection S as <- <- <-.
    destruct (get_ok _ _ _ _ _ _ G (NN x) Hx) as (s & Eo & Eg & Sh). unfold destroy. rewrite (bm _ _ _ _ _ Eg).
    destruct (cleanup_ok w st x s hx G Hx Eo) as (w1 & K1 & K2 & K3 & K4 & K5). rewrite (bm _ _ _ _ _ K1).
    pose proof (held_lt _ _ _ Hx) as Lx. assert (Lo : x < length (w_objects w1)) by (rewrite K2, (g_len _ _ _ _ G); exact Lx).
    eapply done_ok; [reflexivity| |cbn [w_faults]; rewrite K3; exact F].
    constructor; cbn [w_objects w_elements].
    + rewrite !upd_length, K2. apply (g_len _ _ _ _ G).
    + intros z o h _. destruct (Nat.eq_dec z x) as [->|Hz].
      * rewrite !nth_upd_same by assumption. intros E1 E2. injection E1 as <-. injection E2 as <-. exact I.
      * rewrite !nth_upd_other by congruence. intros E1 E2. apply (g_agree _ _ _ _ K5 z); [congruence|exact E1|].
        rewrite nth_upd_other by congruence. exact E2.
    + assert (OW : forall z i, owns {| w_elements := w_elements w1; w_objects := upd (w_objects w1) x None; w_faults := w_faults w1 |} z i ->
         z <> x /\ owns w1 z i).
      { intros z i (sa & A1 & A2 & A3). cbn [w_objects] in A1. destruct (Nat.eq_dec z x) as [->|Hz].
        - rewrite nth_upd_same in A1 by exact Lo. discriminate.
        - rewrite nth_upd_other in A1 by congruence. split; [exact Hz|]. exists sa. auto. }
      intros p q i _ _ P Q. apply OW in P. apply OW in Q. apply (g_own _ _ _ _ K5 p q i); [intros C; injection C as ->; apply P; reflexivity|intros C; injection C as ->; apply Q; reflexivity|apply P|apply Q].
    + apply (g_once _ _ _ _ K5).
    + pose proof (g_pend _ _ _ _ K5) as HP. cbn in HP.
      pose proof (holding_upd (upd st x (Some None)) x (Some None) None (nth_upd_same _ _ _ Lx)) as HC.
      rewrite upd_upd in HC. cbn [cnt] in HC. change (alive w1 = holding (upd st x None)). lia.
  - (* HasValue *) destruct (held st x) as [hx|] eqn:Hx; [|discriminate]. injection S as <- <- <-.
    destruct (get_ok _ _ _ _ _ _ G (NN x) Hx) as (s & Eo & Eg & Sh). unfold has_value. rewrite (bm _ _ _ _ _ Eg).
    exists w. split; [|auto]. unfold reply_of, ret. cbn [snd fst]. do 3 f_equal.
    destruct hx; [rewrite (proj1 Sh); reflexivity|cbn in Sh; rewrite Sh; reflexivity].
  - (* GetValue *) destruct (held st x) as [hx|] eqn:Hx; [|discriminate].
    destruct (get_ok _ _ _ _ _ _ G (NN x) Hx) as (s & Eo & Eg & Sh). unfold value. rewrite (bm _ _ _ _ _ Eg).
    exists w. destruct hx as [v|]; injection S as <- <- <-.
    + rewrite (proj1 Sh), (read_ok _ _ _ Sh). auto.
    + cbn in Sh. rewrite Sh. auto.
  - (* SetValue *) destruct (held st x) as [hx|] eqn:Hx; [|discriminate].
    destruct (get_ok _ _ _ _ _ _ G (NN x) Hx) as (s & Eo & Eg & Sh). unfold set_value. rewrite (bm _ _ _ _ _ Eg).
    destruct hx as [v0|]; injection S as <- <- <-.
    + rewrite (proj1 Sh). destruct (write_ok None None w st x s v0 v G (NN x) Eo Hx) as (w1 & W1 & W2 & W3 & W4); [discriminate|].
      rewrite W1. exists w1. split; [reflexivity|]. split; [exact W4|congruence].
    + cbn in Sh. rewrite Sh. exists w. auto.
Qed.

(** ** Histories *)
Lemma ops_ok os : forall w st f st' l, good None None w st -> w_faults w = f ->
  no_fault_replacing moved os st f -> spec_ops moved os st f = Some (st', l) ->
  exists w', run_ops moved os w = Ok (w', l) /\ good None None w' st'.
Proof.
  induction os as [|o r IH]; intros w st f st' l G F N S; cbn [spec_ops run_ops no_fault_replacing] in *.
  - injection S as <- <-. exists w. auto.
  - destruct N as [N1 N2]. destruct (spec_op moved o st f) as [[[st1 f1] a]|] eqn:E; [|discriminate].
    destruct (spec_ops moved r st1 f1) as [[st2 l2]|] eqn:E2; [|discriminate]. injection S as <- <-.
    destruct (op_ok o w st f st1 f1 a G F N1 E) as (w1 & -> & G1 & F1). cbn [bind fst snd].
    destruct (IH w1 st1 f1 st2 l2 G1 F1 N2 E2) as (w2 & -> & G2). cbn [bind fst snd]. eauto.
Qed.

Lemma good_start f : good None None (mkWorld [] [] f) ([] : options).
Proof.
  constructor; try reflexivity.
  - intros [|x] o h _; discriminate.
  - intros x y i _ _ (s & A & _). destruct x; discriminate.
  - intros e [].
Qed.

Lemma client_ok faults os st l : no_fault_replacing moved os [] faults -> spec_ops moved os [] faults = Some (st, l) ->
  exists w, run_client moved faults os = Ok (w, l) /\ destroyed_at_most_once w /\ alive w = holding st /\
    (holding st = 0 -> all_destroyed_once w).
Proof.
  intros N S. destruct (ops_ok os _ [] faults st l (good_start faults) eq_refl N S) as (w & E & G).
  exists w. split; [exact E|]. pose proof (g_once _ _ _ _ G) as O. pose proof (g_pend _ _ _ _ G) as P. cbn in P.
  split; [exact O|]. split; [exact P|]. intros Z e He. pose proof (O e He).
  destruct (e_destroyed e) as [|[|k]] eqn:Ee; [exfalso|reflexivity|lia].
  rewrite Z in P. unfold alive in P. apply length_zero_iff_nil in P.
  assert (In e (filter (fun e => Nat.eqb (e_destroyed e) 0) (w_elements w))) as C by (apply filter_In; rewrite Ee; auto).
  rewrite P in C. exact C.
Qed.

Lemma draw_never f : never_throws f -> fst (draw f) = false /\ never_throws (snd (draw f)).
Proof.
  intros H. destruct f as [|b r]; cbn; [split; [reflexivity|exact H]|].
  split; [apply H; left; reflexivity|intros c Hc; apply H; right; exact Hc].
Qed.

Lemma spec_faults o st f st' f' a : never_throws f -> spec_op moved o st f = Some (st', f', a) -> never_throws f'.
Proof.
  intros H. destruct (draw_never f H) as [D1 D2]. destruct (draw f) as [b r] eqn:E. cbn [fst snd] in *. subst b.
  destruct o; cbn [spec_op]; rewrite ?E;
    repeat match goal with |- context[match ?x with _ => _ end] => destruct x end;
    intros Q; try discriminate Q; injection Q as _ <- _; assumption.
Qed.

Lemma no_faults_replacing os : forall st f, never_throws f -> no_fault_replacing moved os st f.
Proof.
  induction os as [|o r IH]; intros st f H; cbn [no_fault_replacing]; [exact I|].
  split; [intros _; apply draw_never, H|]. destruct (spec_op moved o st f) as [[[st1 f1] a]|] eqn:E; [|exact I].
  apply IH. eapply spec_faults; eauto.
Qed.

Lemma client_no_throw faults os st l : never_throws faults -> spec_ops moved os [] faults = Some (st, l) ->
  exists w, run_client moved faults os = Ok (w, l) /\ destroyed_at_most_once w /\ alive w = holding st /\
    (holding st = 0 -> all_destroyed_once w).
Proof. intros H S. apply client_ok; [apply no_faults_replacing, H|exact S]. Qed.
End P.

(** A copy that throws while replacing a value: the old value is destroyed again
    by the destructor. *)
Definition bad_history : list (op nat) :=
  [NewValue 1; NewValue 2; AssignCopy 0 1; Destroy 0; Destroy 1].

Lemma double_destruction : spec_ops (fun v => v) bad_history [] [false; false; true]
    = Some ([None; None], [Done; Done; Raised (UserException 0); Done; Done]) /\
  run_client (fun v => v) [false; false; true] bad_history = UB.
Proof. split; reflexivity. Qed.
