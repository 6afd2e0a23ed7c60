(** Proofs about the serialization model. *)
From Verif Require Import Base SerializationModel SerializationSpec.
From Coq Require Import ZifyBool ZifyNat ZifyN.
Ltac Zify.zify_post_hook ::= Z.div_mod_to_equations.
Local Open Scope N_scope.

Lemma p63 : 2 ^ 63 = 9223372036854775808. Proof. reflexivity. Qed.
Lemma p64 : 2 ^ 64 = 18446744073709551616. Proof. reflexivity. Qed.
Ltac pows := rewrite ?p63, ?p64 in *.
Ltac unf := unfold fits_vector, len64, size64, wrap, sub64 in *; pows.
Global Arguments N.pow : simpl never.
Global Arguments N.mul : simpl never.
Global Arguments N.div : simpl never.
Global Arguments N.modulo : simpl never.

(** ** Integers as bytes *)
Lemma le_bytes_length w v : length (le_bytes w v) = w.
Proof. revert v; induction w as [|w IH]; intros v; simpl; auto. Qed.

Lemma le_bytes_bytes w v : is_bytes (le_bytes w v).
Proof.
  revert v; induction w as [|w IH]; intros v; cbn [le_bytes].
  - constructor.
  - constructor; [lia|apply IH].
Qed.

Lemma of_le_le_bytes w : forall v, v < 256 ^ N.of_nat w -> of_le (le_bytes w v) = v.
Proof.
  induction w as [|w IH]; intros v Hv; cbn [le_bytes of_le].
  - change (256 ^ N.of_nat 0) with 1 in Hv. lia.
  - rewrite Nat2N.inj_succ, N.pow_succ_r' in Hv. rewrite IH.
    + pose proof (N.div_mod v 256). lia.
    + apply N.div_lt_upper_bound; lia.
Qed.

Lemma le_bytes_of_le l : is_bytes l -> le_bytes (length l) (of_le l) = l.
Proof.
  induction 1 as [|x r Hx Hr IH]; cbn [length le_bytes of_le]; [reflexivity|].
  rewrite (N.mul_comm 256), N.mod_add by lia. rewrite N.mod_small by assumption.
  rewrite N.div_add by lia. rewrite N.div_small by assumption. cbn [N.add]. now rewrite IH.
Qed.

Lemma of_le_bound l : is_bytes l -> of_le l < 256 ^ N.of_nat (length l).
Proof.
  induction 1 as [|x r Hx Hr IH]; cbn [length of_le].
  - change (256 ^ N.of_nat 0) with 1. lia.
  - rewrite Nat2N.inj_succ, N.pow_succ_r'. nia.
Qed.

Lemma is_bytes_rev l : is_bytes l -> is_bytes (rev l).
Proof. apply Forall_rev. Qed.
Lemma is_bytes_app l r : is_bytes (l ++ r) <-> is_bytes l /\ is_bytes r.
Proof. apply Forall_app. Qed.

Lemma host_bytes_length le w v : length (host_bytes le w v) = w.
Proof. unfold host_bytes. destruct le; rewrite ?rev_length; apply le_bytes_length. Qed.
Lemma host_bytes_bytes le w v : is_bytes (host_bytes le w v).
Proof. unfold host_bytes. destruct le; try apply is_bytes_rev; apply le_bytes_bytes. Qed.
Lemma of_host_host_bytes le w v : v < 256 ^ N.of_nat w -> of_host le (host_bytes le w v) = v.
Proof.
  intros H. unfold of_host, host_bytes. destruct le; rewrite ?rev_involutive; now apply of_le_le_bytes.
Qed.
Lemma host_bytes_of_host le l : is_bytes l -> host_bytes le (length l) (of_host le l) = l.
Proof.
  intros H. unfold of_host, host_bytes. destruct le.
  - now apply le_bytes_of_le.
  - rewrite <- (rev_length l). rewrite le_bytes_of_le by now apply is_bytes_rev.
    apply rev_involutive.
Qed.
Lemma of_host_bound le l : is_bytes l -> of_host le l < 256 ^ N.of_nat (length l).
Proof.
  intros H. unfold of_host. destruct le; [now apply of_le_bound|].
  rewrite <- (rev_length l). apply of_le_bound. now apply is_bytes_rev.
Qed.

(** A lawful memcpy-able type on a domain of values: object bytes have the
    declared size, are bytes, and determine the value. *)

Lemma uint_lawful le w : (0 < w)%nat -> lawful (uint_rep le w) (fun v => v < 256 ^ N.of_nat w).
Proof.
  intros Hw. split; [exact Hw|]. intros v Hv. cbn [uint_rep to_obj msize of_obj].
  repeat split; [apply host_bytes_length|apply host_bytes_bytes|now apply of_host_host_bytes].
Qed.

(** the network form of an object: the reverse of its bytes on a little-endian
    host, the bytes themselves on a big-endian host *)
Lemma bswap_host le w l : is_bytes l -> length l = w ->
  host_bytes le w (HostToNetwork le w (of_host le l)) = if le then rev l else l.
Proof.
  intros Hl <-. destruct le; cbn [HostToNetwork].
  - unfold bswap, host_bytes, of_host. rewrite le_bytes_of_le by assumption.
    rewrite <- (rev_length l). apply le_bytes_of_le. now apply is_bytes_rev.
  - now apply host_bytes_of_host.
Qed.

Definition net_width (w : nat) : Prop := w = 1%nat \/ w = 2%nat \/ w = 4%nat \/ w = 8%nat.

Lemma network_obj_eq {T} le (m : memcpyable T) dom v :
  lawful m dom -> net_width (msize m) -> dom v ->
  network_obj le m v = if le then rev (to_obj m v) else to_obj m v.
Proof.
  intros [_ H] Hw Hv. destruct (H v Hv) as (H1 & H2 & _). unfold network_obj.
  destruct Hw as [E|[E|[E|E]]]; rewrite E in *; try (apply bswap_host; assumption).
  destruct (to_obj m v) as [|x [|y r]]; try discriminate. destruct le; reflexivity.
Qed.

Lemma network_des_eq le w o : is_bytes o -> length o = w -> net_width w ->
  match w with 1%nat => o | _ => host_bytes le w (NetworkToHost le w (of_host le o)) end =
  if le then rev o else o.
Proof.
  intros Ho Hl Hw. destruct Hw as [E|[E|[E|E]]]; subst w; rewrite E in *;
    try (apply (bswap_host le); assumption).
  destruct o as [|x [|y r]]; try discriminate. destruct le; reflexivity.
Qed.

Lemma le_bytes_nth w : forall v i, (i < w)%nat ->
  nth i (le_bytes w v) 0 = v / 256 ^ N.of_nat i mod 256.
Proof.
  induction w as [|w IH]; intros v i Hi; [lia|]. cbn [le_bytes]. destruct i as [|i]; cbn [nth].
  - change (256 ^ N.of_nat 0) with 1. now rewrite N.div_1_r.
  - rewrite IH by lia. rewrite Nat2N.inj_succ, N.pow_succ_r', N.div_div by (try lia; apply N.pow_nonzero; lia).
    reflexivity.
Qed.

Lemma rev_le_big_endian w v : rev (le_bytes w v) = big_endian w v.
Proof.
  unfold big_endian. apply (nth_ext _ _ 0 0).
  - now rewrite rev_length, le_bytes_length, map_length, seq_length.
  - intros i Hi. rewrite rev_length, le_bytes_length in Hi.
    rewrite rev_nth by now rewrite le_bytes_length. rewrite le_bytes_length, le_bytes_nth by lia.
    set (f := fun i : nat => v / 256 ^ N.of_nat (w - 1 - i) mod 256).
    rewrite (nth_indep (map f (seq 0 w)) 0 (f 0%nat)) by (rewrite map_length, seq_length; lia).
    rewrite map_nth, seq_nth by assumption. unfold f. cbn [Nat.add]. do 4 f_equal. lia.
Qed.

(** ** Reads *)
Lemma len64_app {A} (l r : list A) : len64 (l ++ r) = len64 l + len64 r.
Proof. unfold len64. rewrite app_length. lia. Qed.
Ltac sz := change (@size64) with (@len64) in *.

Lemma memcpy_from_app pre b post : b <> [] ->
  memcpy_from (pre ++ b ++ post) (len64 pre) (len64 b) = Ok b.
Proof.
  intros Hb. assert (0 < length b)%nat by (destruct b; [congruence|simpl; lia]).
  unfold memcpy_from. sz; rewrite !len64_app.
  destruct (N.ltb_spec (len64 pre) (len64 pre + (len64 b + len64 post))); [|unfold len64 in *; lia].
  destruct (N.leb_spec (len64 pre + len64 b) (len64 pre + (len64 b + len64 post))); [|lia].
  cbn [andb]. unfold len64. rewrite !Nat2N.id.
  rewrite skipn_app, skipn_all2, Nat.sub_diag by lia. cbn [skipn app].
  rewrite firstn_app, firstn_all, Nat.sub_diag. cbn [firstn]. now rewrite app_nil_r.
Qed.

Lemma memcpy_from_inside buf pos n : pos < len64 buf -> pos + n <= len64 buf ->
  exists b, memcpy_from buf pos n = Ok b /\ len64 b = n /\ (is_bytes buf -> is_bytes b).
Proof.
  intros H1 H2. unfold memcpy_from. sz.
  destruct (N.ltb_spec pos (len64 buf)); [|lia]. destruct (N.leb_spec (pos + n) (len64 buf)); [|lia].
  eexists. split; [reflexivity|]. split.
  - unfold len64 in *. rewrite firstn_length, skipn_length. lia.
  - intros Hb. unfold is_bytes in *. rewrite Forall_forall in *. intros x Hx. apply Hb.
    rewrite <- (firstn_skipn (N.to_nat pos) buf). apply in_or_app. right.
    rewrite <- (firstn_skipn (N.to_nat n) (skipn (N.to_nat pos) buf)). apply in_or_app. now left.
Qed.

Lemma memcpy_from_ok buf pos n o : memcpy_from buf pos n = Ok o ->
  len64 o = n /\ (is_bytes buf -> is_bytes o).
Proof.
  intros H. unfold memcpy_from in H. sz.
  destruct (N.ltb_spec pos (len64 buf)); [|discriminate].
  destruct (N.leb_spec (pos + n) (len64 buf)); [|discriminate].
  destruct (memcpy_from_inside buf pos n) as (b & E & Hx1 & Hx2); auto.
  unfold memcpy_from in E. sz. destruct (N.ltb_spec pos (len64 buf)); [|lia].
  destruct (N.leb_spec (pos + n) (len64 buf)); [|lia]. rewrite E in H. injection H as <-. auto.
Qed.

Lemma fits_pos {A} (l r : list A) : fits_vector (l ++ r) -> fits_vector l.
Proof. unfold fits_vector. rewrite len64_app. lia. Qed.

Lemma sub64_eq a b : b <= a -> a < 2 ^ 64 -> sub64 a b = a - b.
Proof. unfold sub64. pows. intros. replace (a + 18446744073709551616 - b) with ((a - b) + 1 * 18446744073709551616) by lia.
  rewrite N.mod_add, N.mod_small by lia. reflexivity. Qed.
Lemma wrap_eq a : a < 2 ^ 64 -> wrap a = a.
Proof. intros. unfold wrap. now apply N.mod_small. Qed.

Lemma written_app buf bs : fits_vector (buf ++ bs) -> written buf (buf ++ bs) = (len64 bs, buf ++ bs).
Proof.
  intros H. unfold written. sz. unfold fits_vector in H. rewrite len64_app in *.
  rewrite sub64_eq by (pows; lia). f_equal. lia.
Qed.

Lemma app_eq {T} ser (enc : T -> list N) dom v buf : appends ser enc dom -> dom v ->
  fits_vector (buf ++ enc v) -> ser v buf = (len64 (enc v), buf ++ enc v).
Proof.
  intros Ha Hv Hf. destruct (Ha v buf Hv) as [H1 H2]. specialize (H2 Hf).
  destruct (ser v buf); cbn [fst snd] in *. congruence.
Qed.
Lemma app_snd {T} ser (enc : T -> list N) dom v buf : appends ser enc dom -> dom v ->
  snd (ser v buf) = buf ++ enc v.
Proof. intros Ha Hv. now apply Ha. Qed.
(** a serializer of the form [written buf (buf ++ enc v)] appends *)
Lemma written_appends {T} (ser : T -> list N -> N * list N) (enc : T -> list N) (dom : T -> Prop) :
  (forall v buf, dom v -> ser v buf = written buf (buf ++ enc v)) -> appends ser enc dom.
Proof.
  intros H v buf Hv. rewrite (H v buf Hv). split; [reflexivity|]. intros Hf. now rewrite written_app.
Qed.

(** ** Memcpy-able values *)
Lemma memcpyable_appends {T} (m : memcpyable T) dom :
  appends (SerializeMemcpyable m) (to_obj m) dom.
Proof. intros v buf Hv. split; [reflexivity|]. intros Hf. unfold SerializeMemcpyable. now rewrite written_app. Qed.

Lemma network_appends {T} le (m : memcpyable T) dom :
  appends (SerializeNetworkMemcpyable le m) (network_obj le m) dom.
Proof. intros v buf Hv. split; [reflexivity|]. intros Hf. unfold SerializeNetworkMemcpyable. now rewrite written_app. Qed.

Lemma make_ok {T} (v : T) n : 0 < n -> MakeDeserialized v n = Ok (v, n).
Proof. intros H. unfold MakeDeserialized. destruct (N.eqb_spec n 0); [lia|reflexivity]. Qed.

Lemma memcpyable_reads_back {T} (m : memcpyable T) dom : lawful m dom ->
  reads_back (DeserializeMemcpyable m) (to_obj m) dom.
Proof.
  intros [Hm HL] v pre post Hv Hf. destruct (HL v Hv) as (H1 & H2 & H3).
  unfold DeserializeMemcpyable. sz.
  assert (N.of_nat (msize m) = len64 (to_obj m v)) as -> by (unfold len64; now rewrite H1).
  assert (to_obj m v <> []) as Hne by (intros E; rewrite E in H1; simpl in H1; lia).
  assert (0 < len64 (to_obj m v)) by (unfold len64; lia).
  unfold fits_vector in Hf. rewrite !len64_app in *. rewrite wrap_eq by (pows; lia).
  destruct (N.leb_spec (len64 pre + (len64 (to_obj m v) + len64 post)) (len64 pre)); [lia|].
  destruct (N.ltb_spec (len64 pre + (len64 (to_obj m v) + len64 post)) (len64 pre + len64 (to_obj m v))); [lia|].
  rewrite memcpy_from_app by assumption. cbn [bind]. rewrite H3. now apply make_ok.
Qed.

Lemma network_reads_back {T} le (m : memcpyable T) dom : lawful m dom -> net_width (msize m) ->
  reads_back (DeserializeNetworkMemcpyable le m) (network_obj le m) dom.
Proof.
  intros HL Hw v pre post Hv Hf. pose proof (network_obj_eq le m dom v HL Hw Hv) as En.
  destruct HL as [Hm HL]. destruct (HL v Hv) as (H1 & H2 & H3).
  assert (length (network_obj le m v) = msize m) as HLn.
  { rewrite En. destruct le; rewrite ?rev_length; assumption. }
  assert (is_bytes (network_obj le m v)) as Hb.
  { rewrite En. destruct le; [now apply is_bytes_rev|assumption]. }
  unfold DeserializeNetworkMemcpyable. sz.
  assert (N.of_nat (msize m) = len64 (network_obj le m v)) as EE by (unfold len64; now rewrite HLn).
  rewrite EE.
  assert (network_obj le m v <> []) as Hne by (intros E; rewrite E in HLn; simpl in HLn; lia).
  assert (0 < len64 (network_obj le m v)) by (unfold len64; lia).
  unfold fits_vector in Hf. rewrite !len64_app in *. rewrite wrap_eq by (pows; lia).
  destruct (N.leb_spec (len64 pre + (len64 (network_obj le m v) + len64 post)) (len64 pre)); [lia|].
  destruct (N.ltb_spec (len64 pre + (len64 (network_obj le m v) + len64 post)) (len64 pre + len64 (network_obj le m v))); [lia|].
  rewrite memcpy_from_app by assumption. cbn [bind]. cbv zeta.
  rewrite (network_des_eq le (msize m) (network_obj le m v)) by assumption.
  rewrite make_ok by assumption. do 2 f_equal. rewrite En.
  destruct le; rewrite ?rev_involutive; assumption.
Qed.

Lemma memcpyable_inside {T} (m : memcpyable T) : (0 < msize m)%nat -> N.of_nat (msize m) < 2 ^ 63 ->
  stays_inside (DeserializeMemcpyable m).
Proof.
  intros Hm Hm2 buf off Hb Hf Ho. unfold DeserializeMemcpyable. sz.
  destruct (N.leb_spec (len64 buf) off); [left; eauto|].
  unfold fits_vector in Hf. rewrite wrap_eq by (pows; lia).
  destruct (N.ltb_spec (len64 buf) (off + N.of_nat (msize m))); [left; eauto|].
  destruct (memcpy_from_inside buf off (N.of_nat (msize m))) as (b & -> & _); try lia.
  cbn [bind]. rewrite make_ok by lia. right. do 2 eexists. split; [reflexivity|]. lia.
Qed.

Lemma network_inside {T} le (m : memcpyable T) : (0 < msize m)%nat -> N.of_nat (msize m) < 2 ^ 63 ->
  stays_inside (DeserializeNetworkMemcpyable le m).
Proof.
  intros Hm Hm2 buf off Hb Hf Ho. unfold DeserializeNetworkMemcpyable. sz.
  destruct (N.leb_spec (len64 buf) off); [left; eauto|].
  unfold fits_vector in Hf. rewrite wrap_eq by (pows; lia).
  destruct (N.ltb_spec (len64 buf) (off + N.of_nat (msize m))); [left; eauto|].
  destruct (memcpy_from_inside buf off (N.of_nat (msize m))) as (b & -> & _); try lia.
  cbn [bind]. cbv zeta. rewrite make_ok by lia. right. do 2 eexists. split; [reflexivity|]. lia.
Qed.

(** ** The size header *)
Definition enc_header (net le : bool) (n : N) : list N :=
  if net then network_obj le (uint_rep le 8) n else to_obj (uint_rep le 8) n.

Lemma header_len net le n : n < 2 ^ 64 -> len64 (enc_header net le n) = 8.
Proof.
  intros Hn. unfold enc_header, len64. destruct net.
  - rewrite (network_obj_eq le _ (fun v => v < 256 ^ N.of_nat 8)); auto.
    + destruct le; rewrite ?rev_length; cbn [uint_rep to_obj]; now rewrite host_bytes_length.
    + apply uint_lawful. lia.
    + unfold net_width. cbn [uint_rep msize]. auto.
  - cbn [uint_rep to_obj]. now rewrite host_bytes_length.
Qed.

Lemma header_bytes net le n : n < 2 ^ 64 -> is_bytes (enc_header net le n).
Proof.
  intros Hn. unfold enc_header. destruct net.
  - rewrite (network_obj_eq le _ (fun v => v < 256 ^ N.of_nat 8)); auto.
    + destruct le; [apply is_bytes_rev|]; apply host_bytes_bytes.
    + apply uint_lawful. lia.
    + unfold net_width. cbn [uint_rep msize]. auto.
  - apply host_bytes_bytes.
Qed.

Lemma header_appends net le : appends (ser_header net le) (enc_header net le) (fun n => n < 2 ^ 64).
Proof.
  unfold ser_header, enc_header. destruct net; [apply network_appends|apply memcpyable_appends].
Qed.

Lemma header_reads_back net le : reads_back (des_header net le) (enc_header net le) (fun n => n < 2 ^ 64).
Proof.
  unfold des_header, enc_header. destruct net.
  - apply network_reads_back; [apply (uint_lawful le 8); lia|]. unfold net_width; cbn [uint_rep msize]; auto.
  - apply memcpyable_reads_back. apply (uint_lawful le 8). lia.
Qed.

Lemma header_inside net le : stays_inside (des_header net le).
Proof.
  unfold des_header. destruct net; [apply network_inside|apply memcpyable_inside];
    cbn [uint_rep msize]; try lia; reflexivity.
Qed.

(** value read from bytes is a 64-bit number and 8 bytes are consumed *)
Lemma header_value net le buf off n k : is_bytes buf -> des_header net le buf off = Ok (n, k) ->
  n < 2 ^ 64 /\ k = 8.
Proof.
  intros Hb. unfold des_header. destruct net.
  - unfold DeserializeNetworkMemcpyable; cbn [uint_rep msize of_obj].
    destruct (size64 buf <=? off); [discriminate|].
    destruct (size64 buf <? wrap (off + N.of_nat 8)); [discriminate|].
    intros H'. apply bind_ok in H' as (o & Ho & H').
    apply memcpy_from_ok in Ho as [Hol Hob]. specialize (Hob Hb).
    cbv zeta in H'. rewrite make_ok in H' by lia. injection H' as Hn Hk. subst n.
    split; [|symmetry; exact Hk]. change (2 ^ 64) with (256 ^ N.of_nat 8).
    pose proof (of_host_bound le (host_bytes le 8 (NetworkToHost le 8 (of_host le o)))) as HB.
    rewrite host_bytes_length in HB. apply HB. apply host_bytes_bytes.
  - unfold DeserializeMemcpyable; cbn [uint_rep msize of_obj].
    destruct (size64 buf <=? off); [discriminate|].
    destruct (size64 buf <? wrap (off + N.of_nat 8)); [discriminate|].
    intros H'. apply bind_ok in H' as (o & Ho & H').
    apply memcpy_from_ok in Ho as [Hol Hob]. specialize (Hob Hb).
    rewrite make_ok in H' by lia. injection H' as Hn Hk. subst n.
    split; [|symmetry; exact Hk]. change (2 ^ 64) with (256 ^ N.of_nat 8).
    replace 8%nat with (length o) by (unfold len64 in Hol; lia). now apply of_host_bound.
Qed.

(** ** Loops *)
Lemma loopP_spec {S} (f : S -> outcome S) p : forall s,
  loopP p f s = mfold (fun s (_ : unit) => f s) s (repeat tt (Pos.to_nat p)).
Proof.
  induction p as [p IH|p IH|]; intros s; cbn [loopP].
  - replace (Pos.to_nat p~1) with (1 + (Pos.to_nat p + Pos.to_nat p))%nat by lia.
    rewrite !repeat_app. cbn [repeat app mfold]. destruct (f s) as [s0| | |]; cbn [bind]; auto.
    rewrite mfold_app, IH. destruct (mfold _ s0 _); cbn [bind]; auto.
  - replace (Pos.to_nat p~0) with (Pos.to_nat p + Pos.to_nat p)%nat by lia.
    rewrite repeat_app, mfold_app, IH. destruct (mfold _ s _); cbn [bind]; auto.
  - change (Pos.to_nat 1) with 1%nat. cbn [repeat mfold]. destruct (f s); reflexivity.
Qed.

Lemma loopN_spec {S} (f : S -> outcome S) n s :
  loopN n f s = mfold (fun s (_ : unit) => f s) s (repeat tt (N.to_nat n)).
Proof. destruct n as [|p]; [reflexivity|]. apply loopP_spec. Qed.

Definition enc_items {T} (enc : T -> list N) (l : list T) : list N := concat (map enc l).

Lemma ser_items_app {T} ser (enc : T -> list N) dom l : appends ser enc dom -> Forall dom l ->
  forall buf, ser_items ser l buf = buf ++ enc_items enc l.
Proof.
  intros Ha Hl. unfold enc_items, ser_items. induction Hl as [|x r Hx Hr IH]; intros buf.
  - cbn. now rewrite app_nil_r.
  - cbn [fold_left map concat] in *. rewrite app_assoc.
    rewrite (app_snd ser enc dom x buf Ha Hx). exact (IH _).
Qed.

Lemma read_items {T A} des (enc : T -> list N) dom (put : A -> T -> A) l :
  reads_back des enc dom -> Forall dom l ->
  forall pre post acc, fits_vector (pre ++ enc_items enc l ++ post) ->
  mfold (fun s (_ : unit) => des_step des put (pre ++ enc_items enc l ++ post) s) (acc, len64 pre)
        (repeat tt (length l)) =
  Ok (fold_left put l acc, len64 pre + len64 (enc_items enc l)).
Proof.
  intros Hd Hl. unfold enc_items. induction Hl as [|x r Hx Hr IH]; intros pre post acc Hf.
  - cbn. f_equal. f_equal. unfold len64. cbn [length]. lia.
  - cbn [length repeat mfold map concat fold_left] in *. unfold des_step at 1. cbn [fst snd].
    rewrite <- app_assoc in *. rewrite (Hd x pre (concat (map enc r) ++ post)); auto.
    cbn [bind fst snd].
    assert (wrap (len64 pre + len64 (enc x)) = len64 (pre ++ enc x)) as ->.
    { rewrite len64_app. apply wrap_eq. unfold fits_vector in Hf. rewrite !len64_app in Hf. pows. lia. }
    specialize (IH (pre ++ enc x) post (put acc x)).
    rewrite <- app_assoc in IH. rewrite IH; auto.
    do 2 f_equal. rewrite !len64_app. lia.
Qed.

(** encoding of a header-prefixed sequence *)
Definition enc_seq {T} net le (enc : T -> list N) (l : list T) : list N :=
  enc_header net le (len64 l) ++ enc_items enc l.

Lemma seq_appends {T} net le ser (enc : T -> list N) dom : appends ser enc dom ->
  appends (SerializeVectorLike net le ser) (enc_seq net le enc)
    (fun l => Forall dom l /\ len64 l < 2 ^ 64).
Proof.
  intros Ha. apply written_appends. intros l buf [Hl Hn]. unfold SerializeVectorLike, enc_seq. sz.
  rewrite (app_snd _ _ _ (len64 l) buf (header_appends net le) Hn).
  rewrite (ser_items_app ser enc dom l Ha Hl). now rewrite <- app_assoc.
Qed.

Lemma seq_nonempty {T} net le (enc : T -> list N) l : len64 l < 2 ^ 64 -> enc_seq net le enc l <> [].
Proof.
  intros H E. apply (f_equal len64) in E. unfold enc_seq in E. rewrite len64_app, header_len in E by assumption.
  change (len64 []) with 0 in E. lia.
Qed.

Lemma seq_bytes {T} net le (enc : T -> list N) (dom : T -> Prop) l : len64 l < 2 ^ 64 ->
  (forall v, dom v -> is_bytes (enc v)) -> Forall dom l -> is_bytes (enc_seq net le enc l).
Proof.
  intros Hn He Hl. unfold enc_seq. apply is_bytes_app. split; [now apply header_bytes|].
  clear Hn. unfold enc_items. induction Hl as [|x r Hx Hr IH]; cbn; [constructor|].
  apply is_bytes_app; auto.
Qed.

Lemma read_seq {T A} net le des (enc : T -> list N) dom (put : A -> T -> A) l acc pre post :
  reads_back des enc dom -> Forall dom l -> len64 l < 2 ^ 64 ->
  fits_vector (pre ++ enc_seq net le enc l ++ post) ->
  des_header net le (pre ++ enc_seq net le enc l ++ post) (len64 pre) = Ok (len64 l, 8) /\
  loopN (len64 l) (des_step des put (pre ++ enc_seq net le enc l ++ post)) (acc, wrap (len64 pre + 8)) =
    Ok (fold_left put l acc, len64 pre + len64 (enc_seq net le enc l)).
Proof.
  intros Hd Hl Hn Hf. unfold enc_seq in *. rewrite <- !app_assoc in *. split.
  - rewrite (header_reads_back net le (len64 l)) by assumption. rewrite header_len by assumption. reflexivity.
  - rewrite loopN_spec. replace (N.to_nat (len64 l)) with (length l) by (unfold len64; lia).
    assert (wrap (len64 pre + 8) = len64 (pre ++ enc_header net le (len64 l))) as ->.
    { rewrite len64_app, header_len by assumption. apply wrap_eq.
      unfold fits_vector in Hf. rewrite !len64_app, header_len in Hf by assumption. pows. lia. }
    rewrite app_assoc. rewrite app_assoc in Hf.
    rewrite (read_items des enc dom put l Hd Hl) by assumption.
    do 2 f_equal. rewrite !len64_app. lia.
Qed.

Lemma fold_left_snoc {T} (l acc : list T) : fold_left (fun a x => a ++ [x]) l acc = acc ++ l.
Proof.
  revert acc; induction l as [|x r IH]; intros acc; cbn; [now rewrite app_nil_r|].
  rewrite IH, <- app_assoc. reflexivity.
Qed.

Lemma vector_reads_back {T} net le maxsz des (enc : T -> list N) dom : reads_back des enc dom ->
  reads_back (DeserializeVectorLike net le maxsz des) (enc_seq net le enc)
    (fun l => Forall dom l /\ len64 l < 2 ^ 64 /\ len64 l <= maxsz).
Proof.
  intros Hd l pre post (Hl & Hn & Hm) Hf.
  destruct (read_seq net le des enc dom (fun acc x => acc ++ [x]) l [] pre post Hd Hl Hn Hf) as [H1 H2].
  unfold DeserializeVectorLike. rewrite H1. cbn [bind fst snd].
  destruct (N.ltb_spec maxsz (len64 l)); [lia|]. rewrite H2. cbn [bind fst snd].
  rewrite fold_left_snoc. cbn [app].
  unfold fits_vector in Hf. rewrite !len64_app in Hf.
  rewrite sub64_eq by (pows; lia).
  replace (len64 pre + len64 (enc_seq net le enc l) - len64 pre) with (len64 (enc_seq net le enc l)) by lia.
  apply make_ok. unfold enc_seq. rewrite len64_app, header_len by assumption. lia.
Qed.

(** ** Bounds of the read loop *)
Lemma loop_inside {T A} des (put : A -> T -> A) buf n : stays_inside des -> is_bytes buf -> fits_vector buf ->
  forall acc pos, pos <= len64 buf ->
  (exists e, mfold (fun s (_ : unit) => des_step des put buf s) (acc, pos) (repeat tt n) = Throw e) \/
  (exists acc' pos', mfold (fun s (_ : unit) => des_step des put buf s) (acc, pos) (repeat tt n) = Ok (acc', pos')
     /\ pos <= pos' /\ pos' <= len64 buf).
Proof.
  intros Hs Hb Hf. unfold fits_vector in Hf. induction n as [|n IH]; intros acc pos Hp; cbn [repeat mfold].
  - right. do 2 eexists. split; [reflexivity|]. lia.
  - unfold des_step at 1 3. cbn [fst snd].
    destruct (Hs buf pos Hb Hf) as [(e & ->)|(v & k & -> & Hk & Hk2)]; [pows; lia|left; cbn; eauto|].
    cbn [bind fst snd]. rewrite wrap_eq by (pows; lia).
    destruct (IH (put acc v) (pos + k)) as [(e & He)|(a & p & He & Hp1 & Hp2)]; [lia|left|right].
    + eauto.
    + do 2 eexists. split; [exact He|]. lia.
Qed.

Lemma vector_inside {T} net le maxsz (des : Deserializer T) : stays_inside des ->
  stays_inside (DeserializeVectorLike net le maxsz des).
Proof.
  intros Hs buf off Hb Hf Ho. unfold DeserializeVectorLike.
  destruct (header_inside net le buf off Hb Hf Ho) as [(e & ->)|(n & k & -> & Hk & Hk2)]; [left; cbn; eauto|].
  cbn [bind fst snd]. destruct (maxsz <? n); [left; eauto|].
  assert (Hf' := Hf). unfold fits_vector in Hf'. rewrite wrap_eq by (pows; lia). rewrite loopN_spec.
  destruct (loop_inside des (fun acc x => acc ++ [x]) buf (N.to_nat n) Hs Hb Hf [] (off + k)) as
    [(e & He)|(a & p & He & Hp1 & Hp2)]; [lia| |]; rewrite He; cbn [bind fst snd].
  - left; eauto.
  - right. rewrite sub64_eq by (pows; lia). rewrite make_ok by lia.
    do 2 eexists. split; [reflexivity|]. lia.
Qed.

(** generic: header + loop with any insertion function *)
Lemma insert_inside {T A} net le (des : Deserializer T) (put : A -> T -> A) (acc : A) : stays_inside des ->
  stays_inside (fun buf off =>
    do h <- des_header net le buf off;
    do r <- loopN (fst h) (des_step des put buf) (acc, wrap (off + snd h));
    MakeDeserialized (fst r) (sub64 (snd r) off)).
Proof.
  intros Hs buf off Hb Hf Ho.
  destruct (header_inside net le buf off Hb Hf Ho) as [(e & ->)|(n & k & -> & Hk & Hk2)]; [left; cbn; eauto|].
  cbn [bind fst snd].
  assert (Hf' := Hf). unfold fits_vector in Hf'. rewrite wrap_eq by (pows; lia). rewrite loopN_spec.
  destruct (loop_inside des put buf (N.to_nat n) Hs Hb Hf acc (off + k)) as
    [(e & He)|(a & p & He & Hp1 & Hp2)]; [lia| |]; rewrite He; cbn [bind fst snd].
  - left; eauto.
  - right. rewrite sub64_eq by (pows; lia). rewrite make_ok by lia.
    do 2 eexists. split; [reflexivity|]. lia.
Qed.

Lemma pair_inside {A B} (da : Deserializer A) (db : Deserializer B) :
  stays_inside da -> stays_inside db -> stays_inside (DeserializePair da db).
Proof.
  intros Ha Hb' buf off Hb Hf Ho. unfold DeserializePair.
  destruct (Ha buf off Hb Hf Ho) as [(e & ->)|(a & k & -> & Hk & Hk2)]; [left; cbn; eauto|].
  cbn [bind fst snd]. cbv zeta. assert (Hf' := Hf). unfold fits_vector in Hf'.
  rewrite wrap_eq by (pows; lia).
  destruct (Hb' buf (off + k) Hb Hf) as [(e & ->)|(b & k2 & -> & Hk3 & Hk4)]; [pows; lia|left; cbn; eauto|].
  cbn [bind fst snd]. rewrite wrap_eq by (pows; lia). rewrite sub64_eq by (pows; lia).
  rewrite make_ok by lia. right. do 2 eexists. split; [reflexivity|]. lia.
Qed.

Lemma map_inside {K V} net le keqb (dk : Deserializer K) (dv : Deserializer V) :
  stays_inside dk -> stays_inside dv -> stays_inside (DeserializeMapLike net le keqb dk dv).
Proof. intros Hk Hv. apply insert_inside. now apply pair_inside. Qed.

Lemma set_inside {K} net le keqb (dk : Deserializer K) :
  stays_inside dk -> stays_inside (DeserializeSetLike net le keqb dk).
Proof. intros Hk. now apply insert_inside. Qed.

Lemma memvec_inside {T} le maxsz (m : memcpyable T) : (0 < msize m)%nat ->
  N.of_nat (msize m) * maxsz < 2 ^ 63 ->
  stays_inside (DeserializeMemcpyableVectorLike le maxsz m).
Proof.
  intros Hm0 Hm buf off Hb Hf Ho. unfold DeserializeMemcpyableVectorLike.
  destruct (des_header false le buf off) as [[n k]|e| |] eqn:Eh;
    destruct (header_inside false le buf off Hb Hf Ho) as [(e' & He)|(n' & k' & He & Hk & Hk2)];
    rewrite He in Eh; try discriminate; cbn [bind fst snd]; [|left; eauto].
  injection Eh as -> ->.
  assert (Hf' := Hf). unfold fits_vector in Hf'. cbv zeta.
  rewrite (wrap_eq (off + k)) by (pows; lia).
  destruct (N.ltb_spec (size64 buf) (wrap (off + k + wrap (N.of_nat (msize m) * n)))) as [|Hle]; [left; eauto|].
  destruct (N.ltb_spec maxsz n) as [|Hle2]; [left; eauto|].
  assert (N.of_nat (msize m) * n < 2 ^ 63) as Hsm by nia.
  rewrite (wrap_eq (N.of_nat (msize m) * n)) in * by (pows; lia).
  rewrite (wrap_eq (off + k + _)) in * by (pows; lia).
  sz.
  destruct (N.ltb_spec 0 n) as [Hn|Hn].
  - destruct (memcpy_from_inside buf (off + k) (N.of_nat (msize m) * n)) as (b & -> & _); try nia.
    cbn [bind]. rewrite sub64_eq, make_ok by (pows; lia). right. do 2 eexists. split; [reflexivity|]. lia.
  - cbn [bind]. rewrite sub64_eq, make_ok by (pows; lia). right. do 2 eexists. split; [reflexivity|]. lia.
Qed.

(** ** Pairs *)
Definition enc_pair {A B} (ea : A -> list N) (eb : B -> list N) (v : A * B) : list N :=
  ea (fst v) ++ eb (snd v).

Lemma pair_appends {A B} sa sb (ea : A -> list N) (eb : B -> list N) (da : A -> Prop) (db : B -> Prop) :
  appends sa ea da -> appends sb eb db ->
  appends (SerializePair sa sb) (enc_pair ea eb) (fun v => da (fst v) /\ db (snd v)).
Proof.
  intros Ha Hb. apply written_appends. intros [a b] buf [Hda Hdb]. unfold SerializePair, enc_pair.
  cbn [fst snd] in *. rewrite (app_snd _ _ _ a buf Ha Hda), (app_snd _ _ _ b _ Hb Hdb).
  now rewrite <- app_assoc.
Qed.

Lemma pair_reads_back {A B} desa desb (ea : A -> list N) (eb : B -> list N) (da : A -> Prop) (db : B -> Prop) :
  (forall a, da a -> ea a <> []) ->
  reads_back desa ea da -> reads_back desb eb db ->
  reads_back (DeserializePair desa desb) (enc_pair ea eb) (fun v => da (fst v) /\ db (snd v)).
Proof.
  intros Hne Ha Hb [a b] pre post [Hda Hdb] Hf. unfold DeserializePair, enc_pair in *. cbn [fst snd] in *.
  rewrite <- app_assoc in *. rewrite (Ha a pre (eb b ++ post) Hda Hf). cbn [bind fst snd]. cbv zeta.
  assert (wrap (len64 pre + len64 (ea a)) = len64 (pre ++ ea a)) as ->.
  { rewrite len64_app. apply wrap_eq. unfold fits_vector in Hf. rewrite !len64_app in Hf. pows. lia. }
  rewrite app_assoc in *. rewrite (Hb b (pre ++ ea a) post Hdb Hf). cbn [bind fst snd].
  unfold fits_vector in Hf. rewrite !len64_app in *.
  rewrite wrap_eq by (pows; lia). rewrite sub64_eq by (pows; lia).
  replace (len64 pre + len64 (ea a) + len64 (eb b) - len64 pre) with (len64 (ea a) + len64 (eb b)) by lia.
  apply make_ok. specialize (Hne a Hda). destruct (ea a); [congruence|]. unfold len64. cbn [length]. lia.
Qed.

(** ** Maps and sets *)
Definition eqb_ok {K} (keqb : K -> K -> bool) : Prop := forall a b, keqb a b = true <-> a = b.

Lemma map_rebuild {K V} keqb (l acc : list (K * V)) : eqb_ok keqb ->
  NoDup (map fst (acc ++ l)) -> fold_left (map_insert keqb) l acc = acc ++ l.
Proof.
  intros Hk. revert acc; induction l as [|[k v] r IH]; intros acc Hnd; cbn [fold_left].
  - now rewrite app_nil_r.
  - assert (map_insert keqb acc (k, v) = acc ++ [(k, v)]) as ->.
    { unfold map_insert. destruct (existsb _ acc) eqn:E; [|reflexivity]. exfalso.
      apply existsb_exists in E as ((k' & v') & Hin & E). cbn [fst] in E. apply Hk in E. subst k'.
      rewrite map_app in Hnd. cbn [map fst] in Hnd. apply NoDup_remove_2 in Hnd. apply Hnd.
      apply in_or_app. left. apply in_map_iff. exists (k, v'). auto. }
    rewrite IH; rewrite <- app_assoc; [reflexivity|exact Hnd].
Qed.

Lemma set_rebuild {K} keqb (l acc : list K) : eqb_ok keqb ->
  NoDup (acc ++ l) -> fold_left (set_insert keqb) l acc = acc ++ l.
Proof.
  intros Hk. revert acc; induction l as [|k r IH]; intros acc Hnd; cbn [fold_left].
  - now rewrite app_nil_r.
  - assert (set_insert keqb acc k = acc ++ [k]) as ->.
    { unfold set_insert. destruct (existsb _ acc) eqn:E; [|reflexivity]. exfalso.
      apply existsb_exists in E as (k' & Hin & E). apply Hk in E. subst k'.
      apply NoDup_remove_2 in Hnd. apply Hnd. apply in_or_app. now left. }
    rewrite IH; rewrite <- app_assoc; [reflexivity|exact Hnd].
Qed.

Lemma map_reads_back {K V} net le keqb dk dv (ek : K -> list N) (ev : V -> list N) (domk : K -> Prop) (domv : V -> Prop) :
  eqb_ok keqb -> (forall k, domk k -> ek k <> []) -> reads_back dk ek domk -> reads_back dv ev domv ->
  reads_back (DeserializeMapLike net le keqb dk dv) (enc_seq net le (enc_pair ek ev))
    (fun l => Forall (fun e => domk (fst e) /\ domv (snd e)) l /\ len64 l < 2 ^ 64 /\ NoDup (map fst l)).
Proof.
  intros Hk Hne Hdk Hdv l pre post (Hl & Hn & Hnd) Hf.
  destruct (read_seq net le (DeserializePair dk dv) (enc_pair ek ev) _ (map_insert keqb) l [] pre post
    (pair_reads_back _ _ _ _ _ _ Hne Hdk Hdv) Hl Hn Hf) as [H1 H2].
  unfold DeserializeMapLike. rewrite H1. cbn [bind fst snd]. rewrite H2. cbn [bind fst snd].
  rewrite map_rebuild by assumption. cbn [app].
  unfold fits_vector in Hf. rewrite !len64_app in Hf. rewrite sub64_eq by (pows; lia).
  replace (len64 pre + len64 (enc_seq net le (enc_pair ek ev) l) - len64 pre)
    with (len64 (enc_seq net le (enc_pair ek ev) l)) by lia.
  apply make_ok. unfold enc_seq. rewrite len64_app, header_len by assumption. lia.
Qed.

Lemma set_reads_back {K} net le keqb dk (ek : K -> list N) (domk : K -> Prop) :
  eqb_ok keqb -> reads_back dk ek domk ->
  reads_back (DeserializeSetLike net le keqb dk) (enc_seq net le ek)
    (fun l => Forall domk l /\ len64 l < 2 ^ 64 /\ NoDup l).
Proof.
  intros Hk Hdk l pre post (Hl & Hn & Hnd) Hf.
  destruct (read_seq net le dk ek _ (set_insert keqb) l [] pre post Hdk Hl Hn Hf) as [H1 H2].
  unfold DeserializeSetLike. rewrite H1. cbn [bind fst snd]. rewrite H2. cbn [bind fst snd].
  rewrite set_rebuild by assumption. cbn [app].
  unfold fits_vector in Hf. rewrite !len64_app in Hf. rewrite sub64_eq by (pows; lia).
  replace (len64 pre + len64 (enc_seq net le ek l) - len64 pre) with (len64 (enc_seq net le ek l)) by lia.
  apply make_ok. unfold enc_seq. rewrite len64_app, header_len by assumption. lia.
Qed.

(** ** Memcpy-able vectors *)
Lemma memvec_appends {T} le (m : memcpyable T) (dom : T -> Prop) :
  appends (SerializeMemcpyableVectorLike le m) (enc_seq false le (to_obj m))
    (fun l => Forall dom l /\ len64 l < 2 ^ 64).
Proof.
  apply written_appends. intros l buf [Hl Hn]. unfold SerializeMemcpyableVectorLike, enc_seq. sz.
  rewrite (app_snd _ _ _ (len64 l) buf (header_appends false le) Hn). now rewrite <- app_assoc.
Qed.

Lemma objects_enc {T} (m : memcpyable T) dom l : lawful m dom -> Forall dom l ->
  objects m (length l) (enc_items (to_obj m) l) = l.
Proof.
  intros [_ HL] Hl. unfold enc_items. induction Hl as [|x r Hx Hr IH]; cbn [length objects map concat]; [reflexivity|].
  destruct (HL x Hx) as (H1 & _ & H3).
  rewrite firstn_app, H1, Nat.sub_diag, firstn_O, app_nil_r, <- H1, firstn_all, H3.
  rewrite H1. rewrite skipn_app, H1, Nat.sub_diag, skipn_O, <- H1, skipn_all. cbn [app]. now rewrite IH.
Qed.

Lemma enc_items_len {T} (m : memcpyable T) dom l : lawful m dom -> Forall dom l ->
  len64 (enc_items (to_obj m) l) = N.of_nat (msize m) * len64 l.
Proof.
  intros [_ HL] Hl. unfold enc_items. induction Hl as [|x r Hx Hr IH]; cbn [map concat].
  - change (len64 []) with 0. unfold len64. simpl. lia.
  - rewrite len64_app, IH. destruct (HL x Hx) as (H1 & _). unfold len64 at 1. rewrite H1.
    unfold len64. cbn [length]. lia.
Qed.

Lemma memvec_reads_back {T} le maxsz (m : memcpyable T) dom : lawful m dom ->
  reads_back (DeserializeMemcpyableVectorLike le maxsz m) (enc_seq false le (to_obj m))
    (fun l => Forall dom l /\ len64 l < 2 ^ 64 /\ len64 l <= maxsz).
Proof.
  intros HL l pre post (Hl & Hn & Hm) Hf. unfold DeserializeMemcpyableVectorLike.
  pose proof (enc_items_len m dom l HL Hl) as HI.
  assert (Hf' := Hf). unfold fits_vector in Hf'. unfold enc_seq in Hf'.
  rewrite !len64_app, header_len in Hf' by assumption. rewrite HI in Hf'.
  unfold enc_seq in *. rewrite <- !app_assoc in *.
  rewrite (header_reads_back false le (len64 l)) by assumption. cbn [bind fst snd]. cbv zeta. sz.
  rewrite header_len by assumption.
  rewrite (wrap_eq (N.of_nat (msize m) * len64 l)) by (pows; lia).
  rewrite (wrap_eq (len64 pre + 8)) by (pows; lia).
  rewrite (wrap_eq (len64 pre + 8 + _)) by (pows; lia).
  destruct (N.ltb_spec (len64 (pre ++ enc_header false le (len64 l) ++ enc_items (to_obj m) l ++ post))
    (len64 pre + 8 + N.of_nat (msize m) * len64 l)) as [HC|_].
  { exfalso. rewrite !len64_app, header_len, HI in HC by assumption. lia. }
  destruct (N.ltb_spec maxsz (len64 l)); [lia|].
  replace (N.to_nat (len64 l)) with (length l) by (unfold len64; lia).
  assert ((if 0 <? len64 l
    then memcpy_from (pre ++ enc_header false le (len64 l) ++ enc_items (to_obj m) l ++ post)
           (len64 pre + 8) (N.of_nat (msize m) * len64 l) else Ok []) = Ok (enc_items (to_obj m) l)) as ->.
  { destruct (N.ltb_spec 0 (len64 l)) as [Hp|Hp].
    - rewrite <- HI. replace (len64 pre + 8) with (len64 (pre ++ enc_header false le (len64 l)))
        by (rewrite len64_app, header_len by assumption; lia).
      rewrite app_assoc. apply memcpy_from_app. intros E. rewrite E in HI. change (len64 []) with 0 in HI.
      destruct HL as [H0 _]. nia.
    - destruct l; [reflexivity|]. unfold len64 in Hp. cbn [length] in Hp. lia. }
  cbn [bind]. rewrite (objects_enc m dom) by assumption.
  rewrite sub64_eq by (pows; lia).
  rewrite len64_app, header_len, HI by assumption.
  rewrite make_ok by lia. do 2 f_equal. lia.
Qed.

Lemma memcpy_to_app done z r rest : length z = length r -> r <> [] ->
  memcpy_to (done ++ z ++ rest) (len64 done) r = Ok (done ++ r ++ rest).
Proof.
  intros Hz Hr. assert (0 < length r)%nat by (destruct r; [congruence|simpl; lia]).
  unfold memcpy_to. sz. rewrite !len64_app.
  destruct (N.ltb_spec (len64 done) (len64 done + (len64 z + len64 rest))); [|unfold len64 in *; lia].
  destruct (N.leb_spec (len64 done + len64 r) (len64 done + (len64 z + len64 rest))); [|unfold len64 in *; lia].
  cbn [andb]. unfold len64. rewrite Nat2N.id. f_equal.
  rewrite firstn_app, firstn_all, Nat.sub_diag, firstn_O, app_nil_r. f_equal. f_equal.
  rewrite app_assoc, skipn_app, skipn_all2 by (rewrite app_length; lia).
  cbn [app]. replace (length done + length r - length (done ++ z))%nat with 0%nat by (rewrite app_length; lia).
  reflexivity.
Qed.

Lemma inplace_loop {T} le (m : memcpyable T) dom v : lawful m dom -> net_width (msize m) -> Forall dom v ->
  forall done, fits_vector (done ++ enc_items (network_obj le m) v) ->
  mfold (fun (st : buffer * N) x =>
             do w <- SerializeNetworkMemcpyableInPlace le m x (fst st) (snd st);
             Ok (snd w, wrap (snd st + fst w)))
    (done ++ repeat 0 (msize m * length v), len64 done) v =
  Ok (done ++ enc_items (network_obj le m) v, len64 (done ++ enc_items (network_obj le m) v)).
Proof.
  intros HL Hw Hv. unfold enc_items. induction Hv as [|x r Hx Hr IH]; intros done Hf; cbn [mfold map concat length].
  - rewrite Nat.mul_0_r. cbn [repeat]. rewrite !app_nil_r. reflexivity.
  - assert (length (network_obj le m x) = msize m) as HLn.
    { rewrite (network_obj_eq le m dom x HL Hw Hx). destruct HL as [_ HL]. destruct (HL x Hx) as (H1 & _).
      destruct le; rewrite ?rev_length; assumption. }
    rewrite Nat.mul_succ_r, Nat.add_comm, repeat_app. cbn [fst snd].
    unfold SerializeNetworkMemcpyableInPlace at 1. sz. cbn [map concat] in Hf.
    assert (Hf' := Hf). unfold fits_vector in Hf'. rewrite !len64_app in Hf'.
    assert (len64 (network_obj le m x) = N.of_nat (msize m)) as HLn' by (unfold len64; now rewrite HLn).
    rewrite wrap_eq by (pows; lia).
    destruct (N.leb_spec (len64 done + N.of_nat (msize m))
      (len64 (done ++ repeat 0 (msize m) ++ repeat 0 (msize m * length r)))) as [_|HC].
    2:{ exfalso. unfold len64 in HC. rewrite !app_length, !repeat_length in HC. lia. }
    rewrite memcpy_to_app.
    + cbn [bind fst snd]. rewrite wrap_eq by (pows; lia).
      rewrite app_assoc. replace (len64 done + N.of_nat (msize m)) with (len64 (done ++ network_obj le m x))
        by (rewrite len64_app; lia).
      rewrite IH; rewrite <- !app_assoc; auto.
    + rewrite repeat_length. now symmetry.
    + intros E. rewrite E in HLn. destruct HL as [H0 _]. simpl in HLn. lia.
Qed.

Lemma net_memvec_appends {T} le (m : memcpyable T) dom v buf : lawful m dom -> net_width (msize m) ->
  Forall dom v -> len64 v < 2 ^ 64 -> fits_vector (buf ++ enc_seq true le (network_obj le m) v) ->
  SerializeNetworkMemcpyableVectorLike le m v buf =
    Ok (len64 (enc_seq true le (network_obj le m) v), buf ++ enc_seq true le (network_obj le m) v).
Proof.
  intros HL Hw Hv Hn Hf. unfold SerializeNetworkMemcpyableVectorLike, enc_seq in *. sz.
  rewrite app_assoc in Hf.
  rewrite (app_snd _ _ _ (len64 v) buf (header_appends true le) Hn). cbv zeta.
  rewrite (inplace_loop le m dom v HL Hw Hv) by assumption. cbn [bind fst].
  rewrite <- app_assoc in *. now rewrite written_app.
Qed.

(** ** Fixed-size Eigen types *)
Lemma fixed_appends n : appends (SerializeFixed n) (fun v => v)
  (fun v => length v = (8 * n)%nat /\ is_bytes v).
Proof.
  intros v buf [Hv Hb]. unfold SerializeFixed. cbn [fst snd]. rewrite <- Hv, firstn_all.
  split; [reflexivity|]. intros _. unfold len64. lia.
Qed.

Lemma fixed_reads_back n : (0 < n)%nat -> reads_back (DeserializeFixed n) (fun v => v)
  (fun v => length v = (8 * n)%nat /\ is_bytes v).
Proof.
  intros Hn v pre post [Hv Hb] Hf. unfold DeserializeFixed. sz.
  assert (8 * N.of_nat n = len64 v) as -> by (unfold len64; lia).
  assert (v <> []) as Hne by (intros ->; simpl in Hv; lia).
  assert (0 < len64 v) by (unfold len64; lia).
  unfold fits_vector in Hf. rewrite !len64_app in *. rewrite wrap_eq by (pows; lia).
  destruct (N.leb_spec (len64 pre + (len64 v + len64 post)) (len64 pre)); [lia|].
  destruct (N.ltb_spec (len64 pre + (len64 v + len64 post)) (len64 pre + len64 v)); [lia|].
  rewrite memcpy_from_app by assumption. cbn [bind]. now apply make_ok.
Qed.

Lemma fixed_inside n : (0 < n)%nat -> 8 * N.of_nat n < 2 ^ 63 -> stays_inside (DeserializeFixed n).
Proof.
  intros Hm Hm2 buf off Hb Hf Ho. unfold DeserializeFixed. sz.
  destruct (N.leb_spec (len64 buf) off); [left; eauto|].
  unfold fits_vector in Hf. rewrite wrap_eq by (pows; lia).
  destruct (N.ltb_spec (len64 buf) (off + 8 * N.of_nat n)); [left; eauto|].
  destruct (memcpy_from_inside buf off (8 * N.of_nat n)) as (b & -> & _); try lia.
  cbn [bind]. rewrite make_ok by lia. right. do 2 eexists. split; [reflexivity|]. lia.
Qed.

(** ** Matrices *)
Definition matrix_ok (v : matrix) : Prop :=
  m_rows v * m_cols v <> 0 /\ is_bytes (m_data v) /\ len64 (m_data v) = 8 * m_rows v * m_cols v.

Definition enc_matrix (le : bool) (v : matrix) : list N :=
  enc_header false le (m_rows v) ++ enc_header false le (m_cols v) ++ m_data v.

Lemma matrix_dims v : matrix_ok v -> fits_vector (m_data v) -> m_rows v < 2 ^ 60 /\ m_cols v < 2 ^ 60.
Proof.
  intros (Hz & _ & Hl) Hf. unfold fits_vector in Hf. rewrite Hl in Hf.
  change (2 ^ 63) with 9223372036854775808 in Hf. change (2 ^ 60) with 1152921504606846976.
  assert (m_rows v <> 0) by (intros E; rewrite E in Hz; lia).
  assert (m_cols v <> 0) by (intros E; rewrite E in Hz; lia).
  assert (m_rows v * 1 <= m_rows v * m_cols v) by (apply N.mul_le_mono_l; lia).
  assert (1 * m_cols v <= m_rows v * m_cols v) by (apply N.mul_le_mono_r; lia).
  rewrite <- N.mul_assoc in Hf. lia.
Qed.

Lemma matrix_appends le v buf : matrix_ok v -> fits_vector (buf ++ enc_matrix le v) ->
  SerializeMatrixXd le v buf = Ok (len64 (enc_matrix le v), buf ++ enc_matrix le v).
Proof.
  intros Hv Hf. assert (Hf' := Hf). unfold enc_matrix in Hf'. rewrite !app_assoc in Hf'.
  assert (fits_vector (m_data v)) as Hfd.
  { unfold fits_vector in *. rewrite len64_app in Hf'. lia. }
  destruct (matrix_dims v Hv Hfd) as [Hr Hc]. destruct Hv as (Hz & Hb & Hl).
  unfold fits_vector in Hfd. rewrite Hl in Hfd.
  assert (2 ^ 60 < 2 ^ 64) by reflexivity.
  unfold SerializeMatrixXd. cbv zeta.
  rewrite (app_snd _ _ _ (m_rows v) buf (header_appends false le)) by (pows; lia).
  rewrite (app_snd _ _ _ (m_cols v) _ (header_appends false le)) by (pows; lia).
  cbn [snd]. rewrite wrap_eq by (pows; lia). rewrite <- Hl. sz.
  replace (N.to_nat (len64 (m_data v))) with (length (m_data v)) by (unfold len64; lia).
  rewrite firstn_all.
  pose proof (memcpy_to_app ((buf ++ enc_header false le (m_rows v)) ++ enc_header false le (m_cols v))
    (repeat 0 (length (m_data v))) (m_data v) []) as HM.
  rewrite !app_nil_r in HM. rewrite HM.
  - cbn [bind]. unfold enc_matrix in *. rewrite <- !app_assoc in *. now rewrite written_app.
  - apply repeat_length.
  - intros E. rewrite E in Hl. change (len64 []) with 0 in Hl. nia.
Qed.

Lemma matrix_reads_back le v pre post : matrix_ok v -> fits_vector (pre ++ enc_matrix le v ++ post) ->
  DeserializeMatrixXd le (pre ++ enc_matrix le v ++ post) (len64 pre) = Ok (v, len64 (enc_matrix le v)).
Proof.
  intros Hv Hf.
  assert (fits_vector (m_data v)) as Hfd.
  { unfold fits_vector, enc_matrix in *. rewrite !len64_app in Hf. lia. }
  destruct (matrix_dims v Hv Hfd) as [Hr Hc]. destruct Hv as (Hz & Hb & Hl).
  assert (2 ^ 60 < 2 ^ 64) by reflexivity. assert (2 ^ 60 < 2 ^ 63) by reflexivity.
  assert (8 * 2 ^ 60 < 2 ^ 64) by reflexivity.
  unfold DeserializeMatrixXd, enc_matrix in *. rewrite <- !app_assoc in *.
  assert (Hf' := Hf). unfold fits_vector in Hf'. rewrite !len64_app, !header_len in Hf' by lia.
  rewrite (header_reads_back false le (m_rows v)) by (assumption || lia). cbn [bind fst snd]. cbv zeta.
  rewrite header_len by lia.
  assert (wrap (len64 pre + 8) = len64 (pre ++ enc_header false le (m_rows v))) as ->.
  { rewrite len64_app, header_len by lia. apply wrap_eq. pows. lia. }
  rewrite app_assoc in Hf |- *.
  rewrite (header_reads_back false le (m_cols v)) by (assumption || lia). cbn [bind fst snd].
  rewrite header_len by lia.
  assert (wrap (len64 (pre ++ enc_header false le (m_rows v)) + 8) =
    len64 ((pre ++ enc_header false le (m_rows v)) ++ enc_header false le (m_cols v))) as ->.
  { rewrite !len64_app, !header_len by lia. apply wrap_eq. pows. lia. }
  rewrite app_assoc in Hf |- *.
  rewrite (wrap_eq (8 * m_rows v)) by (change (2 ^ 60) with 1152921504606846976 in *; pows; lia). rewrite <- Hl.
  unfold fits_vector in Hfd.
  rewrite (wrap_eq (len64 (m_data v))) by (pows; lia). sz.
  set (P := (pre ++ enc_header false le (m_rows v)) ++ enc_header false le (m_cols v)) in *.
  assert (len64 P = len64 pre + 16) as HP.
  { unfold P. rewrite !len64_app, !header_len by lia. lia. }
  rewrite (wrap_eq (len64 P + len64 (m_data v))) by (pows; lia).
  destruct (N.ltb_spec (len64 (P ++ m_data v ++ post)) (len64 P + len64 (m_data v))) as [HC|_].
  { rewrite !len64_app in HC. lia. }
  destruct (N.leb_spec (2 ^ 63) (m_rows v)); [lia|]. destruct (N.leb_spec (2 ^ 63) (m_cols v)); [lia|].
  cbn [orb]. destruct (N.leb_spec (2 ^ 63) (len64 (m_data v))); [lia|].
  rewrite memcpy_from_app.
  2:{ intros E. rewrite E in Hl. change (len64 []) with 0 in Hl. nia. }
  cbn [bind]. rewrite sub64_eq by (pows; lia).
  replace (len64 P + len64 (m_data v) - len64 pre) with (16 + len64 (m_data v)) by lia.
  rewrite make_ok by lia. f_equal. f_equal.
  - destruct v; reflexivity.
  - rewrite !len64_app, !header_len by lia. lia.
Qed.
