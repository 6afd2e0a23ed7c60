(** Proofs about the base64 model. *)
From Verif Require Import Base Base64Model Base64Spec.
From Coq Require Import ZifyBool ZifyNat ZifyN.
Ltac Zify.zify_post_hook ::= Z.div_mod_to_equations.
Local Open Scope N_scope.

(** ** Induction by threes *)
Lemma list_ind3 {A} (P : list A -> Prop) :
  P [] -> (forall x, P [x]) -> (forall x y, P [x; y]) ->
  (forall x y z r, P r -> P (x :: y :: z :: r)) -> forall l, P l.
Proof.
  intros H0 H1 H2 H3.
  assert (forall n l, (length l <= n)%nat -> P l) as H.
  { induction n as [|n IH]; intros l Hl.
    - destruct l; [exact H0|simpl in Hl; lia].
    - destruct l as [|x [|y [|z r]]]; auto. apply H3. apply IH. simpl in Hl. lia. }
  intros l. apply (H (length l)). lia.
Qed.

(** ** Byte arithmetic *)
Lemma testbit_high x i k : x < 2 ^ k -> k <= i -> N.testbit x i = false.
Proof.
  intros Hx Hi. destruct (N.eq_dec x 0) as [->|Hx0]; [apply N.bits_0|].
  apply N.bits_above_log2. assert (N.log2 x < k) by (apply N.log2_lt_pow2; lia). lia.
Qed.

Lemma sweep_lt (P : N -> bool) (n : nat) :
  forallb P (map N.of_nat (seq 0 n)) = true -> forall x, x < N.of_nat n -> P x = true.
Proof.
  intros H x Hx. rewrite forallb_forall in H. apply H.
  apply in_map_iff. exists (N.to_nat x). split; [lia|]. apply in_seq. lia.
Qed.

Lemma index_of_value v : v < 64 ->
  raw_get B64ValueTable (N.to_nat v) = Ok (b64_char v) /\
  b64_char v < 128 /\ b64_char v <> 61 /\
  raw_get B64IndexTable (N.to_nat (b64_char v)) = Ok v.
Proof.
  intros Hv.
  pose (P := fun v => match raw_get B64ValueTable (N.to_nat v) with
     | Ok c => (c =? b64_char v) && (b64_char v <? 128) && negb (b64_char v =? 61) &&
        match raw_get B64IndexTable (N.to_nat (b64_char v)) with Ok w => w =? v | _ => false end
     | _ => false end).
  assert (P v = true) as H.
  { apply (sweep_lt P 64); [vm_compute; reflexivity|exact Hv]. }
  unfold P in H. destruct (raw_get B64ValueTable (N.to_nat v)) as [c| | |]; try discriminate.
  destruct (raw_get B64IndexTable (N.to_nat (b64_char v))) as [w| | |];
    rewrite ?andb_false_r in H; try discriminate.
  rewrite !andb_true_iff, negb_true_iff, !N.eqb_eq, N.eqb_neq, N.ltb_lt in H.
  destruct H as (((H1 & H2) & H3) & H4). subst. auto.
Qed.

Lemma idx_value sg v : v < 64 -> idx_lookup sg (b64_char v) = Ok v.
Proof.
  intros Hv. destruct (index_of_value v Hv) as (_ & H1 & _ & H2).
  unfold idx_lookup. destruct (N.leb_spec 128 (b64_char v)); [lia|].
  rewrite andb_false_r. exact H2.
Qed.

Lemma idx_ascii sg c : c < 128 -> exists t, idx_lookup sg c = Ok t /\ t < 64.
Proof.
  intros Hc.
  pose (P := fun c => match raw_get B64IndexTable (N.to_nat c) with
                      | Ok t => t <? 64 | _ => false end).
  assert (P c = true) as H by (apply (sweep_lt P 128); [vm_compute; reflexivity|exact Hc]).
  unfold P in H. unfold idx_lookup.
  destruct (N.leb_spec 128 c); [lia|]. rewrite andb_false_r.
  destruct (raw_get B64IndexTable (N.to_nat c)) as [t| | |]; try discriminate.
  exists t. split; [reflexivity|lia].
Qed.

Lemma idx_unsigned c : c < 256 -> exists t, idx_lookup false c = Ok t /\ t < 64.
Proof.
  intros Hc.
  pose (P := fun c => match raw_get B64IndexTable (N.to_nat c) with
                      | Ok t => t <? 64 | _ => false end).
  assert (P c = true) as H by (apply (sweep_lt P 256); [vm_compute; reflexivity|exact Hc]).
  unfold P in H. unfold idx_lookup. simpl.
  destruct (raw_get B64IndexTable (N.to_nat c)) as [t| | |]; try discriminate.
  exists t. split; [reflexivity|lia].
Qed.

Lemma lor_add a b k : b < 2 ^ k -> N.lor (a * 2 ^ k) b = a * 2 ^ k + b.
Proof.
  intros Hb. rewrite <- N.lxor_lor, <- N.add_nocarry_lxor; auto.
  all: apply N.bits_inj; intros i; rewrite N.land_spec, N.bits_0;
    destruct (N.lt_ge_cases i k).
  all: try (rewrite N.mul_pow2_bits_low by assumption; reflexivity).
  all: rewrite (testbit_high b i k) by assumption; apply andb_false_r.
Qed.

Lemma u8_mod n : u8 n = n mod 256.
Proof. unfold u8. change 255 with (N.ones 8). rewrite N.land_ones. reflexivity. Qed.
Lemma land_ones3 n : N.land n 3 = n mod 4.
Proof. change 3 with (N.ones 2). rewrite N.land_ones. reflexivity. Qed.
Lemma land_ones15 n : N.land n 15 = n mod 16.
Proof. change 15 with (N.ones 4). rewrite N.land_ones. reflexivity. Qed.
Lemma land_ones63 n : N.land n 63 = n mod 64.
Proof. change 63 with (N.ones 6). rewrite N.land_ones. reflexivity. Qed.
Lemma land_ones255 n : N.land n 255 = n mod 256.
Proof. change 255 with (N.ones 8). rewrite N.land_ones. reflexivity. Qed.

(** the four sextets of the encoder, arithmetically *)
Lemma sx1 x : N.shiftr x 2 = x / 4.
Proof. rewrite N.shiftr_div_pow2. reflexivity. Qed.
Lemma sx2 x y : y < 256 -> N.lor (N.shiftl (N.land x 3) 4) (N.shiftr y 4) = x mod 4 * 16 + y / 16.
Proof.
  intros Hy. rewrite land_ones3, N.shiftl_mul_pow2, N.shiftr_div_pow2, lor_add; [reflexivity|].
  change (2 ^ 4) with 16. lia.
Qed.
Lemma sx3 y z : z < 256 -> N.lor (N.shiftl (N.land y 15) 2) (N.shiftr z 6) = y mod 16 * 4 + z / 64.
Proof.
  intros Hz. rewrite land_ones15, N.shiftl_mul_pow2, N.shiftr_div_pow2, lor_add; [reflexivity|].
  change (2 ^ 6) with 64; change (2 ^ 2) with 4. lia.
Qed.

Lemma word24 t0 t1 t2 t3 : t1 < 64 -> t2 < 64 -> t3 < 64 ->
  N.lor (N.lor (N.lor (N.shiftl t0 18) (N.shiftl t1 12)) (N.shiftl t2 6)) t3 =
  t0 * 262144 + t1 * 4096 + t2 * 64 + t3.
Proof.
  intros H1 H2 H3. rewrite !N.shiftl_mul_pow2.
  rewrite (lor_add t0 (t1 * 2 ^ 12) 18) by (change (2 ^ 12) with 4096; change (2 ^ 18) with 262144; lia).
  replace (t0 * 2 ^ 18 + t1 * 2 ^ 12) with ((t0 * 64 + t1) * 2 ^ 12)
    by (change (2 ^ 12) with 4096; change (2 ^ 18) with 262144; lia).
  rewrite (lor_add _ (t2 * 2 ^ 6) 12) by (change (2 ^ 12) with 4096; change (2 ^ 6) with 64; lia).
  replace ((t0 * 64 + t1) * 2 ^ 12 + t2 * 2 ^ 6) with ((t0 * 4096 + t1 * 64 + t2) * 2 ^ 6)
    by (change (2 ^ 12) with 4096; change (2 ^ 6) with 64; lia).
  rewrite (lor_add _ t3 6) by (change (2 ^ 6) with 64; lia).
  change (2 ^ 6) with 64. lia.
Qed.

Lemma word24_two t0 t1 : t1 < 64 ->
  N.lor (N.shiftl t0 18) (N.shiftl t1 12) = t0 * 262144 + t1 * 4096.
Proof.
  intros H1. pose proof (word24 t0 t1 0 0 H1) as H.
  rewrite N.shiftl_0_l, !N.lor_0_r in H. rewrite H by lia. lia.
Qed.

Lemma word24_three t0 t1 t2 : t1 < 64 -> t2 < 64 ->
  N.lor (N.lor (N.shiftl t0 18) (N.shiftl t1 12)) (N.shiftl t2 6) = t0 * 262144 + t1 * 4096 + t2 * 64.
Proof.
  intros H1 H2. pose proof (word24 t0 t1 t2 0 H1 H2) as H.
  rewrite !N.lor_0_r in H. rewrite H by lia. lia.
Qed.

Definition byte_hi n := u8 (N.shiftr n 16).
Definition byte_mid n := u8 (N.land (N.shiftr n 8) 255).
Definition byte_lo n := u8 (N.land n 255).
Lemma byte_hi_eq n : byte_hi n = n / 65536 mod 256.
Proof. unfold byte_hi. rewrite u8_mod, N.shiftr_div_pow2. reflexivity. Qed.
Lemma byte_mid_eq n : byte_mid n = n / 256 mod 256.
Proof.
  unfold byte_mid. rewrite u8_mod, land_ones255, N.shiftr_div_pow2, N.mod_mod by lia.
  reflexivity.
Qed.
Lemma byte_lo_eq n : byte_lo n = n mod 256.
Proof. unfold byte_lo. rewrite u8_mod, land_ones255, N.mod_mod by lia. reflexivity. Qed.

(** ** List access helpers *)
Lemma raw_get_app {A} (p : list A) x r k :
  length p = k -> raw_get (p ++ x :: r) k = Ok x.
Proof.
  intros <-. unfold raw_get. rewrite nth_error_app2, Nat.sub_diag by lia. reflexivity.
Qed.
Lemma raw_set_app {A} (p : list A) x y r k :
  length p = k -> raw_set (p ++ x :: r) k y = Ok (p ++ y :: r).
Proof.
  intros <-. unfold raw_set. rewrite set_nth_upd by (rewrite app_length; simpl; lia).
  rewrite <- (Nat.add_0_r (length p)), upd_app_r. reflexivity.
Qed.

Lemma raw_get_app1 {A} (p : list A) x0 x r k :
  length p = k -> raw_get (p ++ x0 :: x :: r) (k + 1) = Ok x.
Proof.
  intros H. change (x0 :: x :: r) with ([x0] ++ x :: r). rewrite app_assoc.
  apply raw_get_app. rewrite app_length. simpl. lia.
Qed.
Lemma raw_get_app2 {A} (p : list A) x0 x1 x r k :
  length p = k -> raw_get (p ++ x0 :: x1 :: x :: r) (k + 2) = Ok x.
Proof.
  intros H. change (x0 :: x1 :: x :: r) with ([x0; x1] ++ x :: r). rewrite app_assoc.
  apply raw_get_app. rewrite app_length. simpl. lia.
Qed.
Lemma raw_get_app3 {A} (p : list A) x0 x1 x2 x r k :
  length p = k -> raw_get (p ++ x0 :: x1 :: x2 :: x :: r) (k + 3) = Ok x.
Proof.
  intros H. change (x0 :: x1 :: x2 :: x :: r) with ([x0; x1; x2] ++ x :: r). rewrite app_assoc.
  apply raw_get_app. rewrite app_length. simpl. lia.
Qed.
Lemma raw_set_app1 {A} (p : list A) x0 x y r k :
  length p = k -> raw_set (p ++ x0 :: x :: r) (k + 1) y = Ok (p ++ x0 :: y :: r).
Proof.
  intros H. change (x0 :: x :: r) with ([x0] ++ x :: r). rewrite app_assoc, raw_set_app.
  - now rewrite <- app_assoc.
  - rewrite app_length. simpl. lia.
Qed.
Lemma raw_set_app2 {A} (p : list A) x0 x1 x y r k :
  length p = k -> raw_set (p ++ x0 :: x1 :: x :: r) (k + 2) y = Ok (p ++ x0 :: x1 :: y :: r).
Proof.
  intros H. change (x0 :: x1 :: x :: r) with ([x0; x1] ++ x :: r). rewrite app_assoc, raw_set_app.
  - now rewrite <- app_assoc.
  - rewrite app_length. simpl. lia.
Qed.
Lemma raw_set_app3 {A} (p : list A) x0 x1 x2 x y r k :
  length p = k ->
  raw_set (p ++ x0 :: x1 :: x2 :: x :: r) (k + 3) y = Ok (p ++ x0 :: x1 :: x2 :: y :: r).
Proof.
  intros H. change (x0 :: x1 :: x2 :: x :: r) with ([x0; x1; x2] ++ x :: r).
  rewrite app_assoc, raw_set_app.
  - now rewrite <- app_assoc.
  - rewrite app_length. simpl. lia.
Qed.

Lemma str_at_get s k : (k < length s)%nat -> str_at s k = raw_get s k.
Proof. intros H. unfold str_at. destruct (Nat.eqb_spec k (length s)); [lia|reflexivity]. Qed.

(** ** Encoder *)
Lemma put_val_ok e k v : v < 64 -> put_val e k v = raw_set e k (b64_char v).
Proof. intros H. unfold put_val. now rewrite (proj1 (index_of_value v H)). Qed.

(** Complete 3-byte groups only. *)
Fixpoint enc_full (b : list N) : list N :=
  match b with
  | x :: y :: z :: r =>
      b64_char (x / 4) :: b64_char (x mod 4 * 16 + y / 16)
      :: b64_char (y mod 16 * 4 + z / 64) :: b64_char (z mod 64) :: enc_full r
  | _ => []
  end.

Lemma enc_block_step bpre x y z r out m k :
  x < 256 -> y < 256 -> z < 256 ->
  length bpre = (3 * k)%nat -> length out = (4 * k)%nat ->
  enc_block (bpre ++ x :: y :: z :: r) (out ++ 0 :: 0 :: 0 :: 0 :: m) k =
  Ok (out ++ b64_char (x / 4) :: b64_char (x mod 4 * 16 + y / 16)
      :: b64_char (y mod 16 * 4 + z / 64) :: b64_char (z mod 64) :: m).
Proof.
  intros Hx Hy Hz Hb Ho. unfold enc_block.
  rewrite (raw_get_app _ _ _ _ Hb), (raw_get_app1 _ _ _ _ _ Hb), (raw_get_app2 _ _ _ _ _ _ Hb).
  cbn [bind].
  rewrite sx1, sx2, sx3, land_ones63 by assumption.
  rewrite put_val_ok by lia. rewrite (raw_set_app _ _ _ _ _ Ho). cbn [bind].
  rewrite put_val_ok by lia. rewrite (raw_set_app1 _ _ _ _ _ _ Ho). cbn [bind].
  rewrite put_val_ok by lia. rewrite (raw_set_app2 _ _ _ _ _ _ _ Ho). cbn [bind].
  rewrite put_val_ok by lia. rewrite (raw_set_app3 _ _ _ _ _ _ _ _ Ho). reflexivity.
Qed.

Lemma div3_SSS n : (S (S (S n)) / 3 = S (n / 3))%nat.
Proof. lia. Qed.
Lemma len4_SSS n : (4 * ((S (S (S n)) + 2) / 3) = S (S (S (S (4 * ((n + 2) / 3))))))%nat.
Proof. lia. Qed.

Lemma enc_loop rest : forall bpre out k,
  bytes rest -> length bpre = (3 * k)%nat -> length out = (4 * k)%nat ->
  mfold (enc_block (bpre ++ rest)) (out ++ repeat 0 (4 * ((length rest + 2) / 3)))
        (seq k (length rest / 3)) =
  Ok (out ++ enc_full rest ++ repeat 0 (if Nat.eqb (length rest mod 3) 0 then 0 else 4)).
Proof.
  induction rest as [|x|x y|x y z r IH] using list_ind3; intros bpre out k Hby Hb Ho;
    try reflexivity.
  inversion Hby as [|? ? Hx Hby1]; subst. inversion Hby1 as [|? ? Hy Hby2]; subst.
  inversion Hby2 as [|? ? Hz Hby3]; subst.
  cbn [length]. rewrite div3_SSS, len4_SSS. cbn [seq mfold repeat].
  rewrite enc_block_step by assumption. cbn [bind].
  replace (S (S (S (length r))) mod 3)%nat with (length r mod 3)%nat by lia.
  cbn [enc_full app].
  set (c0 := b64_char (x / 4)). set (c1 := b64_char (x mod 4 * 16 + y / 16)).
  set (c2 := b64_char (y mod 16 * 4 + z / 64)). set (c3 := b64_char (z mod 64)).
  specialize (IH (bpre ++ [x; y; z]) (out ++ [c0; c1; c2; c3]) (S k) Hby3).
  rewrite <- !app_assoc in IH. cbn [app] in IH. apply IH.
  - rewrite app_length. simpl. lia.
  - rewrite app_length. simpl. lia.
Qed.

Lemma enc_full_length b : length (enc_full b) = (4 * (length b / 3))%nat.
Proof.
  induction b as [|x|x y|x y z r IH] using list_ind3; try reflexivity.
  cbn [enc_full length]. rewrite IH, div3_SSS. lia.
Qed.

(** Split a byte list into full groups and a remainder. *)
Lemma split3 (b : list N) : exists p t, b = p ++ t /\ length p = (3 * (length b / 3))%nat /\
  length t = (length b mod 3)%nat /\ enc_full b = enc_full p /\ rfc4648 b = enc_full p ++ rfc4648 t.
Proof.
  induction b as [|x|x y|x y z r IH] using list_ind3.
  - exists [], []. repeat split; reflexivity.
  - exists [], [x]. repeat split; reflexivity.
  - exists [], [x; y]. repeat split; reflexivity.
  - destruct IH as (p & t & H1 & H2 & H3 & H4 & H5). exists (x :: y :: z :: p), t.
    subst r. cbn [app length]. rewrite div3_SSS. repeat split.
    + rewrite H2. lia.
    + rewrite H3. lia.
    + cbn [enc_full]. now rewrite H4.
    + cbn [rfc4648 enc_full app]. now rewrite H5.
Qed.

Lemma Encode_spec b : bytes b -> fits b -> Encode b = Ok (rfc4648 b).
Proof.
  intros Hb Hf. unfold fits in Hf. change (2 ^ 63) with 9223372036854775808 in Hf.
  unfold Encode. change (2 ^ 64) with 18446744073709551616.
  destruct (N.ltb_spec ((4 * ((N.of_nat (length b) + 2) / 3)) mod 18446744073709551616) (N.of_nat (length b))) as [Hlt|_].
  { exfalso.
    rewrite N.mod_small in Hlt by lia. lia. }
  pose proof (enc_loop b [] [] 0%nat Hb eq_refl eq_refl) as HL. cbn [app] in HL.
  rewrite HL. cbn [bind]. clear HL.
  destruct (split3 b) as (p & t & E & Hp & Ht & Ef & Er). rewrite Er, Ef.
  assert (length (enc_full p) = (4 * (length b / 3))%nat) as Hlen
    by (rewrite <- Ef; apply enc_full_length).
  destruct t as [|x [|y [|z t]]]; cbn [length] in Ht.
  - destruct (Nat.ltb_spec (3 * (length b / 3)) (length b)); [lia|].
    rewrite <- Ht. cbn [Nat.eqb repeat rfc4648]. reflexivity.
  - destruct (Nat.ltb_spec (3 * (length b / 3)) (length b)); [|lia].
    rewrite <- Ht. cbn [Nat.eqb repeat rfc4648].
    destruct (Nat.eqb_spec (length b - 3 * (length b / 3)) 1); [|lia].
    assert (x < 256) as Hx.
    { unfold bytes in Hb. rewrite Forall_forall in Hb. apply Hb. rewrite E, in_app_iff. right; now left. }
    rewrite E at 1. rewrite (raw_get_app _ _ _ _ Hp). cbn [bind].
    rewrite sx1, put_val_ok by lia. rewrite (raw_set_app _ _ _ _ _ Hlen). cbn [bind].
    rewrite land_ones3, N.shiftl_mul_pow2. change (2 ^ 4) with 16.
    rewrite put_val_ok by lia. rewrite (raw_set_app1 _ _ _ _ _ _ Hlen). cbn [bind].
    rewrite (raw_set_app2 _ _ _ _ _ _ _ Hlen). cbn [bind].
    rewrite (raw_set_app3 _ _ _ _ _ _ _ _ Hlen). reflexivity.
  - destruct (Nat.ltb_spec (3 * (length b / 3)) (length b)); [|lia].
    rewrite <- Ht. cbn [Nat.eqb repeat rfc4648].
    destruct (Nat.eqb_spec (length b - 3 * (length b / 3)) 1); [lia|].
    assert (x < 256 /\ y < 256) as [Hx Hy].
    { unfold bytes in Hb. rewrite Forall_forall in Hb.
      split; apply Hb; rewrite E, in_app_iff; right; simpl; auto. }
    rewrite E at 1. rewrite (raw_get_app _ _ _ _ Hp). cbn [bind].
    rewrite sx1, put_val_ok by lia. rewrite (raw_set_app _ _ _ _ _ Hlen). cbn [bind].
    rewrite E at 1. rewrite (raw_get_app1 _ _ _ _ _ Hp). cbn [bind].
    rewrite sx2 by assumption.
    rewrite put_val_ok by lia. rewrite (raw_set_app1 _ _ _ _ _ _ Hlen). cbn [bind].
    rewrite land_ones15, N.shiftl_mul_pow2. change (2 ^ 2) with 4.
    rewrite put_val_ok by lia. rewrite (raw_set_app2 _ _ _ _ _ _ _ Hlen). cbn [bind].
    rewrite (raw_set_app3 _ _ _ _ _ _ _ _ Hlen). reflexivity.
  - exfalso. lia.
Qed.

(** ** Decoder on arbitrary in-range characters *)
Definition char_ok (sg : bool) (c : N) : Prop := if sg then c < 128 else c < 256.

Lemma idx_char_ok sg c : char_ok sg c -> exists t, idx_lookup sg c = Ok t /\ t < 64.
Proof. destruct sg; [apply idx_ascii|apply idx_unsigned]. Qed.

Lemma str_at_ok sg s k : Forall (char_ok sg) s -> (k <= length s)%nat ->
  exists c, str_at s k = Ok c /\ char_ok sg c.
Proof.
  intros H Hk. unfold str_at. destruct (Nat.eqb_spec k (length s)) as [E|E].
  - exists 0. split; [reflexivity|]. destruct sg; simpl; lia.
  - unfold raw_get. destruct (nth_error s k) as [c|] eqn:En.
    + exists c. split; [reflexivity|]. rewrite Forall_forall in H. apply H.
      eapply nth_error_In; eauto.
    + apply nth_error_None in En. lia.
Qed.

Lemma str_idx_ok sg s k : Forall (char_ok sg) s -> (k <= length s)%nat ->
  exists c t, str_at s k = Ok c /\ idx_lookup sg c = Ok t /\ t < 64.
Proof.
  intros H Hk. destruct (str_at_ok sg s k H Hk) as (c & H1 & H2).
  destruct (idx_char_ok sg c H2) as (t & H3 & H4). eauto.
Qed.

Lemma raw_set_ok {A} (l : list A) k v : (k < length l)%nat -> raw_set l k v = Ok (upd l k v).
Proof. intros H. unfold raw_set. now rewrite set_nth_upd. Qed.

Lemma bytes_upd l k v : bytes l -> v < 256 -> bytes (upd l k v).
Proof.
  intros H Hv. unfold bytes in *. revert k; induction H; intros [|k]; simpl; constructor; auto.
Qed.

Lemma u8_byte n : u8 n < 256.
Proof. rewrite u8_mod. lia. Qed.

Lemma dec_block_ok sg s buf k :
  Forall (char_ok sg) s -> (4 * k + 3 <= length s)%nat -> (3 * k + 3 <= length buf)%nat -> bytes buf ->
  exists buf', dec_block sg s buf k = Ok buf' /\ length buf' = length buf /\ bytes buf'.
Proof.
  intros Hs Hk Hb Hy. unfold dec_block.
  destruct (str_idx_ok sg s (4 * k) Hs) as (c0 & t0 & -> & E0 & _); [lia|].
  destruct (str_idx_ok sg s (4 * k + 1) Hs) as (c1 & t1 & -> & E1 & _); [lia|].
  destruct (str_idx_ok sg s (4 * k + 2) Hs) as (c2 & t2 & -> & E2 & _); [lia|].
  destruct (str_idx_ok sg s (4 * k + 3) Hs) as (c3 & t3 & -> & E3 & _); [lia|].
  cbn [bind]. rewrite E0. cbn [bind]. rewrite E1. cbn [bind]. rewrite E2. cbn [bind].
  rewrite E3. cbn [bind].
  rewrite raw_set_ok by lia. cbn [bind].
  rewrite raw_set_ok by (rewrite upd_length; lia). cbn [bind].
  rewrite raw_set_ok by (rewrite !upd_length; lia).
  eexists. split; [reflexivity|]. rewrite !upd_length. split; [reflexivity|].
  repeat apply bytes_upd; auto using u8_byte.
Qed.

Lemma dec_loop_ok sg s n : forall buf k,
  Forall (char_ok sg) s -> (4 * (k + n) <= length s + 1)%nat ->
  (3 * (k + n) <= length buf)%nat -> bytes buf ->
  exists buf', mfold (dec_block sg s) buf (seq k n) = Ok buf' /\ length buf' = length buf /\ bytes buf'.
Proof.
  induction n as [|n IH]; intros buf k Hs Hk Hb Hy; cbn [seq mfold].
  - eauto.
  - destruct (dec_block_ok sg s buf k Hs) as (b1 & -> & H1 & H2); auto; try lia.
    cbn [bind]. destruct (IH b1 (S k) Hs) as (b2 & -> & H3 & H4); auto; try lia.
    exists b2. repeat split; auto. congruence.
Qed.

Lemma bytes_repeat n : bytes (repeat 0 n).
Proof. unfold bytes. induction n; simpl; constructor; auto. lia. Qed.

Lemma dec_pad_cases s : dec_pad s = 0%nat /\ (length s mod 4 = 0)%nat \/
  dec_pad s = 1%nat /\ (0 < length s)%nat.
Proof.
  unfold dec_pad. destruct (Nat.eqb_spec (length s) 0) as [E|E]; cbn [negb andb].
  - left. rewrite E. split; reflexivity.
  - destruct (Nat.eqb_spec (length s mod 4) 0) as [E'|E']; cbn [negb orb].
    + destruct (N.eqb _ _); [right|left]; split; auto; lia.
    + right; split; auto; lia.
Qed.

Lemma Decode_safe sg s : Forall (char_ok sg) s ->
  exists d, Decode sg s = Ok d /\ bytes d /\
   (4 * length d <= 3 * (length s + 3))%nat.
Proof.
  intros Hs. unfold Decode.
  destruct (dec_pad_cases s) as [[Hp Hm]|[Hp Hm]]; rewrite Hp.
  - replace (((length s + 3) / 4 - 0) * 4)%nat with (length s) by lia.
    destruct (dec_loop_ok sg s (length s / 4) (repeat 0 (length s / 4 * 3 + 0)) 0 Hs)
      as (b & -> & H1 & H2); try (rewrite ?repeat_length; lia).
    { apply bytes_repeat. }
    cbn [bind Nat.ltb Nat.leb]. exists b. rewrite repeat_length in H1.
    repeat split; auto. lia.
  - set (L := (((length s + 3) / 4 - 1) * 4)%nat).
    assert (L + 1 <= length s)%nat as HL by lia.
    destruct (dec_loop_ok sg s (L / 4) (repeat 0 (L / 4 * 3 + 1)) 0 Hs)
      as (b & -> & H1 & H2); try (rewrite ?repeat_length; unfold L in *; lia).
    { apply bytes_repeat. }
    cbn [bind]. change (Nat.ltb 0 1) with true. cbn iota.
    destruct (str_idx_ok sg s L Hs) as (c0 & t0 & -> & E0 & _); [lia|].
    destruct (str_idx_ok sg s (L + 1) Hs) as (c1 & t1 & -> & E1 & _); [lia|].
    cbn [bind]. rewrite E0. cbn [bind]. rewrite E1. cbn [bind].
    rewrite repeat_length in H1.
    rewrite raw_set_ok by (rewrite H1; lia). cbn [bind].
    destruct (Nat.ltb_spec (L + 2) (length s)).
    + destruct (str_idx_ok sg s (L + 2) Hs) as (c2 & t2 & -> & E2 & _); [lia|]. cbn [bind].
      destruct (N.eqb c2 eqc).
      * eexists. split; [reflexivity|]. rewrite upd_length. split; [|unfold L in *; lia].
        apply bytes_upd; auto using u8_byte.
      * rewrite E2. cbn [bind]. eexists. split; [reflexivity|]. rewrite app_length, upd_length.
        split; [|cbn [length]; unfold L in *; lia].
        apply Forall_app. split; [apply bytes_upd; auto using u8_byte|].
        constructor; auto using u8_byte.
    + eexists. split; [reflexivity|]. rewrite upd_length. split; [|unfold L in *; lia].
      apply bytes_upd; auto using u8_byte.
Qed.

(** ** Round trip *)
Lemma dec_block_step sg spre x y z r out m k :
  x < 256 -> y < 256 -> z < 256 ->
  length spre = (4 * k)%nat -> length out = (3 * k)%nat ->
  dec_block sg (spre ++ b64_char (x / 4) :: b64_char (x mod 4 * 16 + y / 16)
      :: b64_char (y mod 16 * 4 + z / 64) :: b64_char (z mod 64) :: r) (out ++ 0 :: 0 :: 0 :: m) k =
  Ok (out ++ x :: y :: z :: m).
Proof.
  intros Hx Hy Hz Hs Ho. unfold dec_block.
  rewrite !str_at_get by (rewrite app_length; cbn [length]; lia).
  rewrite (raw_get_app _ _ _ _ Hs), (raw_get_app1 _ _ _ _ _ Hs), (raw_get_app2 _ _ _ _ _ _ Hs),
    (raw_get_app3 _ _ _ _ _ _ _ Hs). cbn [bind].
  rewrite !idx_value by lia. cbn [bind].
  rewrite word24 by lia.
  rewrite (raw_set_app _ _ _ _ _ Ho). cbn [bind].
  rewrite (raw_set_app1 _ _ _ _ _ _ Ho). cbn [bind].
  rewrite (raw_set_app2 _ _ _ _ _ _ _ Ho).
  fold (byte_hi (x / 4 * 262144 + (x mod 4 * 16 + y / 16) * 4096 + (y mod 16 * 4 + z / 64) * 64 + z mod 64)).
  fold (byte_mid (x / 4 * 262144 + (x mod 4 * 16 + y / 16) * 4096 + (y mod 16 * 4 + z / 64) * 64 + z mod 64)).
  fold (byte_lo (x / 4 * 262144 + (x mod 4 * 16 + y / 16) * 4096 + (y mod 16 * 4 + z / 64) * 64 + z mod 64)).
  rewrite byte_hi_eq, byte_mid_eq, byte_lo_eq.
  replace (x / 4 * 262144 + (x mod 4 * 16 + y / 16) * 4096 + (y mod 16 * 4 + z / 64) * 64 + z mod 64)
    with (x * 65536 + y * 256 + z) by lia.
  replace ((x * 65536 + y * 256 + z) / 65536 mod 256) with x by lia.
  replace ((x * 65536 + y * 256 + z) / 256 mod 256) with y by lia.
  replace ((x * 65536 + y * 256 + z) mod 256) with z by lia.
  reflexivity.
Qed.

Lemma dec_loop_full sg p : forall spre t out m k,
  bytes p -> (length p mod 3 = 0)%nat -> length spre = (4 * k)%nat -> length out = (3 * k)%nat ->
  mfold (dec_block sg (spre ++ enc_full p ++ t)) (out ++ repeat 0 (length p) ++ m)
    (seq k (length p / 3)) = Ok (out ++ p ++ m).
Proof.
  induction p as [|x|x y|x y z r IH] using list_ind3; intros spre t out m k Hby Hm Hs Ho;
    try discriminate; try reflexivity.
  inversion Hby as [|? ? Hx Hby1]; subst. inversion Hby1 as [|? ? Hy Hby2]; subst.
  inversion Hby2 as [|? ? Hz Hby3]; subst.
  cbn [length]. rewrite div3_SSS. cbn [seq mfold repeat enc_full app].
  rewrite dec_block_step by assumption. cbn [bind].
  cbn [length] in Hm. assert (length r mod 3 = 0)%nat as Hm' by lia.
  set (c0 := b64_char (x / 4)). set (c1 := b64_char (x mod 4 * 16 + y / 16)).
  set (c2 := b64_char (y mod 16 * 4 + z / 64)). set (c3 := b64_char (z mod 64)).
  specialize (IH (spre ++ [c0; c1; c2; c3]) t (out ++ [x; y; z]) m (S k) Hby3 Hm').
  rewrite <- !app_assoc in IH. cbn [app] in IH. apply IH.
  - rewrite app_length. simpl. lia.
  - rewrite app_length. simpl. lia.
Qed.

Lemma enc_full_last_ne p : bytes p -> p <> [] -> (length p mod 3 = 0)%nat ->
  nth (length (enc_full p) - 1) (enc_full p) 0 <> 61.
Proof.
  induction p as [|x|x y|x y z r IH] using list_ind3; intros Hby Hne Hm.
  - congruence.
  - discriminate.
  - discriminate.
  - destruct r as [|x' r'].
    + cbn [enc_full length Nat.sub nth].
      inversion Hby as [|? ? Hx Hby1]; subst. inversion Hby1 as [|? ? Hy Hby2]; subst.
      inversion Hby2 as [|? ? Hz Hby3]; subst.
      apply (index_of_value (z mod 64)). lia.
    + remember (x' :: r') as r eqn:Er.
      cbn [length] in Hm.
      assert (length r mod 3 = 0)%nat as Hm' by lia.
      assert (1 <= length r)%nat by (subst r; simpl; lia).
      pose proof (enc_full_length r) as HLr.
      assert (4 <= length (enc_full r))%nat by lia.
      cbn [enc_full length].
      replace (S (S (S (S (length (enc_full r))))) - 1)%nat with (S (S (S (S (length (enc_full r) - 1)))))%nat by lia.
      cbn [nth]. apply IH; auto.
      * inversion Hby as [|? ? Hx Hby1]; subst. inversion Hby1 as [|? ? Hy Hby2]; subst.
        inversion Hby2; subst; assumption.
      * subst r; discriminate.
Qed.

Lemma Decode_rfc sg b : bytes b -> Decode sg (rfc4648 b) = Ok b.
Proof.
  intros Hb. destruct (split3 b) as (p & t & E & Hp & Ht & Ef & Er). rewrite Er.
  assert (length p mod 3 = 0)%nat as Hm by lia.
  pose proof (enc_full_length p) as HLp.
  assert (bytes p /\ bytes t) as [Hbp Hbt] by (apply Forall_app; now rewrite <- E).
  unfold Decode.
  destruct t as [|x [|y [|z t]]].
  - cbn [rfc4648]. rewrite app_nil_r in *. subst b.
    assert (dec_pad (enc_full p) = 0%nat) as ->.
    { unfold dec_pad. destruct (Nat.eqb_spec (length (enc_full p)) 0) as [|NE]; [reflexivity|].
      cbn [negb andb]. replace (length (enc_full p) mod 4)%nat with 0%nat by lia. cbn [Nat.eqb negb orb].
      destruct (N.eqb_spec (nth (length (enc_full p) - 1) (enc_full p) 0) eqc) as [Eq|]; [|reflexivity].
      exfalso. apply (enc_full_last_ne p Hbp); auto. intros ->. apply NE. reflexivity. }
    replace (((length (enc_full p) + 3) / 4 - 0) * 4)%nat with (length (enc_full p)) by lia.
    pose proof (dec_loop_full sg p [] [] [] [] 0%nat Hbp Hm eq_refl eq_refl) as HL.
    rewrite !app_nil_r in HL. cbn [app] in HL.
    replace (length (enc_full p) / 4 * 3 + 0)%nat with (length p) by lia.
    replace (length (enc_full p) / 4)%nat with (length p / 3)%nat by lia.
    rewrite HL. reflexivity.
  - cbn [rfc4648]. inversion Hbt as [|? ? Hx _]; subst.
    set (s := enc_full p ++ [b64_char (x / 4); b64_char (x mod 4 * 16); 61; 61]).
    assert (length s = length (enc_full p) + 4)%nat as Hs by (unfold s; rewrite app_length; reflexivity).
    assert (dec_pad s = 1%nat) as ->.
    { unfold dec_pad. rewrite Hs.
      destruct (Nat.eqb_spec (length (enc_full p) + 4) 0); [lia|].
      replace (length (enc_full p) + 4 - 1)%nat with (length (enc_full p) + 3)%nat by lia.
      unfold s. rewrite app_nth2_plus. cbn [nth]. change (61 =? eqc) with true.
      rewrite orb_true_r. reflexivity. }
    rewrite Hs.
    replace (((length (enc_full p) + 4 + 3) / 4 - 1) * 4)%nat with (length (enc_full p)) by lia.
    pose proof (dec_loop_full sg p [] [b64_char (x / 4); b64_char (x mod 4 * 16); 61; 61] [] [0] 0%nat Hbp Hm eq_refl eq_refl) as HL.
    cbn [app] in HL. fold s in HL.
    replace (repeat 0 (length (enc_full p) / 4 * 3 + 1)) with (repeat 0 (length p) ++ [0]).
    2:{ rewrite repeat_app. cbn [repeat]. do 2 f_equal. lia. }
    replace (length (enc_full p) / 4)%nat with (length p / 3)%nat by lia.
    rewrite HL. cbn [bind]. change (Nat.ltb 0 1) with true. cbn iota.
    rewrite !str_at_get by lia. unfold s at 1 2.
    rewrite (raw_get_app _ _ _ _ eq_refl), (raw_get_app1 _ _ _ _ _ eq_refl). cbn [bind].
    rewrite !idx_value by lia. cbn [bind].
    rewrite word24_two by lia.
    rewrite raw_set_app by (rewrite app_length; cbn [length]; lia). cbn [bind].
    destruct (Nat.ltb_spec (length (enc_full p) + 2) (length (enc_full p) + 4)); [|lia].
    unfold s. rewrite (raw_get_app2 _ _ _ _ _ _ eq_refl). cbn [bind]. change (61 =? eqc) with true. cbn iota.
    fold (byte_hi (x / 4 * 262144 + x mod 4 * 16 * 4096)). rewrite byte_hi_eq.
    do 4 f_equal. lia.
  - cbn [rfc4648]. inversion Hbt as [|? ? Hx Hb1]; subst. inversion Hb1 as [|? ? Hy _]; subst.
    set (tl4 := [b64_char (x / 4); b64_char (x mod 4 * 16 + y / 16); b64_char (y mod 16 * 4); 61]).
    set (s := enc_full p ++ tl4).
    assert (length s = length (enc_full p) + 4)%nat as Hs by (unfold s; rewrite app_length; reflexivity).
    assert (dec_pad s = 1%nat) as ->.
    { unfold dec_pad. rewrite Hs.
      destruct (Nat.eqb_spec (length (enc_full p) + 4) 0); [lia|].
      replace (length (enc_full p) + 4 - 1)%nat with (length (enc_full p) + 3)%nat by lia.
      unfold s, tl4. rewrite app_nth2_plus. cbn [nth]. change (61 =? eqc) with true.
      rewrite orb_true_r. reflexivity. }
    rewrite Hs.
    replace (((length (enc_full p) + 4 + 3) / 4 - 1) * 4)%nat with (length (enc_full p)) by lia.
    pose proof (dec_loop_full sg p [] tl4 [] [0] 0%nat Hbp Hm eq_refl eq_refl) as HL.
    cbn [app] in HL. fold s in HL.
    replace (repeat 0 (length (enc_full p) / 4 * 3 + 1)) with (repeat 0 (length p) ++ [0]).
    2:{ rewrite repeat_app. cbn [repeat]. do 2 f_equal. lia. }
    replace (length (enc_full p) / 4)%nat with (length p / 3)%nat by lia.
    rewrite HL. cbn [bind]. change (Nat.ltb 0 1) with true. cbn iota.
    rewrite !str_at_get by lia. unfold s, tl4.
    rewrite (raw_get_app _ _ _ _ eq_refl), (raw_get_app1 _ _ _ _ _ eq_refl),
      (raw_get_app2 _ _ _ _ _ _ eq_refl). cbn [bind].
    rewrite !idx_value by lia. cbn [bind].
    rewrite raw_set_app by (rewrite app_length; cbn [length]; lia). cbn [bind].
    destruct (Nat.ltb_spec (length (enc_full p) + 2) (length (enc_full p) + 4)); [|lia].
    destruct (N.eqb_spec (b64_char (y mod 16 * 4)) eqc) as [Eq|_].
    { exfalso. apply (index_of_value (y mod 16 * 4)) in Eq; auto. lia. }
    rewrite word24_three, word24_two by lia.
    fold (byte_hi (x / 4 * 262144 + (x mod 4 * 16 + y / 16) * 4096)). rewrite byte_hi_eq.
    fold (byte_mid (x / 4 * 262144 + (x mod 4 * 16 + y / 16) * 4096 + y mod 16 * 4 * 64)). rewrite byte_mid_eq.
    rewrite <- app_assoc. cbn [app].
    do 3 f_equal; [lia|]. f_equal. lia.
  - exfalso. cbn [length] in Ht. lia.
Qed.

(** ** Shape of the output *)
Lemma rfc_length b : length (rfc4648 b) = (4 * ((length b + 2) / 3))%nat.
Proof.
  induction b as [|x|x y|x y z r IH] using list_ind3; try reflexivity.
  cbn [rfc4648 length]. rewrite IH, len4_SSS. reflexivity.
Qed.

Lemma b64_char_alpha v : is_alpha (b64_char v).
Proof.
  unfold is_alpha, b64_char.
  destruct (N.ltb_spec v 26); [lia|]. destruct (N.ltb_spec v 52); [lia|].
  destruct (N.ltb_spec v 62); [lia|]. destruct (N.eqb_spec v 62); lia.
Qed.

Lemma rfc_chars b : exists body pad, rfc4648 b = body ++ repeat 61 pad /\ Forall is_alpha body /\
  pad = ((3 - length b mod 3) mod 3)%nat.
Proof.
  induction b as [|x|x y|x y z r IH] using list_ind3.
  - exists [], 0%nat. repeat split; constructor.
  - exists [b64_char (x / 4); b64_char (x mod 4 * 16)], 2%nat. split; [reflexivity|].
    split; [|reflexivity]. repeat (apply Forall_cons; [apply b64_char_alpha|]); apply Forall_nil.
  - eexists [_; _; _], 1%nat. split; [reflexivity|]. split; [|reflexivity].
    repeat (apply Forall_cons; [apply b64_char_alpha|]); apply Forall_nil.
  - destruct IH as (body & pad & H1 & H2 & H3).
    exists (b64_char (x / 4) :: b64_char (x mod 4 * 16 + y / 16)
      :: b64_char (y mod 16 * 4 + z / 64) :: b64_char (z mod 64) :: body), pad.
    cbn [rfc4648 app]. rewrite H1. split; [reflexivity|]. split.
    + repeat (apply Forall_cons; [apply b64_char_alpha|]); assumption.
    + cbn [length]. subst pad. lia.
Qed.

Lemma alpha_ascii c : is_alpha c -> c < 128.
Proof. unfold is_alpha. lia. Qed.

(** ** Final forms used by Prop_Base64.v *)
Lemma base64_round_trip (char_signed : bool) (b : list N) : bytes b -> fits b ->
  exists s, Encode b = Ok s /\ Decode char_signed s = Ok b.
Proof.
  intros Hb Hf. exists (rfc4648 b). split; [now apply Encode_spec|now apply Decode_rfc].
Qed.

Lemma base64_shape (b s : list N) : bytes b -> fits b -> Encode b = Ok s ->
  length s = (4 * ((length b + 2) / 3))%nat /\
  exists body pad, s = body ++ repeat 61 pad /\ Forall is_alpha body /\
    pad = ((3 - length b mod 3) mod 3)%nat.
Proof.
  intros Hb Hf H. rewrite Encode_spec in H by assumption. injection H as <-.
  split; [apply rfc_length|apply rfc_chars].
Qed.

Lemma base64_injective (b1 b2 s : list N) : bytes b1 -> bytes b2 -> fits b1 -> fits b2 ->
  Encode b1 = Ok s -> Encode b2 = Ok s -> b1 = b2.
Proof.
  intros H1 H2 F1 F2 E1 E2. rewrite Encode_spec in E1, E2 by assumption.
  injection E1 as E1. injection E2 as E2.
  pose proof (Decode_rfc true b1 H1) as D1. pose proof (Decode_rfc true b2 H2) as D2.
  rewrite E1 in D1. rewrite E2 in D2. congruence.
Qed.

Lemma decode_signed_ub : exists s : list N, bytes s /\ Decode true s = UB.
Proof.
  exists [200; 65; 65; 65]. split; [|vm_compute; reflexivity].
  repeat (apply Forall_cons; [lia|]). apply Forall_nil.
Qed.

Lemma decode_safe_both (s : list N) :
  (ascii s -> exists d, Decode true s = Ok d /\ bytes d /\ (4 * length d <= 3 * (length s + 3))%nat) /\
  (bytes s -> exists d, Decode false s = Ok d /\ bytes d /\ (4 * length d <= 3 * (length s + 3))%nat).
Proof. split; intros H; apply Decode_safe; exact H. Qed.

Lemma sample_bytes_ok : bytes [77; 97; 110; 255; 0] /\ fits [77; 97; 110; 255; 0].
Proof.
  split; [repeat (apply Forall_cons; [lia|]); apply Forall_nil|vm_compute; reflexivity].
Qed.

Lemma sample_ascii : ascii [65; 66; 61; 10; 65] /\ bytes [200; 65].
Proof. split; repeat (apply Forall_cons; [lia|]); apply Forall_nil. Qed.
