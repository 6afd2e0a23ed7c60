(** Closure of the round-trip and bounds contracts over all shapes. *)
From Verif Require Import Base SerializationModel SerializationSpec SerializationShapes SerializationProof.
From Coq Require Import ZifyBool ZifyNat ZifyN.
Local Open Scope N_scope.

Lemma list_eqb_ok {A} (eqb : A -> A -> bool) : eqb_ok eqb -> eqb_ok (list_eqb eqb).
Proof.
  intros H l1. induction l1 as [|x r IH]; intros [|y s]; cbn [list_eqb]; split; intros E; try discriminate; auto.
  - apply andb_true_iff in E as [E1 E2]. apply H in E1. apply IH in E2. congruence.
  - injection E as -> ->. apply andb_true_iff. split; [now apply H|now apply IH].
Qed.

Lemma pair_eqb_ok {A B} (ea : A -> A -> bool) (eb : B -> B -> bool) : eqb_ok ea -> eqb_ok eb ->
  eqb_ok (fun x y => ea (fst x) (fst y) && eb (snd x) (snd y)).
Proof.
  intros Ha Hb [a b] [a' b']. cbn [fst snd]. rewrite andb_true_iff, (Ha a a'), (Hb b b').
  split; [intros [-> ->]; reflexivity|intros E; injection E; auto].
Qed.

Lemma val_eqb_ok s : eqb_ok (val_eqb s).
Proof.
  induction s; cbn [val_eqb val]; try apply list_eqb_ok; auto using pair_eqb_ok.
  all: intros a b; apply N.eqb_eq.
Qed.

(** round_trips with a weakened domain *)
Lemma rt_intro {T} ser des (enc : T -> list N) (dom dom1 dom2 : T -> Prop) :
  appends ser enc dom1 -> reads_back des enc dom2 ->
  (forall v, dom v -> dom1 v /\ dom2 v /\ enc v <> [] /\ is_bytes (enc v)) -> round_trips ser des dom.
Proof.
  intros Ha Hr H. exists enc. split; [|split].
  - intros v buf Hv. apply Ha. now apply H.
  - intros v pre post Hv. apply Hr. now apply H.
  - intros v Hv. now apply H.
Qed.

Lemma rt_memcpyable {T} (m : memcpyable T) dom : lawful m dom ->
  round_trips (SerializeMemcpyable m) (DeserializeMemcpyable m) dom.
Proof.
  intros HL. eapply rt_intro; [apply memcpyable_appends with (dom := dom)|apply memcpyable_reads_back; eauto|].
  intros v Hv. destruct HL as [H0 HL]. destruct (HL v Hv) as (H1 & H2 & _). repeat split; auto.
  intros E. rewrite E in H1. simpl in H1. lia.
Qed.

Lemma rt_network {T} le (m : memcpyable T) dom : lawful m dom -> net_width (msize m) ->
  round_trips (SerializeNetworkMemcpyable le m) (DeserializeNetworkMemcpyable le m) dom.
Proof.
  intros HL Hw. eapply rt_intro; [apply network_appends with (dom := dom)|apply network_reads_back; eauto|].
  intros v Hv. pose proof (network_obj_eq le m dom v HL Hw Hv) as E.
  destruct HL as [H0 HL]. destruct (HL v Hv) as (H1 & H2 & _). repeat split; auto.
  - intros E'. rewrite E' in E. apply (f_equal (@length N)) in E. destruct le; rewrite ?rev_length in E; simpl in E; lia.
  - rewrite E. destruct le; [now apply is_bytes_rev|assumption].
Qed.

Lemma rt_vector {T} net le maxsz (ser : Serializer T) des dom : round_trips ser des dom ->
  round_trips (SerializeVectorLike net le ser) (DeserializeVectorLike net le maxsz des)
    (fun l => Forall dom l /\ len64 l < 2 ^ 64 /\ len64 l <= maxsz).
Proof.
  intros (enc & Ha & Hr & Hn).
  eapply rt_intro; [apply seq_appends; eauto|apply vector_reads_back; eauto|].
  intros l (H1 & H2 & H3). repeat split; auto.
  - now apply seq_nonempty.
  - eapply seq_bytes; eauto. intros v Hv. now apply Hn.
Qed.

Lemma rt_pair {A B} (sa : Serializer A) da doma (sb : Serializer B) db domb :
  round_trips sa da doma -> round_trips sb db domb ->
  round_trips (SerializePair sa sb) (DeserializePair da db) (fun v => doma (fst v) /\ domb (snd v)).
Proof.
  intros (ea & Ha & Hra & Hna) (eb & Hb & Hrb & Hnb).
  eapply rt_intro; [apply pair_appends; eauto|apply pair_reads_back; eauto|].
  - intros a H. now apply Hna.
  - intros [a b] [H1 H2]. cbn [fst snd] in *. repeat split; auto.
    + unfold enc_pair. cbn [fst snd]. intros E. apply app_eq_nil in E as [E _]. now apply (Hna a H1).
    + unfold enc_pair. apply is_bytes_app. cbn [fst snd]. split; [now apply Hna|now apply Hnb].
Qed.

Lemma rt_map {K V} net le keqb (sk : Serializer K) dk domk (sv : Serializer V) dv domv :
  eqb_ok keqb -> round_trips sk dk domk -> round_trips sv dv domv ->
  round_trips (SerializeMapLike net le sk sv) (DeserializeMapLike net le keqb dk dv)
    (fun l => Forall (fun e => domk (fst e) /\ domv (snd e)) l /\ len64 l < 2 ^ 64 /\ NoDup (map fst l)).
Proof.
  intros Hk (ek & Ha & Hra & Hna) (ev & Hb & Hrb & Hnb).
  eapply rt_intro; [apply seq_appends; apply pair_appends; eauto|apply map_reads_back; eauto|].
  - intros k H. now apply Hna.
  - intros l (H1 & H2 & H3). repeat split; auto.
    + now apply seq_nonempty.
    + eapply seq_bytes; eauto. intros [a b] [Hx Hy]. cbn [fst snd] in *. unfold enc_pair. apply is_bytes_app.
      cbn [fst snd]. split; [now apply Hna|now apply Hnb].
Qed.

Lemma rt_set {K} net le keqb (sk : Serializer K) dk domk :
  eqb_ok keqb -> round_trips sk dk domk ->
  round_trips (SerializeSetLike net le sk) (DeserializeSetLike net le keqb dk)
    (fun l => Forall domk l /\ len64 l < 2 ^ 64 /\ NoDup l).
Proof.
  intros Hk (ek & Ha & Hra & Hna).
  eapply rt_intro; [apply seq_appends; eauto|apply set_reads_back; eauto|].
  intros l (H1 & H2 & H3). repeat split; auto.
  - now apply seq_nonempty.
  - eapply seq_bytes; eauto. intros v Hv. now apply Hna.
Qed.

Lemma rt_memvec {T} le maxsz (m : memcpyable T) dom : lawful m dom ->
  round_trips (SerializeMemcpyableVectorLike le m) (DeserializeMemcpyableVectorLike le maxsz m)
    (fun l => Forall dom l /\ len64 l < 2 ^ 64 /\ len64 l <= maxsz).
Proof.
  intros HL. eapply rt_intro; [apply memvec_appends with (dom := dom)|apply memvec_reads_back; eauto|].
  intros l (H1 & H2 & H3). repeat split; auto.
  - now apply seq_nonempty.
  - eapply seq_bytes; eauto. intros v Hv. destruct HL as [_ HL]. now apply HL.
Qed.

Lemma rt_string {C} net le maxsz (m : memcpyable C) dom : lawful m dom ->
  (net = true -> net_width (msize m)) ->
  round_trips (SerializeString net le m) (DeserializeString net le maxsz m)
    (fun l => Forall dom l /\ len64 l < 2 ^ 64 /\ len64 l <= maxsz).
Proof.
  intros HL Hw. unfold SerializeString, DeserializeString. destruct net; apply rt_vector.
  - apply rt_network; auto.
  - now apply rt_memcpyable.
Qed.

Lemma shape_uint_lawful net le w : shape_ok net (ShUint w) ->
  lawful (uint_rep le w) (fun v => v < 256 ^ N.of_nat w) /\ (net = true -> net_width (msize (uint_rep le w)))
  /\ (0 < w)%nat /\ N.of_nat w < 2 ^ 63.
Proof.
  intros H. assert ((0 < w)%nat /\ N.of_nat w < 2 ^ 63) as [H1 H2].
  { cbn [shape_ok] in H. pows. destruct net; lia. }
  repeat split; auto; try (now apply uint_lawful).
  intros ->. exact H.
Qed.

Lemma shape_round_trips net le max_size s : shape_ok net s ->
  round_trips (shape_ser net le s) (shape_des net le max_size s) (val_ok max_size s).
Proof.
  induction s as [w|w|w|a IHa|a IHa b IHb|k IHk v IHv|k IHk]; intros Hs;
    cbn [shape_ser shape_des val_ok val].
  - destruct (shape_uint_lawful net le w Hs) as (HL & Hw & _).
    destruct net; [apply rt_network; auto|now apply rt_memcpyable].
  - destruct (shape_uint_lawful net le w Hs) as (HL & Hw & _). now apply rt_string.
  - destruct Hs as [-> Hw]. apply rt_memvec. now apply uint_lawful.
  - apply rt_vector; auto.
  - destruct Hs as [H1 H2]. apply rt_pair; auto.
  - destruct Hs as [H1 H2]. apply rt_map; auto using val_eqb_ok.
  - apply rt_set; auto using val_eqb_ok.
Qed.

Lemma shape_inside net le max_size s : shape_ok net s -> max_size_ok max_size ->
  stays_inside (shape_des net le max_size s).
Proof.
  intros Hs Hm. induction s as [w|w|w|a IHa|a IHa b IHb|k IHk v IHv|k IHk]; cbn [shape_des].
  - destruct (shape_uint_lawful net le w Hs) as (HL & Hw & H1 & H2).
    destruct net; [now apply network_inside|now apply memcpyable_inside].
  - destruct (shape_uint_lawful net le w Hs) as (HL & Hw & H1 & H2). unfold DeserializeString.
    destruct net; apply vector_inside; [now apply network_inside|now apply memcpyable_inside].
  - destruct Hs as [-> Hw]. apply memvec_inside; [exact Hw|apply Hm].
  - apply vector_inside; auto.
  - destruct Hs. apply pair_inside; auto.
  - destruct Hs. apply map_inside; auto.
  - apply set_inside; auto.
Qed.

(** ** Final statements *)
Lemma rt_at {T} ser des (dom : T -> Prop) v before after : round_trips ser des dom -> dom v ->
  fits_vector (snd (ser v before) ++ after) ->
  (exists bytes, bytes <> [] /\ snd (ser v before) = before ++ bytes /\ fst (ser v before) = len64 bytes) /\
  des (snd (ser v before) ++ after) (len64 before) = Ok (v, fst (ser v before)).
Proof.
  intros (enc & Ha & Hr & Hn) Hv Hf. destruct (Ha v before Hv) as [H1 H2].
  rewrite H1 in *. specialize (H2 (fits_pos _ _ Hf)). rewrite H2. split.
  - exists (enc v). split; [now apply Hn|auto].
  - rewrite <- app_assoc in *. now apply Hr.
Qed.

Lemma shape_round_trip_at net le max_size s (v : val s) before after :
  shape_ok net s -> val_ok max_size s v ->
  fits_vector (snd (shape_ser net le s v before) ++ after) ->
  shape_des net le max_size s (snd (shape_ser net le s v before) ++ after) (len64 before)
    = Ok (v, fst (shape_ser net le s v before)).
Proof.
  intros Hs Hv Hf. now apply (rt_at _ _ _ v before after (shape_round_trips net le max_size s Hs)).
Qed.

Lemma shape_appends_only net le max_size s (v : val s) : shape_ok net s -> val_ok max_size s v ->
  exists bytes, bytes <> [] /\ is_bytes bytes /\ forall buf,
    snd (shape_ser net le s v buf) = buf ++ bytes /\
    (fits_vector (buf ++ bytes) -> fst (shape_ser net le s v buf) = len64 bytes).
Proof.
  intros Hs Hv. destruct (shape_round_trips net le max_size s Hs) as (enc & Ha & Hr & Hn).
  exists (enc v). destruct (Hn v Hv) as [H1 H2]. repeat split; auto; now apply Ha.
Qed.

Lemma uint_network_big_endian le w v buf : net_width w -> v < 256 ^ N.of_nat w ->
  fits_vector (buf ++ big_endian w v) ->
  SerializeNetworkMemcpyable le (uint_rep le w) v buf = (N.of_nat w, buf ++ big_endian w v) /\
  forall after, fits_vector (buf ++ big_endian w v ++ after) ->
    DeserializeNetworkMemcpyable le (uint_rep le w) (buf ++ big_endian w v ++ after) (len64 buf) = Ok (v, N.of_nat w).
Proof.
  intros Hw Hv Hf.
  assert (0 < w)%nat as H0 by (unfold net_width in Hw; lia).
  pose proof (uint_lawful le w H0) as HL.
  assert (network_obj le (uint_rep le w) v = big_endian w v) as E.
  { rewrite (network_obj_eq le (uint_rep le w) _ v HL Hw Hv). cbn [uint_rep to_obj]. unfold host_bytes.
    destruct le; apply rev_le_big_endian. }
  assert (len64 (big_endian w v) = N.of_nat w) as El.
  { unfold len64, big_endian. now rewrite map_length, seq_length. }
  split.
  - rewrite (app_eq _ _ _ v buf (network_appends le (uint_rep le w) (fun v => v < 256 ^ N.of_nat w)) Hv) by now rewrite E.
    now rewrite E, El.
  - intros after Hf2.
    pose proof (network_reads_back le (uint_rep le w) _ HL Hw v buf after Hv) as HR. rewrite E in HR.
    rewrite HR by assumption. now rewrite El.
Qed.

Lemma net_memvec_round_trip le w maxsz v before after :
  net_width w -> Forall (fun x => x < 256 ^ N.of_nat w) v -> len64 v < 2 ^ 64 -> len64 v <= maxsz ->
  let bytes := big_endian 8 (len64 v) ++ concat (map (big_endian w) v) in
  fits_vector (before ++ bytes ++ after) ->
  SerializeNetworkMemcpyableVectorLike le (uint_rep le w) v before = Ok (len64 bytes, before ++ bytes) /\
  DeserializeNetworkMemcpyableVectorLike le maxsz (uint_rep le w) (before ++ bytes ++ after) (len64 before)
    = Ok (v, len64 bytes).
Proof.
  intros Hw Hv Hn Hm bytes Hf.
  assert (0 < w)%nat as H0 by (unfold net_width in Hw; lia).
  pose proof (uint_lawful le w H0) as HL.
  assert (forall w x, net_width w -> x < 256 ^ N.of_nat w -> network_obj le (uint_rep le w) x = big_endian w x) as E.
  { intros w' x Hw' Hx. rewrite (network_obj_eq le (uint_rep le w') (fun v => v < 256 ^ N.of_nat w') x); auto.
    - cbn [uint_rep to_obj]. unfold host_bytes. destruct le; apply rev_le_big_endian.
    - apply uint_lawful. unfold net_width in Hw'; lia. }
  assert (bytes = enc_seq true le (network_obj le (uint_rep le w)) v) as EB.
  { unfold bytes, enc_seq, enc_header, enc_items. f_equal.
    - symmetry. apply E; [unfold net_width; auto|exact Hn].
    - f_equal. apply map_ext_in. intros x Hx. symmetry. apply E; auto.
      rewrite Forall_forall in Hv. now apply Hv. }
  rewrite EB in *. split.
  - apply (net_memvec_appends le (uint_rep le w) _ v before HL Hw Hv Hn).
    rewrite app_assoc in Hf. now apply fits_pos in Hf.
  - unfold DeserializeNetworkMemcpyableVectorLike.
    apply (vector_reads_back true le maxsz _ _ _ (network_reads_back le (uint_rep le w) _ HL Hw)); auto.
Qed.

(** hostile headers for the Eigen containers *)
Definition hostile_matrix : buffer := le_bytes 8 (2 ^ 63) ++ le_bytes 8 0.
Lemma matrix_hostile_ub : exists buf, is_bytes buf /\ fits_vector buf /\ DeserializeMatrixXd true buf 0 = UB.
Proof.
  exists hostile_matrix. split; [|split; [reflexivity|vm_compute; reflexivity]].
  apply is_bytes_app. split; apply le_bytes_bytes.
Qed.

Lemma vectorxd_hostile_ub : exists buf, is_bytes buf /\ fits_vector buf /\
  DeserializeVectorXd true (uint_rep true 8) buf 0 = UB.
Proof.
  exists (le_bytes 8 (2 ^ 63)). split; [apply le_bytes_bytes|split; [reflexivity|vm_compute; reflexivity]].
Qed.

Lemma matrix_empty_ub le buf : fits_vector (buf ++ repeat 0 16) ->
  SerializeMatrixXd le {| m_rows := 0; m_cols := 0; m_data := [] |} buf = UB.
Proof.
  intros Hf. unfold SerializeMatrixXd. cbn [m_rows m_cols m_data]. cbv zeta.
  change (8 * 0 * 0) with 0. change (wrap 0) with 0. change (N.to_nat 0) with 0%nat.
  cbn [repeat firstn]. rewrite app_nil_r. unfold memcpy_to.
  destruct (N.ltb_spec (size64 (snd (ser_header false le 0 (snd (ser_header false le 0 buf)))))
    (size64 (snd (ser_header false le 0 (snd (ser_header false le 0 buf)))))); [lia|]. reflexivity.
Qed.

Lemma inplace_wrap_ub : exists buf pos, is_bytes buf /\ fits_vector buf /\ pos < 2 ^ 64 /\
  SerializeNetworkMemcpyableInPlace true (uint_rep true 8) 7 buf pos = UB.
Proof.
  exists (repeat 0 16), (2 ^ 64 - 4). split; [|split; [reflexivity|split; [reflexivity|vm_compute; reflexivity]]].
  repeat (apply Forall_cons; [reflexivity|]). apply Forall_nil.
Qed.

Lemma inplace_ok le w v buf pos : net_width w -> v < 256 ^ N.of_nat w -> fits_vector buf ->
  pos + N.of_nat w < 2 ^ 64 ->
  (pos + N.of_nat w <= len64 buf ->
    SerializeNetworkMemcpyableInPlace le (uint_rep le w) v buf pos =
      Ok (N.of_nat w, firstn (N.to_nat pos) buf ++ big_endian w v ++ skipn (N.to_nat pos + w) buf)) /\
  (len64 buf < pos + N.of_nat w ->
    SerializeNetworkMemcpyableInPlace le (uint_rep le w) v buf pos = Throw RuntimeError).
Proof.
  intros Hw Hv Hf Hp.
  assert (0 < w)%nat as H0 by (unfold net_width in Hw; lia).
  assert (network_obj le (uint_rep le w) v = big_endian w v) as E.
  { rewrite (network_obj_eq le (uint_rep le w) _ v (uint_lawful le w H0) Hw Hv). cbn [uint_rep to_obj]. unfold host_bytes.
    destruct le; apply rev_le_big_endian. }
  assert (len64 (big_endian w v) = N.of_nat w) as El.
  { unfold len64, big_endian. now rewrite map_length, seq_length. }
  unfold SerializeNetworkMemcpyableInPlace. cbn [uint_rep msize]. fold (uint_rep le w). rewrite E.
  rewrite wrap_eq by assumption. sz. split; intros Hle.
  - destruct (N.leb_spec (pos + N.of_nat w) (len64 buf)); [|lia].
    unfold memcpy_to. sz. rewrite El.
    destruct (N.ltb_spec pos (len64 buf)); [|lia]. destruct (N.leb_spec (pos + N.of_nat w) (len64 buf)); [|lia].
    cbn [andb bind]. assert (length (big_endian w v) = w) as -> by (unfold len64 in El; lia). reflexivity.
  - destruct (N.leb_spec (pos + N.of_nat w) (len64 buf)); [lia|reflexivity].
Qed.

(** sample values *)
Definition sample_shape : shape := ShMap (ShString 1) (ShVector (ShPair (ShUint 8) (ShMemVector 4))).
Definition sample_val : val sample_shape :=
  [([104; 105], [(5, [1; 2; 3]); (2 ^ 64 - 1, [])]); ([], [])].
Lemma sample_ok : shape_ok false sample_shape /\ val_ok (fun _ => 2 ^ 40) sample_shape sample_val.
Proof.
  assert (2 ^ 40 = 1099511627776) as P40 by reflexivity.
  split.
  - cbn. repeat split; lia.
  - unfold sample_val. cbn [val_ok sample_shape].
    assert (forall n, n < 256 -> n < 256 ^ N.of_nat 1) by (intros n Hn; exact Hn).
    split; [|split; [reflexivity|]].
    + repeat (apply Forall_cons || apply Forall_nil || split || reflexivity); cbn [fst snd].
      all: try discriminate.
    + cbn. repeat constructor; simpl; intuition discriminate.
Qed.

Lemma max_size_sample : shape_ok true (ShVector (ShString 1)) /\
  max_size_ok (fun s => match s with ShMemVector w => (2 ^ 63 - 1) / N.of_nat w | _ => 2 ^ 40 end).
Proof.
  split; [cbn; auto|]. intros w. destruct w as [|w]; [reflexivity|].
  pose proof (N.mul_div_le (2 ^ 63 - 1) (N.of_nat (S w))). pows. lia.
Qed.

Lemma big_endian_sample : big_endian 4 258 = [0; 0; 1; 2] /\ 258 < 256 ^ N.of_nat 4.
Proof. split; reflexivity. Qed.

Lemma matrix_empty_refuted :
  exists le buf, SerializeMatrixXd le {| m_rows := 0; m_cols := 0; m_data := [] |} buf = UB.
Proof. exists true, []. apply matrix_empty_ub. reflexivity. Qed.

Lemma matrix_round_trip (le : bool) (v : matrix) (before after : list N) :
  m_rows v * m_cols v <> 0 -> is_bytes (m_data v) -> len64 (m_data v) = 8 * m_rows v * m_cols v ->
  fits_vector (before ++ repeat 0 16 ++ m_data v ++ after) ->
  exists bytes, length bytes = (16 + length (m_data v))%nat /\
    SerializeMatrixXd le v before = Ok (len64 bytes, before ++ bytes) /\
    DeserializeMatrixXd le (before ++ bytes ++ after) (len64 before) = Ok (v, len64 bytes).
Proof.
  intros H1 H2 H3 Hf.
  assert (matrix_ok v) as Hv by (repeat split; auto).
  assert (fits_vector (m_data v)) as Hfd.
  { unfold fits_vector in *. rewrite !len64_app in Hf. lia. }
  destruct (matrix_dims v Hv Hfd) as [Hr Hc]. assert (2 ^ 60 < 2 ^ 64) by reflexivity.
  assert (len64 (enc_matrix le v) = 16 + len64 (m_data v)) as HL.
  { unfold enc_matrix. rewrite !len64_app, !header_len by lia. lia. }
  assert (fits_vector (before ++ enc_matrix le v ++ after)) as Hf'.
  { unfold fits_vector in *. rewrite !len64_app in *. rewrite HL. change (len64 (repeat 0 16)) with 16 in Hf. lia. }
  exists (enc_matrix le v). split; [unfold len64 in HL; lia|]. split.
  - apply matrix_appends; auto. rewrite app_assoc in Hf'. now apply fits_pos in Hf'.
  - now apply matrix_reads_back.
Qed.

Lemma matrix_sample :
  let v := {| m_rows := 1; m_cols := 2; m_data := repeat 64 16 |} in
  m_rows v * m_cols v <> 0 /\ is_bytes (m_data v) /\ len64 (m_data v) = 8 * m_rows v * m_cols v.
Proof.
  cbn [m_rows m_cols m_data]. repeat split; try discriminate.
  repeat (apply Forall_cons; [reflexivity|]). apply Forall_nil.
Qed.

(** ** Eigen::VectorXd *)
Lemma vectorxd_like le buf off : 
  (forall h n, des_header false le buf off = Ok (h, n) -> 8 * h < 2 ^ 63) ->
  DeserializeVectorXd le (uint_rep le 8) buf off = DeserializeMemcpyableVectorLike le (2 ^ 63) (uint_rep le 8) buf off.
Proof.
  intros H. unfold DeserializeVectorXd, DeserializeMemcpyableVectorLike. destruct (des_header false le buf off) as [[h n]| | |] eqn:E; try reflexivity.
  specialize (H h n eq_refl). cbn [bind fst snd]. cbv zeta. cbn [uint_rep msize]. change (N.of_nat 8) with 8.
  destruct (size64 buf <? wrap (wrap (off + n) + wrap (8 * h))); [reflexivity|].
  destruct (N.leb_spec (2 ^ 63) h); [lia|]. destruct (N.leb_spec (2 ^ 63) (8 * h)); [lia|]. destruct (N.ltb_spec (2 ^ 63) h); [lia|]. reflexivity.
Qed.
Lemma vectorxd_round_trip : forall (le : bool) (v before after : list N), Forall (fun x => x < 2 ^ 64) v ->
  fits_vector (before ++ repeat 0 (8 + 8 * length v) ++ after) ->
  exists bytes, length bytes = (8 + 8 * length v)%nat /\
    SerializeVectorXd le (uint_rep le 8) v before = (len64 bytes, before ++ bytes) /\
    DeserializeVectorXd le (uint_rep le 8) (before ++ bytes ++ after) (len64 before) = Ok (v, len64 bytes).
Proof.
  intros le v before after Hv Hf. set (m := uint_rep le 8). set (dom := fun x : N => x < 256 ^ N.of_nat 8).
  assert (HL : lawful m dom) by (apply uint_lawful; lia).
  assert (Hd : Forall dom v) by (eapply Forall_impl; [|exact Hv]; intros x Hx; unfold dom; change (256 ^ N.of_nat 8) with (2 ^ 64); exact Hx).
  pose proof Hf as Hf'. unfold fits_vector in Hf'. rewrite !len64_app in Hf'. unfold len64 in Hf' at 2. rewrite repeat_length in Hf'.
  assert (Hn : len64 v < 2 ^ 64) by (unfold len64; lia).
  assert (EL : len64 (enc_seq false le (to_obj m) v) = 8 + 8 * len64 v).
  { unfold enc_seq. rewrite len64_app, header_len by exact Hn. rewrite (enc_items_len m dom) by assumption. reflexivity. }
  exists (enc_seq false le (to_obj m) v).
  assert (FV : fits_vector (before ++ enc_seq false le (to_obj m) v ++ after)) by (unfold fits_vector; rewrite !len64_app, EL; unfold len64 in *; lia).
  split; [unfold len64 in EL; lia|]. split.
  - destruct (memvec_appends le m dom v before (conj Hd Hn)) as (A1 & A2). unfold SerializeVectorXd.
    rewrite <- A2, <- A1; [apply surjective_pairing|]. unfold fits_vector in *. rewrite !len64_app in *. lia.
  - rewrite vectorxd_like.
    + apply (memvec_reads_back le (2 ^ 63) m dom HL v before after); [|exact FV]. split; [exact Hd|]. split; [exact Hn|]. unfold len64 in *. lia.
    + intros h n E. unfold enc_seq in E. rewrite <- !app_assoc in E. rewrite (header_reads_back false le (len64 v)) in E.
      * injection E as <- _. unfold len64 in *. lia.
      * exact Hn.
      * unfold enc_seq in FV. rewrite <- !app_assoc in FV. exact FV.
Qed.
