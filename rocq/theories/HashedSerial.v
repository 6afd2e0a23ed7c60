(** Proofs for C78: serialization of hashed grids. *)
From Coq Require Import Permutation.
From Flocq Require Import BinarySingleNaN.
From Verif Require Import Base ParallelismModel ParallelismProof Double DoubleBits SerializationModel SerializationSpec
  SerializationProof SerializationProof2 GraphModel GraphSpec GraphProof2 VoxelModel VoxelSpec VoxelProof VoxelSerial
  HashedModel HashedSpec HashedProof HashedSerialModel HashedSerialSpec.
Local Open Scope N_scope.

(** ** Maps whose keys are compared by a function that need not be equality *)
Section Map.
Context {K V : Type}.
Variable keqb : K -> K -> bool.
Definition apart (m : list (K * V)) : Prop := ForallOrdPairs (fun a b => keqb (fst a) (fst b) = false) m.
Lemma apart_snoc m e : apart m -> (forall x, In x m -> keqb (fst x) (fst e) = false) -> apart (m ++ [e]).
Proof.
  intros A H. induction A as [|a m Fa A IH]; cbn [app]; [repeat constructor|]. constructor.
  - apply Forall_app. split; [exact Fa|]. repeat constructor. apply H. now left.
  - apply IH. intros x I. apply H. now right.
Qed.
Lemma apart_app_inv l m : apart (l ++ m) -> apart l /\ apart m /\ forall a b, In a l -> In b m -> keqb (fst a) (fst b) = false.
Proof.
  induction l as [|x l IH]; cbn [app]; intros H; [repeat split; auto; [constructor|intros a b []]|].
  inversion H as [|? ? F A]; subst. destruct (IH A) as (A1 & A2 & A3). rewrite Forall_app in F. destruct F as [F1 F2].
  split; [constructor; assumption|]. split; [exact A2|]. intros a b [<-|I] J; [|apply A3; assumption]. rewrite Forall_forall in F2. now apply F2.
Qed.
Lemma apart_rebuild (l acc : list (K * V)) : apart (acc ++ l) -> fold_left (map_insert keqb) l acc = acc ++ l.
Proof.
  revert acc. induction l as [|e r IH]; intros acc A; cbn [fold_left]; [now rewrite app_nil_r|].
  assert (map_insert keqb acc e = acc ++ [e]) as ->.
  { unfold map_insert. destruct (existsb _ acc) eqn:E; [|reflexivity]. exfalso.
    apply existsb_exists in E as (x & I & E). destruct (apart_app_inv _ _ A) as (_ & _ & H). rewrite (H x e I (or_introl eq_refl)) in E. discriminate. }
  rewrite IH; rewrite <- app_assoc; [reflexivity|exact A].
Qed.
Lemma insert_apart m e : apart m -> apart (map_insert keqb m e).
Proof.
  intros A. unfold map_insert. destruct (existsb _ m) eqn:E; [exact A|]. apply apart_snoc; [exact A|].
  intros x I. destruct (keqb (fst x) (fst e)) eqn:Q; [|reflexivity]. rewrite <- E. symmetry. apply existsb_exists. eauto.
Qed.
Lemma map_reads_apart net le dk dv (ek : K -> list N) (ev : V -> list N) (domk : K -> Prop) (domv : V -> Prop) :
  (forall k, domk k -> ek k <> []) -> reads_back dk ek domk -> reads_back dv ev domv ->
  reads_back (DeserializeMapLike net le keqb dk dv) (enc_seq net le (enc_pair ek ev))
    (fun l => Forall (fun e => domk (fst e) /\ domv (snd e)) l /\ len64 l < 2 ^ 64 /\ apart l).
Proof.
  intros Hne Hdk Hdv l pre post (Hl & Hn & Hnd) Hf.
  destruct (read_seq net le (DeserializePair dk dv) (enc_pair ek ev) _ (map_insert keqb) l [] pre post
    (pair_reads_back _ _ _ _ _ _ Hne Hdk Hdv) Hl Hn Hf) as [H1 H2].
  unfold DeserializeMapLike. rewrite H1. cbn [bind fst snd]. rewrite H2. cbn [bind fst snd].
  rewrite apart_rebuild by assumption. cbn [app].
  unfold fits_vector in Hf. rewrite !len64_app in Hf. rewrite sub64_eq by (pows; lia).
  replace (len64 pre + len64 (enc_seq net le (enc_pair ek ev) l) - len64 pre)
    with (len64 (enc_seq net le (enc_pair ek ev) l)) by lia.
  apply make_ok. unfold enc_seq. rewrite len64_app, header_len by assumption. lia.
Qed.
Lemma rt_map_apart net le (sk : Serializer K) dk domk (sv : Serializer V) dv domv :
  round_trips sk dk domk -> round_trips sv dv domv ->
  round_trips (SerializeMapLike net le sk sv) (DeserializeMapLike net le keqb dk dv)
    (fun l => Forall (fun e => domk (fst e) /\ domv (snd e)) l /\ len64 l < 2 ^ 64 /\ apart l).
Proof.
  intros (ek & Ha & Hra & Hna) (ev & Hb & Hrb & Hnb).
  eapply rt_intro; [apply seq_appends; apply pair_appends; eauto|apply map_reads_apart; eauto|].
  - intros k H. now apply Hna.
  - intros l (H1 & H2 & H3). repeat split; auto.
    + now apply seq_nonempty.
    + eapply seq_bytes; eauto. intros [a b] [Hx Hy]. cbn [fst snd] in *. unfold enc_pair. apply is_bytes_app.
      cbn [fst snd]. split; [now apply Hna|now apply Hnb].
Qed.
End Map.

(** ** What a deserializer returns when it returns *)
Definition yields {T} (des : Deserializer T) (P : T -> Prop) : Prop :=
  forall buf off v n, is_bytes buf -> fits_vector buf -> des buf off = Ok (v, n) -> off < 2 ^ 64 ->
    0 < n /\ off + n <= len64 buf /\ P v.
Lemma inside_yields {T} (des : Deserializer T) : stays_inside des -> yields des (fun _ => True).
Proof. intros S buf off v n Hb Hf E Ho. destruct (S buf off Hb Hf Ho) as [(e & E')|(v' & n' & E' & P & Q)]; rewrite E in E'; [discriminate|]. injection E' as <- <-. auto. Qed.
Lemma pair_yields {A B} (da : Deserializer A) (db : Deserializer B) P Q : yields da P -> yields db Q -> yields (DeserializePair da db) (fun v => P (fst v) /\ Q (snd v)).
Proof.
  intros Ha Hb buf off v n Hy Hf E0 Ho. revert E0. unfold DeserializePair. cbv zeta. assert (Hf' := Hf). unfold fits_vector in Hf'.
  destruct (da buf off) as [[a k]| | |] eqn:E; cbn [bind fst snd]; try discriminate. destruct (Ha _ _ _ _ Hy Hf E Ho) as (K1 & K2 & K3).
  rewrite wrap_eq by (pows; lia). destruct (db buf (off + k)) as [[b k2]| | |] eqn:E2; cbn [bind fst snd]; try discriminate.
  destruct (Hb _ _ _ _ Hy Hf E2 ltac:(pows; lia)) as (K4 & K5 & K6). rewrite wrap_eq by (pows; lia). rewrite sub64_eq by (pows; lia). rewrite make_ok by lia.
  intros H. injection H as <- <-. cbn [fst snd]. repeat split; auto; lia.
Qed.
Lemma loop_yields {T A} des (put : A -> T -> A) (P : T -> Prop) (Q : A -> Prop) buf n : yields des P -> is_bytes buf -> fits_vector buf ->
  (forall a x, Q a -> P x -> Q (put a x)) ->
  forall acc pos acc' pos', pos <= len64 buf -> Q acc ->
  mfold (fun s (_ : unit) => des_step des put buf s) (acc, pos) (repeat tt n) = Ok (acc', pos') -> pos <= pos' /\ pos' <= len64 buf /\ Q acc'.
Proof.
  intros Hd Hb Hf Hq. assert (Hf' := Hf). unfold fits_vector in Hf'. induction n as [|n IH]; intros acc pos acc' pos' Hp Qa; cbn [repeat mfold].
  - intros H. injection H as <- <-. split; [lia|]. split; [lia|exact Qa].
  - unfold des_step at 1. cbn [fst snd]. destruct (des buf pos) as [[v k]| | |] eqn:E; cbn [bind fst snd]; try discriminate.
    destruct (Hd buf pos v k Hb Hf E ltac:(pows; lia)) as (K1 & K2 & K3). rewrite wrap_eq by (pows; lia). intros H.
    destruct (IH (put acc v) (pos + k) acc' pos' ltac:(lia) (Hq _ _ Qa K3) H) as (A1 & A2 & A3). split; [lia|]. auto.
Qed.
Lemma map_yields {K V} net le keqb (dk : Deserializer K) (dv : Deserializer V) P Q : yields dk P -> yields dv Q ->
  yields (DeserializeMapLike net le keqb dk dv) (fun m => Forall (fun e => P (fst e) /\ Q (snd e)) m /\ apart keqb m).
Proof.
  intros Hk Hv buf off v n Hb Hf E0 Ho. revert E0. unfold DeserializeMapLike. assert (Hf' := Hf). unfold fits_vector in Hf'.
  destruct (header_inside net le buf off Hb Hf Ho) as [(e & ->)|(m & k & -> & Hk1 & Hk2)]; [discriminate|]. cbn [bind fst snd].
  rewrite wrap_eq by (pows; lia). rewrite loopN_spec.
  destruct (mfold _ _ _) as [[a p]| | |] eqn:E; cbn [bind fst snd]; try discriminate.
  destruct (loop_yields (DeserializePair dk dv) (map_insert keqb) (fun e => P (fst e) /\ Q (snd e))
     (fun m => Forall (fun e => P (fst e) /\ Q (snd e)) m /\ apart keqb m) buf (N.to_nat m) (pair_yields _ _ _ _ Hk Hv) Hb Hf) with (acc := @nil (K * V)) (pos := off + k) (acc' := a) (pos' := p) as (A1 & A2 & A3).
  - intros acc x [F A] Px. split; [|apply insert_apart; exact A]. unfold map_insert. destruct (existsb _ acc); [exact F|]. apply Forall_app. split; [exact F|]. repeat constructor; apply Px.
  - lia.
  - split; constructor.
  - exact E.
  - rewrite sub64_eq by (pows; lia). rewrite make_ok by lia. intros H. injection H as <- <-. split; [lia|]. split; [lia|exact A3].
Qed.

Section S.
Variable le : bool.
Notation obj := (obj le).

Lemma obj_len x : length (obj x) = 8%nat. Proof. apply (proj2 (double_lawful le) x I). Qed.
Lemma obj_bytes x : is_bytes (obj x). Proof. apply (proj2 (double_lawful le) x I). Qed.
Lemma obj_back x : of_obj (double_rep le) (obj x) = x. Proof. apply (proj2 (double_lawful le) x I). Qed.
Definition enc_region (r : region) : list N := let '(x, y, z) := r in obj x ++ obj y ++ obj z ++ obj d1.
Lemma enc_region_len r : length (enc_region r) = 32%nat.
Proof. destruct r as [[x y] z]. cbn [enc_region]. rewrite !app_length, !obj_len. reflexivity. Qed.
Lemma enc_region_bytes r : is_bytes (enc_region r).
Proof. destruct r as [[x y] z]. cbn [enc_region]. rewrite !is_bytes_app. auto using obj_bytes. Qed.
Lemma nth_double_skip k a b : length a = 8%nat -> nth_double le (S k) (a ++ b) = nth_double le k b.
Proof.
  intros L. unfold nth_double. do 2 f_equal. replace (8 * S k)%nat with (length a + 8 * k)%nat by lia.
  rewrite skipn_app. rewrite skipn_all2 by lia. rewrite app_nil_l. f_equal. lia.
Qed.
Lemma nth_double_0 a b : length a = 8%nat -> nth_double le 0 (a ++ b) = of_obj (double_rep le) a.
Proof. intros L. unfold nth_double. change (skipn (8 * 0) (a ++ b)) with (a ++ b). f_equal. rewrite firstn_app, L. rewrite firstn_all2 by lia. cbn. apply app_nil_r. Qed.
Lemma d1_eqb : Beqb d1 d1 = true. Proof. vm_compute. reflexivity. Qed.
Lemma rt_region : round_trips (SerializeRegion le) (DeserializeRegion le) (fun _ => True).
Proof.
  eapply (rt_intro _ _ enc_region _ (fun _ => True) (fun _ => True)).
  - intros [[x y] z] buf _. unfold SerializeRegion. exact (fixed_appends 4 (enc_region (x, y, z)) buf (conj (enc_region_len _) (enc_region_bytes _))).
  - intros r pre post _ Hf. unfold DeserializeRegion.
    rewrite (fixed_reads_back 4 ltac:(lia) (enc_region r) pre post (conj (enc_region_len r) (enc_region_bytes r)) Hf). cbn [bind fst snd].
    destruct r as [[x y] z]. cbn [enc_region]. rewrite !nth_double_skip, !nth_double_0 by apply obj_len.
    replace (nth_double le 0 (obj d1)) with (nth_double le 0 (obj d1 ++ [])) by (rewrite app_nil_r; reflexivity).
    rewrite nth_double_0 by apply obj_len. rewrite !obj_back, d1_eqb. apply make_ok.
    unfold len64. change (obj x ++ obj y ++ obj z ++ obj d1) with (enc_region (x, y, z)). rewrite enc_region_len. lia.
  - intros r _. repeat split; auto.
    + intros E. pose proof (enc_region_len r) as L. rewrite E in L. discriminate.
    + apply enc_region_bytes.
Qed.
Lemma region_yields : yields (DeserializeRegion le) (fun _ => True).
Proof.
  intros buf off v n Hb Hf E0 Ho. revert E0. unfold DeserializeRegion. pose proof (inside_yields _ (fixed_inside 4 ltac:(lia) ltac:(reflexivity)) buf off) as Y.
  destruct (DeserializeFixed 4 buf off) as [[b k]| | |]; cbn [bind fst snd]; try discriminate. destruct (Y b k Hb Hf eq_refl Ho) as (Y1 & Y2 & _).
  destruct (Beqb _ d1); [|discriminate]. rewrite make_ok by exact Y1. intros H. injection H as _ <-. auto.
Qed.

Section C.
Context {T : Type}.
Variable max_size : N.

Definition chunk_ok (dom : T -> Prop) (c : @chunk T) : Prop :=
  rebuilds (c_sizes c) /\ (Forall dom (c_data c) /\ len64 (c_data c) < 2 ^ 64 /\ len64 (c_data c) <= max_size) /\
  match c_fill c with
  | CELL_FILLED => TotalCells (c_sizes c) = Ok (Z.of_nat (length (c_data c)))
  | CHUNK_FILLED => length (c_data c) = 1%nat
  | NOT_FILLED => length (c_data c) = 0%nat
  end.
Lemma fill_back f : fill_of (fill_code f) = f. Proof. destruct f; reflexivity. Qed.
Lemma fill_small f : fill_code f < 256 ^ N.of_nat 1. Proof. destruct f; reflexivity. Qed.

Lemma rt_chunk (ser : Serializer T) des dom : round_trips ser des dom ->
  round_trips (SerializeChunk le ser) (DeserializeChunk le max_size des) (chunk_ok dom).
Proof.
  intros RT. destruct rt_region as (encr & Har & Hrr & Hnr).
  destruct (rt_vector false le max_size _ _ _ RT) as (ence & Hae & Hre & Hne).
  destruct (rt_sizes le (double_rep le) (double_lawful le)) as (encs & Has & Hrs & Hns).
  destruct (rt_memcpyable (uint_rep le 1) _ (uint_lawful le 1 ltac:(lia))) as (encf & Haf & Hrf & Hnf).
  eapply (rt_intro _ _ (fun c => encr (c_region c) ++ encs (c_sizes c) ++ ence (c_data c) ++ encf (fill_code (c_fill c))) _ (chunk_ok dom) (chunk_ok dom)).
  - apply written_appends. intros c buf (C1 & C2 & C3). unfold SerializeChunk. cbv zeta.
    rewrite (app_snd _ _ _ _ _ Har) by exact I. rewrite (app_snd _ _ _ _ _ Has) by exact C1. rewrite (app_snd _ _ _ _ _ Hae) by exact C2.
    rewrite (app_snd _ _ _ _ _ Haf) by apply fill_small. f_equal. asc.
  - intros c pre post (C1 & C2 & C3) Hf. unfold DeserializeChunk.
    set (a := encr (c_region c)) in *. set (b := encs (c_sizes c)) in *. set (d := ence (c_data c)) in *. set (e := encf (fill_code (c_fill c))) in *.
    set (buf := pre ++ (a ++ b ++ d ++ e) ++ post) in *.
    assert (LB : len64 pre + (len64 a + len64 b + len64 d + len64 e) < 2 ^ 63) by (unfold fits_vector, buf in Hf; rewrite !len64_app in Hf; lia).
    assert (La : 0 < len64 a) by (unfold len64, a; destruct (Hnr (c_region c) I) as [Na _]; destruct (encr (c_region c)); [congruence|cbn; lia]).
    pows.
    rewrite (reads_at _ _ _ (c_region c) buf (len64 pre) pre (b ++ d ++ e ++ post) Hrr); auto; [|unfold buf; fold a; asc].
    cbn [bind fst snd]. fold a. rewrite wrap_eq by (pows; lia).
    rewrite (reads_at _ _ _ (c_sizes c) buf _ (pre ++ a) (d ++ e ++ post) Hrs); auto; [|unfold buf; fold b; asc|rewrite len64_app; reflexivity].
    cbn [bind fst snd]. fold b. rewrite wrap_eq by (pows; lia).
    rewrite (reads_at _ _ _ (c_data c) buf _ (pre ++ a ++ b) (e ++ post) Hre); auto; [|unfold buf; fold d; asc|rewrite !len64_app; lia].
    cbn [bind fst snd]. fold d. rewrite wrap_eq by (pows; lia).
    rewrite (reads_at _ _ _ (fill_code (c_fill c)) buf _ (pre ++ a ++ b ++ d) post Hrf); auto using fill_small; [|unfold buf; fold e; asc|rewrite !len64_app; lia].
    cbn [bind fst snd]. fold e. rewrite wrap_eq by (pows; lia). rewrite fill_back. cbn [c_fill c_sizes c_data].
    assert (E : (match c_fill c with
               | CELL_FILLED => do total <- TotalCells (c_sizes c); Ok (Z.of_nat (length (c_data c)) =? total)%Z
               | CHUNK_FILLED => Ok (length (c_data c) =? 1)%nat
               | NOT_FILLED => Ok (length (c_data c) =? 0)%nat
               end) = Ok true).
    { destruct (c_fill c); rewrite C3; cbn [bind]; try reflexivity. rewrite Z.eqb_refl. reflexivity. }
    rewrite E. cbn [bind]. rewrite sub64_eq by (pows; lia). rewrite make_ok by (pows; lia). do 2 f_equal; [destruct c; reflexivity|]. rewrite !len64_app. lia.
  - intros c H. split; [exact H|]. split; [exact H|]. destruct H as (C1 & C2 & C3).
    destruct (Hnr (c_region c) I) as (A1 & A2). destruct (Hns _ C1) as (B1 & B2). destruct (Hne _ C2) as (D1 & D2). destruct (Hnf _ (fill_small (c_fill c))) as (E1 & E2).
    split; [|rewrite !is_bytes_app; auto]. intros E. apply app_eq_nil in E as [E _]. exact (A1 E).
Qed.
Lemma sizes_yields : yields (DeserializeGridSizes le (double_rep le)) (fun _ => True).
Proof. intros buf off v n Hb Hf E Ho. assert (H : 0 < n /\ off + n <= len64 buf) by (exact (sizes_ok_inside le (double_rep le) (double_lawful le) (fun _ : unit => []) (fun _ => tt) (fun _ => tt) buf off v n ltac:(reflexivity) Hb Hf Ho E)). tauto. Qed.
Lemma chunk_yields des : stays_inside des -> yields (DeserializeChunk le max_size des) (@right_amount T).
Proof.
  intros SV buf off v n Hb Hf E0 Ho. revert E0. unfold DeserializeChunk. cbv zeta. assert (Hf' := Hf). unfold fits_vector in Hf'.
  pose proof (inside_yields _ (vector_inside false le max_size _ SV)) as YV.
  assert (YU : yields (DeserializeMemcpyable (uint_rep le 1)) (fun _ => True)) by (apply inside_yields, memcpyable_inside; cbn; [lia|pows; lia]).
  destruct (DeserializeRegion le buf off) as [[r k1]| | |] eqn:E1; cbn [bind fst snd]; try discriminate. destruct (region_yields _ _ _ _ Hb Hf E1 Ho) as (A1 & A2 & _).
  rewrite wrap_eq by (pows; lia).
  destruct (DeserializeGridSizes le (double_rep le) buf (off + k1)) as [[s k2]| | |] eqn:E2; cbn [bind fst snd]; try discriminate. destruct (sizes_yields _ _ _ _ Hb Hf E2 ltac:(pows; lia)) as (B1 & B2 & _).
  rewrite wrap_eq by (pows; lia).
  destruct (DeserializeVectorLike false le max_size des buf (off + k1 + k2)) as [[d k3]| | |] eqn:E3; cbn [bind fst snd]; try discriminate. destruct (YV _ _ _ _ Hb Hf E3 ltac:(pows; lia)) as (C1 & C2 & _).
  rewrite wrap_eq by (pows; lia).
  destruct (DeserializeMemcpyable (uint_rep le 1) buf (off + k1 + k2 + k3)) as [[f k4]| | |] eqn:E4; cbn [bind fst snd]; try discriminate. destruct (YU _ _ _ _ Hb Hf E4 ltac:(pows; lia)) as (D1 & D2 & _).
  rewrite wrap_eq by (pows; lia). cbn [c_fill c_sizes c_data].
  destruct (match fill_of f with NOT_FILLED => _ | CHUNK_FILLED => _ | CELL_FILLED => _ end) as [[]| | |] eqn:G; cbn [bind]; try discriminate.
  rewrite sub64_eq by (pows; lia). rewrite make_ok by lia. intros H. injection H as <- <-. split; [lia|]. split; [lia|].
  unfold right_amount. cbn [c_fill c_sizes c_data]. destruct (fill_of f).
  - injection G as G. apply Nat.eqb_eq in G. destruct d; [reflexivity|discriminate].
  - injection G as G. apply Nat.eqb_eq in G. exact G.
  - apply bind_ok in G. destruct G as (t & ET & G). injection G as G. apply Z.eqb_eq in G. rewrite G.
    unfold TotalCells in ET. apply bind_ok in ET. destruct ET as (p & P1 & P2). apply i64_inv in P1. apply i64_inv in P2. destruct P1 as [-> _], P2 as [-> _]. reflexivity.
Qed.

Section G.
Context {Iso : Type}.
Variable iso_to : Iso -> list N.
Variable iso_of : list N -> Iso.
Variable iso_inverse : Iso -> Iso.

Record hgrid_ok (dom : T -> Prop) (g : @hgrid T unit Iso) : Prop := mkHGridOk {
  ho_sizes : rebuilds (h_sizes g);
  ho_init : h_initialized g = sizes_valid (h_sizes g);
  ho_inv : h_inverse g = iso_inverse (h_origin g);
  ho_def : dom (h_default g);
  ho_chunks : Forall (fun e => True /\ chunk_ok dom (snd e)) (h_chunks g) /\ len64 (h_chunks g) < 2 ^ 64 /\ apart region_eqb (h_chunks g);
  ho_some : h_chunks g <> [] -> sizes_valid (h_sizes g) = true;
  ho_iso : length (iso_to (h_origin g)) = 128%nat /\ is_bytes (iso_to (h_origin g)) /\ iso_of (iso_to (h_origin g)) = h_origin g }.

Lemma rt_hgrid (ser : Serializer T) des dom : round_trips ser des dom ->
  round_trips (fun g => SerializeHGrid le iso_to ser (h_chunks g) g) (DeserializeHGrid le iso_of iso_inverse max_size des) (hgrid_ok dom).
Proof.
  intros RT. pose proof RT as (encv & Hav & Hrv & Hnv).
  destruct (rt_map_apart region_eqb false le _ _ _ _ _ _ rt_region (rt_chunk _ _ _ RT)) as (encm & Ham & Hrm & Hnm).
  destruct (rt_sizes le (double_rep le) (double_lawful le)) as (encs & Has & Hrs & Hns).
  destruct (rt_memcpyable (uint_rep le 1) _ (uint_lawful le 1 ltac:(lia))) as (encf & Haf & Hrf & Hnf).
  pose proof (fixed_reads_back 16 ltac:(lia)) as Hrx.
  assert (Hflag : forall b, flag b < 256 ^ N.of_nat 1) by (intros []; reflexivity).
  eapply (rt_intro _ _ (fun g => iso_to (h_origin g) ++ encv (h_default g) ++ encs (h_sizes g) ++ encm (h_chunks g) ++ encf (flag (h_initialized g))) _ (hgrid_ok dom) (hgrid_ok dom)).
  - apply written_appends. intros g buf []. unfold SerializeHGrid. cbv zeta.
    rewrite (app_snd _ _ _ _ _ (fixed_appends 16)) by tauto.
    rewrite (app_snd _ _ _ _ _ Hav) by assumption. rewrite (app_snd _ _ _ _ _ Has) by assumption. rewrite (app_snd _ _ _ _ _ Ham) by assumption.
    fold (flag (h_initialized g)). rewrite (app_snd _ _ _ _ _ Haf) by apply Hflag. f_equal. asc.
  - intros g pre post [G1 G3 G4 G5 G6 G7 G8] Hf. unfold DeserializeHGrid. destruct G8 as (X1 & X2 & X3).
    set (x := iso_to (h_origin g)) in *. set (a := encv (h_default g)) in *. set (b := encs (h_sizes g)) in *.
    set (c := encm (h_chunks g)) in *. set (e := encf (flag (h_initialized g))) in *.
    set (buf := pre ++ (x ++ a ++ b ++ c ++ e) ++ post) in *.
    assert (LB : len64 pre + (len64 x + len64 a + len64 b + len64 c + len64 e) < 2 ^ 63) by (unfold fits_vector, buf in Hf; rewrite !len64_app in Hf; lia).
    assert (La : 0 < len64 x) by (unfold len64; rewrite X1; cbn; lia).
    pows.
    rewrite (reads_at _ _ _ x buf (len64 pre) pre (a ++ b ++ c ++ e ++ post) Hrx); auto; [|unfold buf; asc].
    cbn [bind fst snd]. rewrite wrap_eq by (pows; lia).
    rewrite (reads_at _ _ _ (h_default g) buf _ (pre ++ x) (b ++ c ++ e ++ post) Hrv); auto; [|unfold buf; fold a; asc|rewrite len64_app; reflexivity].
    cbn [bind fst snd]. fold a. rewrite wrap_eq by (pows; lia).
    rewrite (reads_at _ _ _ (h_sizes g) buf _ (pre ++ x ++ a) (c ++ e ++ post) Hrs); auto; [|unfold buf; fold b; asc|rewrite !len64_app; lia].
    cbn [bind fst snd]. fold b. rewrite wrap_eq by (pows; lia).
    rewrite (reads_at _ _ _ (h_chunks g) buf _ (pre ++ x ++ a ++ b) (e ++ post) Hrm); auto; [|unfold buf; fold c; asc|rewrite !len64_app; lia].
    cbn [bind fst snd]. fold c. rewrite wrap_eq by (pows; lia).
    rewrite (reads_at _ _ _ (flag (h_initialized g)) buf _ (pre ++ x ++ a ++ b ++ c) post Hrf); auto; [|unfold buf; fold e; asc|rewrite !len64_app; lia].
    cbn [bind fst snd]. fold e. rewrite wrap_eq by (pows; lia).
    replace (negb (flag (h_initialized g) =? 0)) with (h_initialized g) by (destruct (h_initialized g); reflexivity).
    rewrite <- G3, eqb_reflx. cbn [negb].
    assert (E : ((0 <? length (h_chunks g))%nat && negb (h_initialized g))%bool = false).
    { destruct (h_chunks g) as [|q m]; [reflexivity|]. rewrite G3, G7 by discriminate. reflexivity. }
    rewrite E. rewrite sub64_eq by (pows; lia). rewrite make_ok by (pows; lia).
    rewrite X3, <- G4. do 2 f_equal; [destruct g as [? ? ? ? ? ? []]; reflexivity|]. rewrite !len64_app. lia.
  - intros g H. split; [exact H|]. split; [exact H|]. destruct H as [G1 G3 G4 G5 G6 G7 G8]. destruct G8 as (X1 & X2 & _).
    destruct (Hnv _ G5) as (A1 & A2). destruct (Hnm _ G6) as (C1 & C2). destruct (Hns _ G1) as (D1 & D2). destruct (Hnf _ (Hflag (h_initialized g))) as (E1 & E2).
    split; [|rewrite !is_bytes_app; auto 10]. intros E. apply app_eq_nil in E as [E _]. rewrite E in X1. discriminate.
Qed.
Lemma hgrid_yields des : stays_inside des ->
  yields (DeserializeHGrid le iso_of iso_inverse max_size des) (fun g : @hgrid T unit Iso =>
    (forall r c, In (r, c) (h_chunks g) -> right_amount c) /\ one_per_region (h_chunks g) /\ h_initialized g = sizes_valid (h_sizes g) /\
    (h_chunks g <> [] -> sizes_valid (h_sizes g) = true) /\ h_inverse g = iso_inverse (h_origin g)).
Proof.
  intros SV buf off v n Hb Hf E0 Ho. revert E0. unfold DeserializeHGrid. cbv zeta. assert (Hf' := Hf). unfold fits_vector in Hf'.
  pose proof (inside_yields _ (fixed_inside 16 ltac:(lia) ltac:(reflexivity))) as YX. pose proof (inside_yields _ SV) as YT.
  assert (YU : yields (DeserializeMemcpyable (uint_rep le 1)) (fun _ => True)) by (apply inside_yields, memcpyable_inside; cbn; [lia|pows; lia]).
  pose proof (map_yields false le region_eqb _ _ _ _ region_yields (chunk_yields des SV)) as YM.
  destruct (DeserializeFixed 16 buf off) as [[o k1]| | |] eqn:E1; cbn [bind fst snd]; try discriminate. destruct (YX _ _ _ _ Hb Hf E1 Ho) as (A1 & A2 & _).
  rewrite wrap_eq by (pows; lia).
  destruct (des buf (off + k1)) as [[d k2]| | |] eqn:E2; cbn [bind fst snd]; try discriminate. destruct (YT _ _ _ _ Hb Hf E2 ltac:(pows; lia)) as (B1 & B2 & _).
  rewrite wrap_eq by (pows; lia).
  destruct (DeserializeGridSizes le (double_rep le) buf (off + k1 + k2)) as [[s k3]| | |] eqn:E3; cbn [bind fst snd]; try discriminate. destruct (sizes_yields _ _ _ _ Hb Hf E3 ltac:(pows; lia)) as (C1 & C2 & _).
  rewrite wrap_eq by (pows; lia).
  destruct (DeserializeMapLike false le region_eqb (DeserializeRegion le) (DeserializeChunk le max_size des) buf (off + k1 + k2 + k3)) as [[m k4]| | |] eqn:E4; cbn [bind fst snd]; try discriminate.
  destruct (YM _ _ _ _ Hb Hf E4 ltac:(pows; lia)) as (D1 & D2 & D3 & D4).
  rewrite wrap_eq by (pows; lia).
  destruct (DeserializeMemcpyable (uint_rep le 1) buf (off + k1 + k2 + k3 + k4)) as [[f k5]| | |] eqn:E5; cbn [bind fst snd]; try discriminate. destruct (YU _ _ _ _ Hb Hf E5 ltac:(pows; lia)) as (F1 & F2 & _).
  rewrite wrap_eq by (pows; lia).
  destruct (Bool.eqb (sizes_valid s) (negb (f =? 0))) eqn:EV; cbn [negb]; [|discriminate]. apply eqb_prop in EV.
  destruct ((0 <? length m)%nat && negb (sizes_valid s))%bool eqn:EC; [discriminate|].
  rewrite sub64_eq by (pows; lia). rewrite make_ok by lia. intros H. injection H as <- <-. cbn [h_chunks h_sizes h_initialized h_inverse h_origin].
  split; [lia|]. split; [lia|]. repeat split; auto.
  - intros r c I. rewrite Forall_forall in D3. apply (D3 _ I).
  - intros N. destruct m as [|q m]; [congruence|]. cbn in EC. destruct (sizes_valid s); [reflexivity|discriminate].
Qed.
End G.
End C.
End S.

(** ** The order of the map does not matter *)
Section Order.
Context {T : Type}.
Notation chunk := (@chunk T).
Lemma one_per_perm (m m' : list (region * chunk)) : Permutation m m' -> one_per_region m -> one_per_region m'.
Proof.
  unfold one_per_region. intros P. induction P as [|x l l' P IH|x y l|l l' l'' P1 IH1 P2 IH2]; intros A; auto.
  - inversion A as [|? ? F A']; subst. constructor; [|apply IH; exact A']. eapply Permutation_Forall; eassumption.
  - inversion A as [|? ? F A']; subst. inversion A' as [|? ? F' A'']; subst. inversion F as [|? ? E F'']; subst.
    constructor; [constructor; [rewrite region_sym; exact E|exact F']|]. constructor; assumption.
Qed.
Lemma find_perm (m m' : list (region * chunk)) r : Permutation m m' -> one_per_region m -> find_chunk m r = find_chunk m' r.
Proof.
  intros P. induction P as [|x l l' P IH|x y l|l l' l'' P1 IH1 P2 IH2]; intros A; [reflexivity| | |].
  - inversion A as [|? ? F A']; subst. unfold find_chunk in *. cbn [find]. destruct (region_eqb (fst x) r); [reflexivity|]. apply IH, A'.
  - inversion A as [|? ? F A']; subst. inversion F as [|? ? E F'']; subst. unfold find_chunk. cbn [find].
    destruct (region_eqb (fst x) r) eqn:Ex, (region_eqb (fst y) r) eqn:Ey; try reflexivity.
    rewrite region_sym in Ex. rewrite (region_trans _ _ _ Ey Ex) in E. discriminate.
  - rewrite IH1 by exact A. apply IH2. eapply one_per_perm; eassumption.
Qed.
End Order.

(** ** Grids reachable through the interface *)
Local Open Scope Z_scope.
Section R.
Context {T User Iso : Type}.
Variable iso_inverse : Iso -> Iso.
Variable iso_apply : Iso -> vec4 -> vec4.
Variable on_access : User -> vec4 -> User * bool.
Notation hgrid := (@hgrid T User Iso).
Notation chunk := (@chunk T).
Variable s : GridSizes.
Hypothesis G : good s.

Definition chunk_wf (c : chunk) : Prop := c_sizes c = s /\ c_fill c <> NOT_FILLED /\ right_amount c.
Record hwf (g : hgrid) : Prop := mkHWf {
  hw_sizes : h_sizes g = s; hw_init : h_initialized g = true; hw_inv : h_inverse g = iso_inverse (h_origin g);
  hw_apart : one_per_region (h_chunks g); hw_chunks : Forall (fun e => chunk_wf (snd e)) (h_chunks g) }.

Lemma cell_filled_wf (c : chunk) v c' : c_sizes c = s -> SetCellFilledContents c v = Ok c' -> chunk_wf c'.
Proof.
  intros E. unfold SetCellFilledContents. rewrite E, total_cells by exact G. cbn [bind]. intros H. injection H as <-.
  split; [reflexivity|]. split; [discriminate|]. unfold right_amount. cbn. rewrite repeat_length. pose proof (volume_nonneg s G) as V. unfold volume in *. rewrite Z2Nat.id by lia. reflexivity.
Qed.
Lemma chunk_filled_wf (c : chunk) v : c_sizes c = s -> chunk_wf (SetChunkFilledContents c v).
Proof. intros E. split; [exact E|]. split; [discriminate|reflexivity]. Qed.
Lemma raw_set_length {A} (l : list A) i v l' : raw_set l i v = Ok l' -> length l' = length l.
Proof.
  unfold raw_set. intros H. assert (X : forall (l : list A) i l', set_nth l i v = Some l' -> length l' = length l).
  { clear. induction l as [|x l IH]; intros [|i] l'; cbn; try discriminate; [intros H; injection H as <-; reflexivity|].
    destruct (set_nth l i v) eqn:E; [|discriminate]. intros H. injection H as <-. cbn. rewrite (IH _ _ E). reflexivity. }
  destruct (set_nth l i v) eqn:E; [|discriminate]. injection H as <-. apply (X _ _ _ E).
Qed.
Lemma assign_wf (c : chunk) i v c' : chunk_wf c -> chunk_assign c i v = Ok c' -> chunk_wf c'.
Proof.
  intros (A & B & C). unfold chunk_assign. destruct (_ && _); [|discriminate]. destruct (raw_set _ _ _) as [d| | |] eqn:E; cbn [bind]; try discriminate.
  intros H. injection H as <-. split; [exact A|]. split; [exact B|]. apply raw_set_length in E.
  unfold right_amount in *. cbn [c_fill c_data c_sizes]. destruct (c_fill c); [congruence|congruence|congruence].
Qed.
Lemma set_cell_wf (c : chunk) l v : chunk_wf c -> chunk_wf (fst (chunk_set_cell c l v)).
Proof.
  intros W. unfold chunk_set_cell.
  assert (X : forall c1, match c_fill c with CHUNK_FILLED => do init <- chunk_get c 0; SetCellFilledContents c init | _ => Ok c end = Ok c1 -> chunk_wf c1).
  { intros c1. destruct (c_fill c); try (intros H; injection H as <-; exact W).
    destruct (chunk_get c 0) as [i| | |]; cbn [bind]; try discriminate. apply cell_filled_wf. apply W. }
  destruct (match c_fill c with CHUNK_FILLED => _ | _ => _ end) as [c1| | |]; try exact W. specialize (X c1 eq_refl).
  destruct (c_fill c1); try exact X. destruct (GetLocationDataIndex _ _ _); try exact X. destruct (0 <=? a); try exact X.
  destruct (chunk_assign c1 a v) as [c2| | |] eqn:E; try exact X. exact (assign_wf _ _ _ _ X E).
Qed.
Lemma set_value_wf (c : chunk) v : chunk_wf c -> chunk_wf (fst (chunk_set_value c v)).
Proof. intros W. unfold chunk_set_value. destruct (c_fill c); try exact W; apply chunk_filled_wf, W. Qed.

Lemma put_keys (m : list (region * chunk)) r c : map fst (put_chunk m r c) = map fst m.
Proof. induction m as [|e m IH]; [reflexivity|]. cbn. destruct (region_eqb (fst e) r); cbn; [reflexivity|]. rewrite IH. reflexivity. Qed.
Lemma apart_keys (m m' : list (region * chunk)) : map fst m = map fst m' -> one_per_region m -> one_per_region m'.
Proof.
  intros E A. revert m' E. induction A as [|a m F A IH]; intros [|b m'] E; try discriminate; [constructor|].
  cbn in E. injection E as E1 E2. constructor; [|apply IH; exact E2]. rewrite Forall_forall in *. intros x I.
  apply (in_map fst) in I. rewrite <- E2 in I. apply in_map_iff in I. destruct I as (y & Ey & I). rewrite <- E1, <- Ey. apply F, I.
Qed.
Lemma put_wf g r c : hwf g -> chunk_wf c -> hwf (h_with_chunks g (put_chunk (h_chunks g) r c)).
Proof.
  intros [A B C D E] W. constructor; cbn [h_with_chunks h_sizes h_initialized h_inverse h_origin h_chunks]; auto.
  - eapply apart_keys; [symmetry; apply put_keys|exact D].
  - clear D. induction (h_chunks g) as [|e m IH]; [constructor|]. inversion E as [|? ? E1 E2]; subst. cbn. destruct (region_eqb (fst e) r); constructor; auto.
Qed.
Lemma find_in (m : list (region * chunk)) r c : find_chunk m r = Some c -> exists k, In (k, c) m.
Proof. unfold find_chunk. destruct (find _ m) as [[k c']|] eqn:F; [|discriminate]. intros H. injection H as <-. apply find_some in F. exists k. apply F. Qed.
Lemma find_wf g r c : hwf g -> find_chunk (h_chunks g) r = Some c -> chunk_wf c.
Proof. intros W F. apply find_in in F. destruct F as (k & I). pose proof (hw_chunks _ W) as H. rewrite Forall_forall in H. apply (H _ I). Qed.
Lemma alloc_wf g r t g' : hwf g -> AllocateChunkAt g r t = Ok g' -> hwf g'.
Proof.
  intros [A B C D E] H. unfold AllocateChunkAt in H. apply bind_ok in H. destruct H as (c & Hc & H).
  destruct (find_chunk (h_chunks g) r) eqn:F; [discriminate|]. injection H as <-.
  assert (W : chunk_wf c).
  { unfold new_chunk in Hc. rewrite A in Hc. destruct (sizes_valid s); [|discriminate]. destruct t; [injection Hc as <-; apply chunk_filled_wf; reflexivity|].
    eapply cell_filled_wf; [|exact Hc]. reflexivity. }
  constructor; cbn [h_with_chunks h_sizes h_initialized h_inverse h_origin h_chunks]; auto.
  - apply apart_snoc; [exact D|]. intros x I. cbn [fst]. unfold find_chunk in F. destruct (find _ (h_chunks g)) eqn:Q; [discriminate|]. apply (find_none _ _ Q x I).
  - apply Forall_app. split; [exact E|]. repeat constructor. all: apply W.
Qed.
Lemma user_wf g u : hwf g -> hwf (h_with_user g u).
Proof. intros [A B C D E]. constructor; assumption. Qed.
Lemma set_wf fuel : forall g l t v, hwf g -> hwf (fst (HSetLocation4d iso_apply on_access fuel g l t v)).
Proof.
  induction fuel as [|fuel IH]; intros g l t v W; cbn [HSetLocation4d]; [exact W|].
  destruct (on_access (h_user g) (iso_apply (h_inverse g) l)) as [u []]; [|apply user_wf, W]. pose proof (user_wf g u W) as W1.
  destruct (GetContainingChunkRegion _ _) as [r| | |]; try exact W1. destruct (find_chunk (h_chunks (h_with_user g u)) r) as [c|] eqn:F.
  - pose proof (find_wf _ _ _ W1 F) as Wc. destruct t.
    + pose proof (set_value_wf c v Wc) as X. destruct (chunk_set_value c v) as [c' res]. apply put_wf; [exact W1|exact X].
    + pose proof (set_cell_wf c (iso_apply (h_inverse g) l) v Wc) as X. destruct (chunk_set_cell c (iso_apply (h_inverse g) l) v) as [c' res]. apply put_wf; [exact W1|exact X].
  - destruct (AllocateChunkAt (h_with_user g u) r t) as [g2| | |] eqn:EA; try exact W1. apply IH. eapply alloc_wf; eassumption.
Qed.
Lemma assign_loc_wf g l v : hwf g -> hwf (fst (HAssignLocation4d iso_apply on_access g l v)).
Proof.
  intros W. unfold HAssignLocation4d. destruct (GetContainingChunkRegion _ _) as [r| | |]; try exact W. destruct (find_chunk (h_chunks g) r) as [c|] eqn:F; [|exact W].
  destruct (on_access _ _) as [u []]; [|apply user_wf, W]. pose proof (user_wf g u W) as W1. destruct (chunk_find_location c _) as [[st i]| | |]; try exact W1.
  destruct (chunk_assign c i v) as [c'| | |] eqn:E; try exact W1. apply put_wf; [exact W1|]. eapply assign_wf; [|exact E]. eapply find_wf; eassumption.
Qed.
Lemma perform_wf g c g' rep : hwf g -> hperform iso_inverse iso_apply on_access g c = (g', rep) -> hwf g'.
Proof.
  intros W H. assert (g' = fst (hperform iso_inverse iso_apply on_access g c)) as -> by (rewrite H; reflexivity). clear H.
  assert (X : forall B (x : hgrid * outcome B) k, hwf (fst x) -> hwf (fst (settle g x k))).
  { intros B x k Wx. unfold settle. destruct (snd x); cbn; assumption. }
  destruct c as [l t v|l v|v|o]; cbn [hperform].
  - apply X, set_wf, W.
  - apply X, assign_loc_wf, W.
  - destruct W as [A B C D E]. constructor; assumption.
  - destruct W as [A B C D E]. constructor; auto.
Qed.
Lemma performs_wf cs : forall g g' h, hwf g -> hperform_all iso_inverse iso_apply on_access g cs = (g', h) -> hwf g'.
Proof.
  induction cs as [|c r IH]; cbn [hperform_all]; intros g g' h W H; [injection H as <- _; exact W|].
  destruct (hperform iso_inverse iso_apply on_access g c) as [g1 rep] eqn:E. destruct (hperform_all iso_inverse iso_apply on_access g1 r) as [g2 h2] eqn:E2.
  injection H as <- _. eapply IH; [|exact E2]. eapply perform_wf; eassumption.
Qed.
Lemma reachable_wf g : reachable_hgrid iso_inverse iso_apply s on_access g -> hwf g.
Proof.
  intros (u & o & def & cs & g0 & h & N & P). eapply performs_wf; [|exact P]. unfold new_hgrid in N. destruct (sizes_valid s); [|discriminate].
  injection N as <-. constructor; cbn; auto; constructor.
Qed.
End R.

Section Final.
Context {T Iso : Type}.
Variable iso_inverse : Iso -> Iso.
Variable iso_apply : Iso -> vec4 -> vec4.
Variable on_access : unit -> vec4 -> unit * bool.

Lemma reachable_hgrid_ok s iso_to iso_of max_size (dom : T -> Prop) (g : @hgrid T unit Iso) order :
  made_sizes s -> reachable_hgrid iso_inverse iso_apply s on_access g ->
  0 < num_x_cells s -> 0 < num_y_cells s -> 0 < num_z_cells s ->
  every_value dom g -> (forall r c, In (r, c) (h_chunks g) -> (len64 (c_data c) <= max_size)%N) -> (len64 (h_chunks g) < 2 ^ 64)%N ->
  Permutation (h_chunks g) order ->
  length (iso_to (h_origin g)) = 128%nat -> is_bytes (iso_to (h_origin g)) -> iso_of (iso_to (h_origin g)) = h_origin g ->
  hgrid_ok max_size iso_to iso_of iso_inverse dom (h_with_chunks g order).
Proof.
  intros M R Px Py Pz [D1 D2] Ln Lc P X1 X2 X3. pose proof (made_good _ M) as G. destruct (reachable_wf iso_inverse iso_apply on_access s G g R) as [A B C D E].
  pose proof (made_rebuilds s M Px Py Pz) as RB. pose proof (g_valid s G) as GV.
  constructor; cbn [h_with_chunks h_sizes h_initialized h_inverse h_origin h_chunks h_default]; auto; try congruence.
  split; [|split; [|eapply one_per_perm; eassumption]].
  - rewrite Forall_forall. intros [r c] I. split; [exact Logic.I|]. cbn [snd]. apply Permutation_sym in P. apply (Permutation_in _ P) in I.
    rewrite Forall_forall in E. destruct (E _ I) as (W1 & W2 & W3). cbn [snd] in *. split; [rewrite W1; exact RB|]. split.
    + split; [rewrite Forall_forall; intros v Iv; eapply D2; eassumption|]. split; [|eapply Ln; eassumption].
      unfold right_amount in W3. unfold len64. destruct (c_fill c); [rewrite W3; reflexivity|rewrite W3; reflexivity|].
      rewrite W1 in W3. pose proof (volume_max s G) as V. unfold volume in V. unfold int64_max in *. rewrite p64. lia.
    + unfold right_amount in W3. destruct (c_fill c); [rewrite W3; reflexivity|exact W3|]. rewrite W1 in *. rewrite total_cells by exact G. f_equal. symmetry. exact W3.
  - unfold len64 in *. rewrite <- (Permutation_length P). exact Lc.
Qed.

Lemma hashed_round_trip le s iso_to iso_of max_size (ser : Serializer T) des dom (g : @hgrid T unit Iso) order before after :
  round_trips ser des dom ->
  made_sizes s -> reachable_hgrid iso_inverse iso_apply s on_access g ->
  0 < num_x_cells s -> 0 < num_y_cells s -> 0 < num_z_cells s ->
  every_value dom g -> (forall r c, In (r, c) (h_chunks g) -> (len64 (c_data c) <= max_size)%N) -> (len64 (h_chunks g) < 2 ^ 64)%N ->
  Permutation (h_chunks g) order ->
  length (iso_to (h_origin g)) = 128%nat -> is_bytes (iso_to (h_origin g)) -> iso_of (iso_to (h_origin g)) = h_origin g ->
  fits_vector (snd (SerializeHGrid le iso_to ser order g before) ++ after) ->
  DeserializeHGrid le iso_of iso_inverse max_size des (snd (SerializeHGrid le iso_to ser order g before) ++ after) (len64 before)
    = Ok (h_with_chunks g order, fst (SerializeHGrid le iso_to ser order g before)) /\
  forall l, HGetLocationImmutable4d iso_apply (h_with_chunks g order) l = HGetLocationImmutable4d iso_apply g l.
Proof.
  intros RT M R Px Py Pz D Ln Lc P X1 X2 X3 Hf.
  pose proof (reachable_hgrid_ok s iso_to iso_of max_size dom g order M R Px Py Pz D Ln Lc P X1 X2 X3) as Hok.
  destruct (rt_hgrid le max_size iso_to iso_of iso_inverse ser des dom RT) as (enc & Ha & Hr & Hn).
  pose proof (Ha (h_with_chunks g order) before Hok) as [E1 E2].
  change (SerializeHGrid le iso_to ser (h_chunks (h_with_chunks g order)) (h_with_chunks g order) before) with (SerializeHGrid le iso_to ser order g before) in E1, E2.
  rewrite E1 in *. split.
  - rewrite <- app_assoc in *. rewrite Hr by assumption. rewrite E2; [reflexivity|].
    unfold fits_vector in *. rewrite !len64_app in *. lia.
  - intros l. unfold HGetLocationImmutable4d. cbn [h_with_chunks h_inverse h_sizes h_chunks].
    destruct (GetContainingChunkRegion _ _) as [r| | |]; cbn [bind]; try reflexivity.
    rewrite (find_perm (h_chunks g) order r P); [reflexivity|]. apply (hw_apart _ _ _ (reachable_wf iso_inverse iso_apply on_access s (made_good _ M) g R)).
Qed.
End Final.
