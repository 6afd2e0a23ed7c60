(** Serialization of RRT trees (C82). *)
From Verif Require Import Base Effect SerializationModel SerializationSpec SerializationProof SerializationProof2
  ParallelismModel GraphModel GraphSpec GraphProof2 RrtModel RrtSpec RrtProof RrtCheck.
Local Open Scope N_scope.

Section Ser.
Context {S : Type}.
Notation tree := (list (rrt_node S)).
Ltac asc := rewrite <- ?app_assoc; reflexivity.

Lemma rt_rrt_node le maxc (sv : Serializer S) dv domv : round_trips sv dv domv ->
  round_trips (SerializeRrtNode le sv) (DeserializeRrtNode le maxc dv) (tree_node_ok maxc domv).
Proof.
  intros (encv & Hav & Hrv & Hnv).
  destruct (rt_memvec le maxc _ _ (int64_lawful le)) as (ence & Hae & Hre & Hne).
  destruct (rt_memcpyable _ _ (int64_lawful le)) as (enci & Hai & Hri & Hni).
  eapply (rt_intro _ _ (fun n => encv (state_value n) ++ ence (child_indices n) ++ enci (parent_index n)) _
            (tree_node_ok maxc domv) (tree_node_ok maxc domv)).
  - apply written_appends. intros n buf (H1 & H2 & H3). unfold SerializeRrtNode. cbv zeta.
    rewrite (app_snd _ _ _ _ _ Hav H1), (app_snd _ _ _ _ _ Hae H3), (app_snd _ _ _ _ _ Hai H2).
    f_equal. asc.
  - intros n pre post (H1 & H2 & H3) Hf. unfold DeserializeRrtNode.
    set (a := encv (state_value n)) in *. set (b := ence (child_indices n)) in *. set (c := enci (parent_index n)) in *.
    set (buf := pre ++ (a ++ b ++ c) ++ post) in *.
    assert (len64 pre + (len64 a + len64 b + len64 c) < 2 ^ 63) as LB.
    { unfold fits_vector, buf in Hf. rewrite !len64_app in Hf. lia. }
    assert (0 < len64 a) as La. { destruct (Hnv _ H1) as [Hx _]. fold a in Hx. unfold len64. destruct a; [congruence|cbn; lia]. }
    pows.
    rewrite (reads_at _ _ _ (state_value n) buf (len64 pre) pre (b ++ c ++ post) Hrv); auto; [|unfold buf; fold a; asc].
    cbn [bind]. fold a. rewrite wrap_eq by (pows; lia).
    rewrite (reads_at _ _ _ (child_indices n) buf _ (pre ++ a) (c ++ post) Hre); auto;
      [|unfold buf; fold b; asc|rewrite len64_app; reflexivity].
    cbn [bind]. fold b. rewrite wrap_eq by (pows; lia).
    rewrite (reads_at _ _ _ (parent_index n) buf _ (pre ++ a ++ b) post Hri); auto;
      [|unfold buf; fold c; asc|rewrite !len64_app; lia].
    cbn [bind]. fold c. rewrite wrap_eq by (pows; lia). rewrite sub64_eq by (pows; lia).
    replace (len64 pre + len64 a + len64 b + len64 c - len64 pre)
      with (len64 (a ++ b ++ c)) by (rewrite !len64_app; lia).
    rewrite make_ok by (rewrite !len64_app; lia). destruct n; reflexivity.
  - intros n H. split; [exact H|]. split; [exact H|]. destruct H as (H1 & H2 & H3).
    destruct (Hnv _ H1) as (A1 & A2). destruct (Hne _ H3) as (B1 & B2). destruct (Hni _ H2) as (C1 & C2).
    split.
    + intros E. apply app_eq_nil in E as [E _]. auto.
    + rewrite !is_bytes_app. auto.
Qed.

Lemma tree_serialization le maxn maxc (sv : Serializer S) dv domv (t : tree) before after :
  round_trips sv dv domv -> tree_ok maxn maxc domv t ->
  fits_vector (snd (SerializeTree le sv t before) ++ after) ->
  (exists bytes, bytes <> [] /\ snd (SerializeTree le sv t before) = before ++ bytes /\
     fst (SerializeTree le sv t before) = len64 bytes) /\
  (linked_tree t ->
     DeserializeTree le maxn maxc dv (snd (SerializeTree le sv t before) ++ after) (len64 before)
     = Ok (t, fst (SerializeTree le sv t before))) /\
  (~ linked_tree t ->
     DeserializeTree le maxn maxc dv (snd (SerializeTree le sv t before) ++ after) (len64 before)
     = Throw InvalidArgument).
Proof.
  intros Hv Ht Hf. pose proof (rt_vector false le maxn _ _ _ (rt_rrt_node le maxc sv dv domv Hv)) as RV.
  unfold SerializeTree in *.
  destruct (rt_at _ _ _ t before after RV Ht Hf) as ((bytes & Hb1 & Hb2 & Hb3) & RD).
  split; [exists bytes; auto|]. unfold DeserializeTree. rewrite RD. cbn [bind].
  destruct (make_tree_exact t) as [[L ->]|[L ->]]; cbn [bind]; (split; [intros C|intros C]); try contradiction; try reflexivity.
  rewrite Hb3. apply make_ok. unfold len64. destruct bytes; [congruence|cbn; lia].
Qed.

Lemma tree_hostile le maxn maxc (dv : Deserializer S) buf off :
  stays_inside dv -> 8 * maxc < 2 ^ 63 -> is_bytes buf -> fits_vector buf -> off < 2 ^ 64 ->
  (exists e, DeserializeTree le maxn maxc dv buf off = Throw e) \/
  (exists t n, DeserializeTree le maxn maxc dv buf off = Ok (t, n) /\ linked_tree t /\
     0 < n /\ off + n <= len64 buf).
Proof.
  intros SV MC Hb Hf Ho.
  assert (SN : stays_inside (DeserializeRrtNode le maxc dv)).
  { clear buf off Hb Hf Ho. intros buf off Hb Hf Ho. unfold DeserializeRrtNode. assert (Hf' := Hf). unfold fits_vector in Hf'.
    assert (SI : stays_inside (DeserializeMemcpyable (int64_rep le))) by (apply memcpyable_inside; cbn; [lia|pows; lia]).
    assert (SE : stays_inside (DeserializeMemcpyableVectorLike le maxc (int64_rep le))) by (apply memvec_inside; cbn; [lia|pows; lia]).
    pows.
    destruct (SV buf off Hb Hf Ho) as [(e & ->)|(f & n1 & -> & P1 & Q1)]; [left; cbn; eauto|]. cbn [bind].
    rewrite wrap_eq by (pows; lia).
    destruct (SE buf (off + n1)%N Hb Hf ltac:(pows; lia)) as [(e & ->)|(t & n2 & -> & P2 & Q2)]; [left; cbn; eauto|]. cbn [bind].
    rewrite wrap_eq by (pows; lia).
    destruct (SI buf (off + n1 + n2)%N Hb Hf ltac:(pows; lia)) as [(e & ->)|(w & n3 & -> & P3 & Q3)]; [left; cbn; eauto|]. cbn [bind].
    rewrite wrap_eq by (pows; lia). rewrite sub64_eq by (pows; lia). rewrite make_ok by lia.
    right. do 2 eexists. split; [reflexivity|]. lia. }
  pose proof (vector_inside false le maxn _ SN) as SE. unfold DeserializeTree.
  destruct (SE buf off Hb Hf Ho) as [(e & ->)|(t & n & -> & P1 & Q1)]; [left; cbn; eauto|]. cbn [bind].
  destruct (make_tree_exact t) as [[L ->]|[L ->]]; cbn [bind]; [|left; eauto].
  right. exists t, n. rewrite make_ok by exact P1. auto.
Qed.
End Ser.
