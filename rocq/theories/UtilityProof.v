(** Proofs for the utility functions. *)
From Coq Require Import Reals Lra Lia ZArith Permutation.
From Flocq Require Import Core BinarySingleNaN.
From Verif Require Import Base ParallelismModel Double DoubleFacts VoxelModel VoxelFloat UtilityModel UtilitySpec.
Local Open Scope Z_scope.

(** ** Collections *)
Section C.
Context {T : Type}.
Variable ltb : T -> T -> bool.
Hypothesis SWO : strict_weak_order ltb.
Notation eqv := (equivalent ltb).
Notation occ := (occurrences ltb).

Lemma eqv_refl a : eqv a a = true.
Proof. unfold equivalent. rewrite (swo_irr _ SWO). reflexivity. Qed.
Lemma eqv_sym a b : eqv a b = eqv b a.
Proof. unfold equivalent. apply andb_comm. Qed.
Lemma eqv_inv a b : eqv a b = true -> ltb a b = false /\ ltb b a = false.
Proof. unfold equivalent. rewrite andb_true_iff, !negb_true_iff. auto. Qed.
Lemma eqv_trans a b c : eqv a b = true -> eqv b c = true -> eqv a c = true.
Proof.
  intros H1 H2. apply eqv_inv in H1. apply eqv_inv in H2. destruct (swo_incomp _ SWO a b c) as [A B]; try tauto.
  unfold equivalent. rewrite A, B. reflexivity.
Qed.
Lemma eqv_l a b c : eqv a b = true -> eqv a c = eqv b c.
Proof.
  intros H. destruct (eqv b c) eqn:E; [eapply eqv_trans; eauto|].
  destruct (eqv a c) eqn:E2; [|reflexivity]. rewrite <- E. rewrite eqv_sym in H. symmetry. eapply eqv_trans; eauto.
Qed.

Definition distinct (m : list (T * nat)) : Prop := ForallOrdPairs (fun a b => eqv (fst a) (fst b) = false) m.
Definition cnt_of (o : option nat) : nat := match o with Some n => n | None => 0%nat end.

Lemma find_count_cons k n m x : find_count ltb ((k, n) :: m) x = if eqv k x then Some n else find_count ltb m x.
Proof. unfold find_count. cbn [find fst]. destruct (eqv k x); reflexivity. Qed.

Lemma find_increment m k x : find_count ltb (increment ltb m k) x =
  if eqv k x then Some (S (cnt_of (find_count ltb m k))) else find_count ltb m x.
Proof.
  induction m as [|[k' n] m IH]; cbn [increment].
  - rewrite find_count_cons. reflexivity.
  - destruct (eqv k' k) eqn:E; rewrite !find_count_cons.
    + rewrite E, (eqv_l _ _ x E). destruct (eqv k x); reflexivity.
    + rewrite IH, E. destruct (eqv k' x) eqn:E1, (eqv k x) eqn:E2; try reflexivity.
      exfalso. rewrite eqv_sym in E2. rewrite (eqv_trans _ _ _ E1 E2) in E. discriminate.
Qed.

Lemma increment_keys m k e : In e (increment ltb m k) -> eqv (fst e) k = true \/ exists n, In (fst e, n) m.
Proof.
  induction m as [|[k' n] m IH]; cbn [increment].
  - intros [<- |[]]. left. apply eqv_refl.
  - destruct (eqv k' k) eqn:E; intros [<- |H].
    + left. exact E.
    + right. exists (snd e). right. destruct e; exact H.
    + right. exists n. left. reflexivity.
    + apply IH in H. destruct H as [H|[j H]]; [left; exact H|right; exists j; right; exact H].
Qed.

Lemma increment_distinct m k : distinct m -> distinct (increment ltb m k).
Proof.
  induction 1 as [|[k' n] m H1 H2 IH]; cbn [increment].
  - constructor; constructor.
  - destruct (eqv k' k) eqn:E; constructor; auto.
    apply Forall_forall. intros e He. apply increment_keys in He. cbn [fst] in *. destruct He as [He|[j He]].
    + destruct (eqv k' (fst e)) eqn:E2; [|reflexivity]. rewrite (eqv_trans _ _ _ E2 He) in E. discriminate.
    + rewrite Forall_forall in H1. apply (H1 _ He).
Qed.

Definition occ_opt (n : nat) : option nat := match n with O => None | S _ => Some n end.

Lemma occ_cons x y l : occ x (y :: l) = if eqv x y then S (occ x l) else occ x l.
Proof.
  unfold occurrences. cbn [filter]. change (negb (ltb x y) && negb (ltb y x)) with (eqv x y). destruct (eqv x y); reflexivity.
Qed.
Lemma occ_app x a b : occ x (a ++ b) = (occ x a + occ x b)%nat.
Proof. unfold occurrences. rewrite filter_app, app_length. reflexivity. Qed.
Lemma occ_eqv x y l : eqv x y = true -> occ x l = occ y l.
Proof.
  intros H. induction l as [|z l IH]; [reflexivity|]. rewrite !occ_cons, (eqv_l _ _ z H), IH. reflexivity.
Qed.

Lemma count_members_snoc l x : count_members ltb (l ++ [x]) = increment ltb (count_members ltb l) x.
Proof. unfold count_members. rewrite fold_left_app. reflexivity. Qed.

Lemma count_spec l : distinct (count_members ltb l) /\ forall x, find_count ltb (count_members ltb l) x = occ_opt (occ x l).
Proof.
  induction l as [|y l [IH1 IH2]] using rev_ind.
  - split; [constructor|reflexivity].
  - rewrite count_members_snoc. split; [apply increment_distinct, IH1|]. intros x. rewrite find_increment, !IH2, occ_app.
    rewrite occ_cons. change (occ x []) with 0%nat. rewrite (eqv_sym x y). destruct (eqv y x) eqn:E.
    + rewrite (occ_eqv _ _ l E). replace (occ x l + 1)%nat with (S (occ x l)) by lia. cbn [occ_opt].
      destruct (occ x l); reflexivity.
    + rewrite Nat.add_0_r. reflexivity.
Qed.

Lemma find_distinct m k n : distinct m -> In (k, n) m -> find_count ltb m k = Some n.
Proof.
  induction 1 as [|[k' n'] m H1 H2 IH]; intros H; [destruct H|]. rewrite find_count_cons. destruct H as [E|H].
  - injection E as -> ->. rewrite eqv_refl. reflexivity.
  - rewrite Forall_forall in H1. specialize (H1 _ H). cbn [fst] in H1. rewrite H1. apply IH, H.
Qed.

Lemma find_some_in m k n : find_count ltb m k = Some n -> exists k', In (k', n) m /\ eqv k' k = true.
Proof.
  unfold find_count. destruct (find _ m) as [[k' n']|] eqn:E; [|discriminate]. intros H. injection H as <-.
  apply find_some in E. destruct E as [A B]. eauto.
Qed.

Lemma in_members l k n : In (k, n) (count_members ltb l) -> n = occ k l /\ (0 < occ k l)%nat.
Proof.
  intros H. destruct (count_spec l) as [D F]. apply (find_distinct _ _ _ D) in H. rewrite F in H.
  destruct (occ k l); [discriminate|]. injection H as <-. lia.
Qed.

Lemma members_all l x : (0 < occ x l)%nat -> exists k, In (k, occ x l) (count_members ltb l) /\ eqv k x = true.
Proof.
  intros H. destruct (count_spec l) as [D F]. specialize (F x). destruct (occ x l) as [|n] eqn:E; [lia|].
  apply find_some_in in F. exact F.
Qed.

(** Pigeonhole on keys. *)
Lemma keys_le m1 : forall m2 : list (T * nat), distinct m1 ->
  (forall e, In e m1 -> exists e', In e' m2 /\ eqv (fst e') (fst e) = true) -> (length m1 <= length m2)%nat.
Proof.
  induction m1 as [|e m1 IH]; intros m2 D H; [simpl; lia|]. inversion D as [|? ? H1 H2]; subst.
  destruct (H e (or_introl eq_refl)) as (e' & I1 & I2). apply in_split in I1. destruct I1 as (a & b & ->).
  rewrite app_length. cbn [length]. assert (length m1 <= length (a ++ b))%nat; [|rewrite app_length in *; lia].
  apply IH; [exact H2|]. intros f Hf. destruct (H f (or_intror Hf)) as (f' & J1 & J2). exists f'. split; [|exact J2].
  apply in_app_iff in J1. apply in_app_iff. destruct J1 as [J1|[J1|J1]]; auto. subst f'. exfalso.
  rewrite Forall_forall in H1. specialize (H1 f Hf). cbn [fst] in *.
  rewrite eqv_sym in I2. rewrite (eqv_trans _ _ _ I2 J2) in H1. discriminate.
Qed.

Lemma subset_loop_iff cand m : subset_loop ltb cand m = true <->
  forall k n, In (k, n) cand -> exists c, find_count ltb m k = Some c /\ (n <= c)%nat.
Proof.
  induction cand as [|[k n] r IH]; cbn [subset_loop].
  - split; [intros _ k n []|reflexivity].
  - destruct (find_count ltb m k) as [c|] eqn:E.
    + destruct (Nat.ltb_spec c n) as [L|L].
      * split; [discriminate|]. intros H. destruct (H k n (or_introl eq_refl)) as (c' & E' & L'). rewrite E in E'. injection E' as <-. lia.
      * rewrite IH. split; intros H k0 n0; [intros [I|I]; [injection I as <- <-; eauto|eauto]|intros I; apply H; right; exact I].
    + split; [discriminate|]. intros H. destruct (H k n (or_introl eq_refl)) as (c' & E' & L'). congruence.
Qed.

Lemma is_subset set cand : IsSubset ltb set cand = true <-> forall x, (occ x cand <= occ x set)%nat.
Proof.
  unfold IsSubset. cbv zeta. destruct (count_spec set) as [D1 F1]. destruct (count_spec cand) as [D2 F2].
  assert (L : subset_loop ltb (count_members ltb cand) (count_members ltb set) = true <-> forall x, (occ x cand <= occ x set)%nat).
  { rewrite subset_loop_iff. split.
    - intros H x. destruct (occ x cand) as [|n] eqn:E; [lia|].
      destruct (members_all cand x) as (k & I & Q); [lia|]. destruct (H _ _ I) as (c & Ec & Lc). rewrite F1 in Ec.
      rewrite (occ_eqv _ _ set Q) in Ec. destruct (occ x set); [discriminate|]. injection Ec as <-. lia.
    - intros H k n I. destruct (in_members cand k n I) as [-> P]. exists (occ k set). split; [|apply H].
      rewrite F1. specialize (H k). destruct (occ k set); [lia|reflexivity]. }
  destruct (Nat.ltb_spec (length (count_members ltb set)) (length (count_members ltb cand))) as [LT|LT]; [|exact L].
  split; [discriminate|]. intros H. exfalso.
  assert (length (count_members ltb cand) <= length (count_members ltb set))%nat; [|lia].
  apply keys_le; [exact D2|]. intros [k n] I. destruct (in_members cand k n I) as [_ P]. specialize (H k).
  destruct (members_all set k) as (k' & I' & Q); [lia|]. exists (k', occ k set). auto.
Qed.

Lemma equal_loop_iff m1 m2 : equal_loop ltb m1 m2 = true <-> forall k n, In (k, n) m1 -> find_count ltb m2 k = Some n.
Proof.
  induction m1 as [|[k n] r IH]; cbn [equal_loop].
  - split; [intros _ k n []|reflexivity].
  - destruct (find_count ltb m2 k) as [c|] eqn:E.
    + destruct (Nat.eqb_spec n c) as [->|L]; cbn [negb].
      * rewrite IH. split; intros H k0 n0; [intros [I|I]; [injection I as <- <-; exact E|eauto]|intros I; apply H; right; exact I].
      * split; [discriminate|]. intros H. specialize (H k n (or_introl eq_refl)). congruence.
    + split; [discriminate|]. intros H. specialize (H k n (or_introl eq_refl)). congruence.
Qed.

(** The counts determine the length. *)
Lemma occ_length_le : forall a b, (forall x, (occ x a <= occ x b)%nat) -> (length a <= length b)%nat.
Proof.
  induction a as [|y a IH]; intros b H; [simpl; lia|].
  pose proof (H y) as Hy. rewrite occ_cons, eqv_refl in Hy.
  assert (exists z, In z b /\ eqv y z = true) as (z & I & Q).
  { destruct (filter (fun z => negb (ltb y z) && negb (ltb z y)) b) as [|z l] eqn:E.
    - unfold occurrences in Hy at 2. rewrite E in Hy. simpl in Hy. lia.
    - assert (In z (z :: l)) as J by (left; reflexivity). rewrite <- E in J. apply filter_In in J. exists z. exact J. }
  apply in_split in I. destruct I as (b1 & b2 & ->). rewrite app_length. cbn [length].
  assert (length a <= length (b1 ++ b2))%nat; [|rewrite app_length in *; lia].
  apply IH. intros x. specialize (H x). rewrite occ_cons in H. rewrite occ_app, occ_cons in H. rewrite occ_app.
  rewrite (eqv_sym x y), (eqv_l _ _ x Q), (eqv_sym z x) in H. destruct (eqv x z); lia.
Qed.

Lemma collections_equal a b : CollectionsEqual ltb a b = true <-> forall x, occ x a = occ x b.
Proof.
  unfold CollectionsEqual. cbv zeta. destruct (count_spec a) as [D1 F1]. destruct (count_spec b) as [D2 F2].
  assert (R : (forall x, occ x a = occ x b) -> equal_loop ltb (count_members ltb a) (count_members ltb b) = true /\
     length (count_members ltb a) = length (count_members ltb b) /\ length a = length b).
  { intros H. split; [|split].
    - apply equal_loop_iff. intros k n I. destruct (in_members a k n I) as [-> P]. rewrite F2, <- H. destruct (occ k a); [lia|reflexivity].
    - apply Nat.le_antisymm; apply keys_le; auto; intros [k n] I.
      + destruct (in_members a k n I) as [_ P]. destruct (members_all b k) as (k' & I' & Q); [rewrite <- H; exact P|]. eauto.
      + destruct (in_members b k n I) as [_ P]. destruct (members_all a k) as (k' & I' & Q); [rewrite H; exact P|]. eauto.
    - apply Nat.le_antisymm; apply occ_length_le; intros x; rewrite H; lia. }
  destruct (Nat.eqb_spec (length a) (length b)) as [LA|LA]; cbn [negb];
    [|split; [discriminate|intros H; destruct (R H) as (_ & _ & C); congruence]].
  destruct (Nat.eqb_spec (length (count_members ltb a)) (length (count_members ltb b))) as [LM|LM]; cbn [negb];
    [|split; [discriminate|intros H; destruct (R H) as (_ & C & _); congruence]].
  split; [|intros H; apply (R H)]. rewrite equal_loop_iff. intros H.
  (* every key of a has the same count in b; lengths force the converse *)
  assert (LE : forall x, (occ x a <= occ x b)%nat).
  { intros x. destruct (occ x a) as [|n] eqn:E; [lia|]. destruct (members_all a x) as (k & I & Q); [lia|].
    specialize (H _ _ I). rewrite F2, (occ_eqv _ _ b Q) in H. destruct (occ x b); [discriminate|]. injection H as H. lia. }
  intros x. apply Nat.le_antisymm; [apply LE|].
  destruct (le_lt_dec (occ x b) (occ x a)) as [C|C]; [exact C|exfalso].
  assert (length (filter (fun y => negb (eqv x y)) a) <= length (filter (fun y => negb (eqv x y)) b))%nat as LN.
  { apply occ_length_le. intros y.
    assert (FO : forall l, occ y (filter (fun y => negb (eqv x y)) l) = if eqv x y then 0%nat else occ y l).
    { induction l as [|z l IHl]; [destruct (eqv x y); reflexivity|]. cbn [filter].
      destruct (eqv x z) eqn:Exz; cbn [negb].
      - rewrite IHl, occ_cons. destruct (eqv x y) eqn:Exy; [reflexivity|].
        destruct (eqv y z) eqn:Eyz; [|reflexivity]. rewrite eqv_sym in Eyz. rewrite (eqv_trans _ _ _ Exz Eyz) in Exy. discriminate.
      - rewrite occ_cons, IHl, occ_cons. destruct (eqv x y) eqn:Exy; [|reflexivity].
        destruct (eqv y z) eqn:Eyz; [|reflexivity]. rewrite (eqv_trans _ _ _ Exy Eyz) in Exz. discriminate. }
    rewrite !FO. destruct (eqv x y); [lia|apply LE]. }
  assert (SP : forall l, length l = (occ x l + length (filter (fun y => negb (eqv x y)) l))%nat).
  { induction l as [|z l IHl]; [reflexivity|]. rewrite occ_cons. cbn [filter length]. destruct (eqv x z); cbn [negb length]; lia. }
  rewrite (SP a), (SP b) in LA. lia.
Qed.
End C.

(** When only equal elements compare equal: permutations. *)
Lemma equal_permutation {T} (ltb : T -> T -> bool) (a b : list T) : strict_weak_order ltb ->
  (forall x y, ltb x y = false -> ltb y x = false -> x = y) ->
  CollectionsEqual ltb a b = true <-> Permutation a b.
Proof.
  intros S E. rewrite (collections_equal ltb S).
  assert (D : forall x y : T, {x = y} + {x <> y}).
  { intros x y. destruct (equivalent ltb x y) eqn:Q.
    - left. apply eqv_inv in Q. apply E; tauto.
    - right. intros ->. rewrite (eqv_refl ltb S) in Q. discriminate. }
  assert (C : forall x l, occurrences ltb x l = count_occ D l x).
  { intros x l. induction l as [|y l IH]; [reflexivity|]. rewrite occ_cons. cbn [count_occ].
    destruct (D y x) as [->|N]; [rewrite (eqv_refl ltb S), IH; reflexivity|].
    destruct (equivalent ltb x y) eqn:Q; [|exact IH]. exfalso. apply N. apply eqv_inv in Q. apply E; tauto. }
  rewrite (Permutation_count_occ D). split; intros H x; specialize (H x); rewrite !C in *; exact H.
Qed.

(** ** Bits *)
Lemma mask_bits width pos i : (pos < width)%N ->
  N.testbit (N.shiftl 1 pos mod 2 ^ width) i = (i =? pos)%N.
Proof.
  intros P. rewrite N.shiftl_1_l. rewrite N.mod_small by (apply N.pow_lt_mono_r; lia).
  rewrite N.pow2_bits_eqb. apply N.eqb_sym.
Qed.

Lemma set_bit_ok width cur pos b : (8 <= width)%N -> (pos < width)%N -> (cur < 2 ^ width)%N ->
  exists w, SetBit width cur pos b = Ok w /\ (w < 2 ^ width)%N /\
    forall i, (i < width)%N -> N.testbit w i = if (i =? pos)%N then b else N.testbit cur i.
Proof.
  intros W P C.
  assert (PR : (pos <? promoted width)%N = true).
  { apply N.ltb_lt. unfold promoted. destruct (N.ltb_spec width 32); lia. }
  unfold SetBit. rewrite PR. cbv zeta.
  assert (LT : forall x, (forall i, (width <= i)%N -> N.testbit x i = false) -> (x < 2 ^ width)%N).
  { intros x H. destruct (N.eq_dec x 0) as [->|Hx]; [apply N.neq_0_lt_0, N.pow_nonzero; discriminate|].
    apply N.log2_lt_pow2; [lia|]. destruct (N.lt_ge_cases (N.log2 x) width) as [L|L]; [exact L|].
    specialize (H _ L). rewrite N.bit_log2 in H by exact Hx. discriminate. }
  assert (HC : forall i, (width <= i)%N -> N.testbit cur i = false).
  { intros i Hi. destruct (N.eq_dec cur 0) as [->|Hx]; [apply N.bits_0|]. apply N.bits_above_log2.
    apply N.log2_lt_pow2 in C; lia. }
  destruct b; eexists; (split; [reflexivity|]); split.
  - apply LT. intros i Hi. rewrite N.lor_spec, HC, mask_bits by assumption. cbn. apply N.eqb_neq. lia.
  - intros i Hi. rewrite N.lor_spec, mask_bits by assumption. destruct (i =? pos)%N; [apply orb_true_r|apply orb_false_r].
  - apply LT. intros i Hi. rewrite N.land_spec, HC by assumption. reflexivity.
  - intros i Hi. rewrite N.land_spec, N.lnot_spec_low, mask_bits by assumption.
    destruct (i =? pos)%N; cbn; [apply andb_false_r|apply andb_true_r].
Qed.

Lemma get_bit_ok width cur pos : (8 <= width)%N -> (pos < width)%N -> GetBit width cur pos = Ok (N.testbit cur pos).
Proof.
  intros W P. unfold GetBit, SetBit.
  assert (PR : (pos <? promoted width)%N = true).
  { apply N.ltb_lt. unfold promoted. destruct (N.ltb_spec width 32); lia. }
  rewrite PR. cbv zeta. cbn [bind]. rewrite N.lor_0_l. f_equal.
  set (m := (N.shiftl 1 pos mod 2 ^ width)%N).
  assert (B : forall i, N.testbit (N.land m cur) i = (i =? pos)%N && N.testbit cur i).
  { intros i. rewrite N.land_spec. unfold m. rewrite mask_bits by exact P. reflexivity. }
  destruct (N.testbit cur pos) eqn:E.
  - apply N.ltb_lt. apply N.neq_0_lt_0. intros Z. specialize (B pos). rewrite Z, N.bits_0, N.eqb_refl, E in B. discriminate.
  - apply N.ltb_ge. replace (N.land m cur) with 0%N; [lia|]. symmetry. apply N.bits_inj_0. intros i. rewrite B.
    destruct (N.eqb_spec i pos) as [->|]; [rewrite E; reflexivity|reflexivity].
Qed.

(** ** Random indices *)
Local Open Scope R_scope.
Lemma fexp_normal e : (-1021 <= e)%Z -> fexp64 e = (e - 53)%Z.
Proof. intros H. rewrite fexp64_FLT. unfold FLT_exp. lia. Qed.

Lemma unit_le u : unit_interval u -> B2R u <= 1 - bpow radix2 (-53).
Proof.
  intros (F & L & H).
  assert (F1 : generic_format radix2 fexp64 1).
  { change 1 with (bpow radix2 0). apply generic_format_bpow. rewrite fexp_normal; lia. }
  assert (Fu : generic_format radix2 fexp64 (B2R u)) by apply generic_format_B2R.
  pose proof (pred_ge_gt radix2 fexp64 _ _ Fu F1 H) as P.
  replace (pred radix2 fexp64 1) with (1 - bpow radix2 (-53)) in P; [exact P|].
  change 1 with (bpow radix2 0). rewrite pred_bpow. rewrite fexp_normal by lia. reflexivity.
Qed.

Lemma scaled_below u D : 0 <= u <= 1 - bpow radix2 (-53) -> generic_format radix2 fexp64 D -> 1 <= D ->
  rnd64 (u * D) <= pred radix2 fexp64 D.
Proof.
  intros Hu FD HD.
  assert (X : u * D <= D - D * bpow radix2 (-53)) by nra.
  assert (D0 : 0 < D) by lra.
  pose proof (mag_gt_bpow radix2 D) as _.
  destruct (mag radix2 D) as [e He] eqn:Em. pose proof (He ltac:(lra)) as He'. rewrite Rabs_right in He' by lra. destruct He' as [He1 He2].
  assert (E0 : (1 <= e)%Z).
  { destruct (Z_le_gt_dec 1 e) as [H|H]; [exact H|]. assert (bpow radix2 e <= bpow radix2 0) by (apply bpow_le; lia). simpl bpow in *. lra. }
  assert (Fp : generic_format radix2 fexp64 (pred radix2 fexp64 D)) by (apply generic_format_pred; [typeclasses eauto|exact FD]).
  assert (BP : bpow radix2 (e - 1) * bpow radix2 (-53) = bpow radix2 (e - 54)) by (rewrite <- bpow_plus; f_equal; lia).
  assert (pd : pred radix2 fexp64 D = pred_pos radix2 fexp64 D) by (apply pred_eq_pos; lra).
  unfold pred_pos in pd. rewrite Em in pd. cbn [mag_val] in pd.
  revert pd. case Req_bool_spec; intros EQ pd.
  - rewrite fexp_normal in pd by lia. apply round_le_generic; try typeclasses eauto; [exact Fp|].
    rewrite pd. rewrite EQ at 2. replace (e - 1 - 53)%Z with (e - 54)%Z by lia. rewrite <- BP, <- EQ. exact X.
  - apply round_N_le_midp; try typeclasses eauto; [exact Fp|].
    rewrite succ_pred by (try typeclasses eauto; exact FD). rewrite pd.
    assert (U : ulp radix2 fexp64 D = bpow radix2 (e - 53)).
    { rewrite ulp_neq_0 by lra. unfold cexp. rewrite Em. cbn [mag_val]. rewrite fexp_normal by lia. reflexivity. }
    rewrite U. replace (bpow radix2 (e - 53)) with (2 * bpow radix2 (e - 54)).
    2:{ replace (e - 53)%Z with (1 + (e - 54))%Z by lia. rewrite bpow_plus. reflexivity. }
    assert (bpow radix2 (e - 1) < D) by lra.
    assert (bpow radix2 (e - 54) < D * bpow radix2 (-53)).
    { rewrite <- BP. apply Rmult_lt_compat_r; [apply bpow_gt_0|assumption]. }
    lra.
Qed.

Lemma index_in_range u n : unit_interval u -> (1 <= n)%Z -> (n < 2 ^ 64)%Z ->
  is_finite (dmul u (d_of_Z n)) = true /\ (0 <= dfloor_Z (dmul u (d_of_Z n)) < n)%Z.
Proof.
  intros U N1 N2. pose proof (unit_le u U) as U2. destruct U as (Fu & U0 & U1).
  assert (NB : IZR n <= bpow radix2 64) by (rewrite <- IZR_pow2 by lia; apply IZR_le; lia).
  destruct (d_of_Z_round n) as [Dv Df].
  { apply Z.le_trans with (2 ^ 64)%Z; [lia|]. apply Z.pow_le_mono_r; lia. }
  set (D := B2R (d_of_Z n)) in *.
  assert (FD : generic_format radix2 fexp64 D) by apply generic_format_B2R.
  assert (D1 : 1 <= D).
  { rewrite Dv. change 1 with (bpow radix2 0). apply rnd64_ge_bpow; [lia|]. simpl bpow. apply IZR_le. lia. }
  assert (D2 : D <= bpow radix2 64) by (rewrite Dv; apply rnd64_le_bpow; [lia|exact NB]).
  assert (B : Rabs (B2R u * D) <= bpow radix2 1023).
  { rewrite Rabs_right by nra. apply Rle_trans with (bpow radix2 64); [nra|apply bpow_le; lia]. }
  destruct (dmul_val u (d_of_Z n) Fu Df B) as [Mv Mf]. fold D in Mv.
  pose proof (scaled_below (B2R u) D (conj U0 U2) FD D1) as SB. rewrite <- Mv in SB.
  assert (S0 : 0 <= B2R (dmul u (d_of_Z n))).
  { rewrite Mv. rewrite <- rnd64_0. apply rnd64_mono. nra. }
  assert (PL : pred radix2 fexp64 D < IZR n).
  { destruct (Rlt_le_dec (pred radix2 fexp64 D) (IZR n)) as [L|L]; [exact L|exfalso].
    assert (D <= pred radix2 fexp64 D) as C.
    { rewrite Dv at 1. apply round_le_generic; try typeclasses eauto; [|exact L].
      apply generic_format_pred; [typeclasses eauto|exact FD]. }
    pose proof (pred_lt_id radix2 fexp64 D ltac:(lra)). lra. }
  split; [exact Mf|]. rewrite dfloor_Zfloor. split.
  - apply Zfloor_lub. exact S0.
  - apply lt_IZR. eapply Rle_lt_trans; [apply Zfloor_lb|]. lra.
Qed.

Local Open Scope Z_scope.
Lemma random_index lo hi u n : lo <= 0 -> hi < 2 ^ 64 -> unit_interval u -> 1 <= n <= hi ->
  exists i, GetUniformRandomIndex lo hi u n = Ok i /\ 0 <= i < n.
Proof.
  intros L H U N. destruct (index_in_range u n U ltac:(lia) ltac:(lia)) as [F R].
  unfold GetUniformRandomIndex, cast_integral. rewrite F.
  replace (n <? 1) with false by (symmetry; apply Z.ltb_ge; lia).
  set (i := dfloor_Z _) in *. exists i. split; [|exact R].
  replace (lo <=? i) with true by (symmetry; apply Z.leb_le; lia).
  replace (i <=? hi) with true by (symmetry; apply Z.leb_le; lia). reflexivity.
Qed.

Lemma arith_id lo hi z : (lo = 0 \/ lo < 0) -> lo <= z <= hi -> size_arith lo hi z = Ok z.
Proof.
  intros L H. unfold size_arith. destruct (Z.eqb_spec lo 0) as [->|NZ].
  - rewrite Z.mod_small by lia. reflexivity.
  - replace (lo <=? z) with true by (symmetry; apply Z.leb_le; lia).
    replace (z <=? hi) with true by (symmetry; apply Z.leb_le; lia). reflexivity.
Qed.

Lemma random_in_range lo hi u a b : lo <= 0 -> hi < 2 ^ 64 -> unit_interval u ->
  lo <= a -> a <= b -> b <= hi -> b - a < hi ->
  exists i, GetUniformRandomInRange lo hi u a b = Ok i /\ a <= i <= b.
Proof.
  intros L H U A AB B W. unfold GetUniformRandomInRange.
  replace (b <? a) with false by (symmetry; apply Z.ltb_ge; lia).
  rewrite arith_id by lia. cbn [bind]. rewrite arith_id by lia. cbn [bind].
  destruct (random_index lo hi u (b - a + 1) L H U ltac:(lia)) as (i & -> & R). cbn [bind].
  exists (a + i). split; [apply arith_id; lia|lia].
Qed.

(** Whole range of a type: size_t from 0 to its maximum, int64_t over its range. *)
Lemma full_range_fails : GetUniformRandomInRange 0 (2 ^ 64 - 1) d0 0 (2 ^ 64 - 1) = Throw InvalidArgument /\
  GetUniformRandomInRange (- 2 ^ 63) (2 ^ 63 - 1) d0 (- 2 ^ 63) (2 ^ 63 - 1) = UB.
Proof. split; reflexivity. Qed.

(** ** Clamping *)
Lemma clamp_ok {T} (ltb : T -> T -> bool) v mn mx : strict_weak_order ltb -> ltb mx mn = false ->
  exists r, ClampValue ltb (fun a b => negb (ltb a b)) v mn mx = Ok r /\ ltb r mn = false /\ ltb mx r = false /\
    (ltb v mn = false -> ltb mx v = false -> r = v) /\ (r = v \/ r = mn \/ r = mx).
Proof.
  intros S M. unfold ClampValue. rewrite M. cbn [negb]. destruct (ltb v mn) eqn:A.
  - exists mn. split; [reflexivity|]. split; [apply (swo_irr _ S)|]. split; [exact M|]. split; [discriminate|auto].
  - destruct (ltb mx v) eqn:B.
    + exists mx. split; [reflexivity|]. split; [exact M|]. split; [apply (swo_irr _ S)|]. split; [discriminate|auto].
    + exists v. auto 10.
Qed.
Lemma clamp_rejects {T} (ltb : T -> T -> bool) v mn mx : ltb mx mn = true ->
  ClampValue ltb (fun a b => negb (ltb a b)) v mn mx = Throw InvalidArgument.
Proof. intros H. unfold ClampValue. rewrite H. reflexivity. Qed.
Lemma random_index_rejects lo hi u n : n < 1 -> GetUniformRandomIndex lo hi u n = Throw InvalidArgument.
Proof. intros H. unfold GetUniformRandomIndex. apply Z.ltb_lt in H. rewrite H. reflexivity. Qed.
