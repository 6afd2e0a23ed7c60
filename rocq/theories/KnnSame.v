(** Proofs for C182: K nearest neighbours without ties. *)
From Verif Require Import Base ParallelismModel ParallelismSpec KnnModel KnnSpec KnnProof.
From Coq Require Import Permutation Sorting.Sorted.
Local Open Scope Z_scope.

(** No two items of the range are at the same distance. *)
Definition no_ties {D Item} (ltb : D -> D -> bool) (items : list Item) (dist : Item -> D) (range_start range_end : Z) : Prop :=
  forall i j x y, range_start <= i < range_end -> range_start <= j < range_end -> i <> j ->
    nth_error items (Z.to_nat i) = Some x -> nth_error items (Z.to_nat j) = Some y -> ~ sameD ltb (dist x) (dist y).

Section Same.
Context {D Item : Type}.
Variable ltb : D -> D -> bool.
Hypothesis OL : order_laws ltb.
Variables (infinity : D) (items : list Item) (dist : Item -> D).
Variables (range_start range_end : Z).
Hypothesis NT : no_ties ltb items dist range_start range_end.
Let genuine (e : Z * D) : Prop := range_start <= fst e < range_end /\
  exists x, nth_error items (Z.to_nat (fst e)) = Some x /\ snd e = dist x.
Lemma genuine_same a b : genuine a -> genuine b -> sameD ltb (snd a) (snd b) -> a = b.
Proof.
  destruct a as [i d], b as [j e]. cbn [fst snd]. intros (Ri & x & Ei & Ed) (Rj & y & Ej & Ee) S. cbn [fst snd] in *. subst d e.
  destruct (Z.eq_dec i j) as [->|N]; [congruence|]. destruct (NT i j x y Ri Rj N Ei Ej S).
Qed.
Lemma genuine_index a b : genuine a -> genuine b -> fst a = fst b -> a = b.
Proof. destruct a as [i d], b as [j e]. intros (_ & x & E & Ed) (_ & y & E' & Ee) H. cbn [fst snd] in *. subst d e j. congruence. Qed.
Lemma pointwise p s : (forall e, In e p -> genuine e) -> (forall e, In e s -> genuine e) ->
  Forall2 (fun a b => sameD ltb (snd a) (snd b)) p s -> p = s.
Proof.
  intros P S F. induction F as [|a b p s H F IH]; [reflexivity|].
  rewrite (genuine_same a b); [f_equal; apply IH; intros e I; [apply P|apply S]; right; exact I|apply P; left; reflexivity|apply S; left; reflexivity|exact H].
Qed.
Lemma sorted_unique p : forall s, (forall e, In e p -> genuine e) -> (forall e, In e s -> genuine e) ->
  NoDup p -> NoDup s ->
  (forall e, In e p <-> In e s) ->
  StronglySorted (fun x y => leD ltb (snd x) (snd y)) p -> StronglySorted (fun x y => leD ltb (snd x) (snd y)) s -> p = s.
Proof.
  induction p as [|a p IH]; intros [|b s] P S NP NS M SP SS; [reflexivity|exfalso; apply (M b); left; reflexivity|exfalso; apply (M a); left; reflexivity|].
  inversion SP as [|? ? SP1 SP2]; subst. inversion SS as [|? ? SS1 SS2]; subst. inversion NP as [|? ? NP1 NP2]; subst. inversion NS as [|? ? NS1 NS2]; subst.
  assert (E : a = b).
  { destruct (proj1 (M a) (or_introl eq_refl)) as [|Ia]; [congruence|]. destruct (proj2 (M b) (or_introl eq_refl)) as [|Ib]; [congruence|].
    rewrite Forall_forall in SP2, SS2. apply genuine_same; [apply P; left; reflexivity|apply S; left; reflexivity|].
    split; [apply (SP2 b Ib)|apply (SS2 a Ia)]. }
  subst b. f_equal. apply IH; try assumption; [intros e I; apply P; right; exact I|intros e I; apply S; right; exact I|].
  intros e. split; intros I.
  - destruct (proj1 (M e) (or_intror I)) as [->|]; [contradiction|assumption].
  - destruct (proj2 (M e) (or_intror I)) as [->|]; [contradiction|assumption].
Qed.
Lemma nearest_genuine K sel : k_nearest ltb items dist range_start range_end K sel -> forall e, In e sel -> genuine e.
Proof. intros N [i d] I. exact (kn_true _ _ _ _ _ _ _ N i d I). Qed.
Lemma nearest_members K p s : k_nearest ltb items dist range_start range_end K p -> k_nearest ltb items dist range_start range_end K s ->
  forall e, In e p -> In e s.
Proof.
  intros P S e I. destruct (in_dec Z.eq_dec (fst e) (map fst s)) as [J|J].
  - apply in_map_iff in J. destruct J as (e' & E & J). rewrite (genuine_index e e'); [exact J|exact (nearest_genuine K p P e I)|exact (nearest_genuine K s S e' J)|congruence].
  - exfalso. assert (X : exists f, In f s /\ ~ In (fst f) (map fst p)).
    { destruct (Exists_dec (fun f => ~ In (fst f) (map fst p)) s) as [X|X].
      { intros f. destruct (in_dec Z.eq_dec (fst f) (map fst p)); [right; tauto|left; assumption]. }
      { apply Exists_exists in X. exact X. }
      exfalso. assert (Incl : incl (map fst s) (map fst p)).
      { intros i Hi. apply in_map_iff in Hi. destruct Hi as (f & <- & Hf). destruct (in_dec Z.eq_dec (fst f) (map fst p)) as [Y|Y]; [exact Y|].
        exfalso. apply X. apply Exists_exists. eauto. }
      assert (Incl2 : incl (map fst p) (map fst s)).
      { apply NoDup_length_incl; [exact (kn_distinct _ _ _ _ _ _ _ S)| |exact Incl]. rewrite !map_length.
        pose proof (kn_size _ _ _ _ _ _ _ S). pose proof (kn_size _ _ _ _ _ _ _ P). lia. }
      apply J, Incl2, in_map, I. }
    destruct X as (f & If & Nf). pose proof (nearest_genuine K p P e I) as Ge. pose proof (nearest_genuine K s S f If) as Gf.
    assert (e = f); [|subst f; apply Nf, in_map, I].
    destruct e as [i d], f as [j c]. cbn [fst snd] in *. destruct Ge as (Ri & x & Ei & Ed), Gf as (Rj & y & Ej & Ec). cbn [fst snd] in *.
    exfalso. apply (NT i j x y Ri Rj); [intros ->; apply Nf; change j with (fst (j, d)); apply in_map, I|exact Ei|exact Ej|].
    rewrite <- Ed, <- Ec. split.
    + rewrite Ec. exact (kn_nearest _ _ _ _ _ _ _ P j y Rj Ej Nf i d I).
    + rewrite Ed. exact (kn_nearest _ _ _ _ _ _ _ S i x Ri Ei J j c If).
Qed.
Lemma NoDup_of_map (p : list (Z * D)) : NoDup (map fst p) -> NoDup p.
Proof. apply NoDup_map_inv. Qed.
Lemma nearest_unique K p s : K < range_end - range_start ->
  k_nearest ltb items dist range_start range_end K p -> k_nearest ltb items dist range_start range_end K s -> p = s.
Proof.
  intros H P S. apply sorted_unique.
  - exact (nearest_genuine K p P).
  - exact (nearest_genuine K s S).
  - apply NoDup_of_map. apply (kn_distinct _ _ _ _ _ _ _ P).
  - apply NoDup_of_map. apply (kn_distinct _ _ _ _ _ _ _ S).
  - intros e. split; eapply nearest_members; eassumption.
  - exact (kn_sorted _ _ _ _ _ _ _ P H).
  - exact (kn_sorted _ _ _ _ _ _ _ S H).
Qed.
End Same.

