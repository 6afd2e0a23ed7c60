From Coq Require Import Reals.
From Flocq Require Import Core BinarySingleNaN.
From Verif Require Import Base Effect Double DoubleFacts SearchDouble DtwModel DtwSpec DtwProof.
Local Open Scope Z_scope.

Section Cost.
Context {D A B : Type}.
Variables (ltb : D -> D -> bool) (add : D -> D -> D) (zero inf : D).
Variable d : A -> B -> D.
Notation dist := (fun a b => Ok (d a b)).
Notation matrix := (@matrix D).
Variables (first : list A) (second : list B).
Notation n := (Z.of_nat (length first)).
Notation k := (Z.of_nat (length second)).

(** Loop rule. *)
Section Rule.
Variable I : Z -> Z -> matrix -> Prop.
Hypothesis BIG : forall i j m, I i j m -> large n k m.
Hypothesis CELL : forall i j a b m, 1 <= i <= n -> 1 <= j <= k ->
  nth_error first (Z.to_nat (i - 1)) = Some a -> nth_error second (Z.to_nat (j - 1)) = Some b -> I i j m ->
  I i (j + 1) (with_cell m i j (add (d a b) (prev_cost ltb (m_data m (i - 1) j) (m_data m (i - 1) (j - 1)) (m_data m i (j - 1))))).
Hypothesis NEXT : forall i m, 1 <= i <= n -> I i (k + 1) m -> I (i + 1) 1 m.

Lemma row_rule i a : 1 <= i <= n -> nth_error first (Z.to_nat (i - 1)) = Some a ->
  forall rest j, 1 <= j -> second = firstn (Z.to_nat (j - 1)) second ++ rest -> Z.to_nat (j - 1) = (length second - length rest)%nat ->
  forall m, I i j m ->
  exists m', dtw_row ltb add dist i j a rest m = (Ok tt, m') /\ I i (k + 1) m'.
Proof.
  intros Hi Ha. induction rest as [|b rest IH]; intros j J E LN m H; cbn [dtw_row].
  - exists m. split; [reflexivity|]. cbn in LN. replace (k + 1) with j by lia. exact H.
  - assert (LL : (length (b :: rest) <= length second)%nat) by (rewrite E, app_length; lia). cbn [length] in *.
    assert (JK : 1 <= j <= k) by lia.
    assert (NB : nth_error second (Z.to_nat (j - 1)) = Some b).
    { rewrite E, nth_error_app2; rewrite firstn_length; [|lia].
      replace (_ - _)%nat with 0%nat by lia. reflexivity. }
    unfold ebind. rewrite (cell_run ltb add dist n k i j a b m (BIG _ _ _ H) Hi JK).
    apply IH; [lia| | |apply CELL; assumption].
    + replace (Z.to_nat (j + 1 - 1)) with (S (Z.to_nat (j - 1))) by lia.
      rewrite E at 1. set (q := Z.to_nat (j - 1)) in *.
      assert (X : forall (l : list B) t x, nth_error l t = Some x -> firstn (S t) l = firstn t l ++ [x]).
      { induction l as [|y l IHl]; intros [|t] x Hx; cbn in *; try discriminate; [injection Hx as ->; reflexivity|].
        now rewrite <- IHl. }
      rewrite (X _ _ _ NB), <- app_assoc. reflexivity.
    + lia.
Qed.
Lemma rows_rule : forall rest i, 1 <= i -> Z.to_nat (i - 1) = (length first - length rest)%nat -> (length rest <= length first)%nat ->
  (forall t, nth_error rest t = nth_error first (Z.to_nat (i - 1) + t)) ->
  forall m, I i 1 m ->
  exists m', dtw_rows ltb add dist i rest second m = (Ok tt, m') /\ I (n + 1) 1 m'.
Proof.
  induction rest as [|a rest IH]; intros i Hi LN LE NT m H; cbn [dtw_rows].
  - exists m. split; [reflexivity|]. cbn in LN. replace (n + 1) with i by lia. exact H.
  - cbn [length] in *. assert (IN : 1 <= i <= n) by lia.
    assert (NA : nth_error first (Z.to_nat (i - 1)) = Some a).
    { rewrite <- (Nat.add_0_r (Z.to_nat (i - 1))). rewrite <- NT. reflexivity. }
    destruct (row_rule i a IN NA second 1 ltac:(lia)) with (m := m) as (m1 & E1 & H1); [reflexivity|cbn; lia|exact H|].
    unfold ebind. rewrite E1. apply IH; [lia|lia|lia| |apply NEXT; assumption].
    intros t. replace (Z.to_nat (i + 1 - 1) + t)%nat with (Z.to_nat (i - 1) + S t)%nat by lia. rewrite <- NT. reflexivity.
Qed.
End Rule.

(** What an evaluation computes, from an invariant. *)
Lemma evaluate_rule (I : Z -> Z -> matrix -> Prop) m0 : first <> [] -> second <> [] ->
  (forall i j m, I i j m -> large n k m) ->
  (forall i j a b m, 1 <= i <= n -> 1 <= j <= k ->
    nth_error first (Z.to_nat (i - 1)) = Some a -> nth_error second (Z.to_nat (j - 1)) = Some b -> I i j m ->
    I i (j + 1) (with_cell m i j (add (d a b) (prev_cost ltb (m_data m (i - 1) j) (m_data m (i - 1) (j - 1)) (m_data m i (j - 1)))))) ->
  (forall i m, 1 <= i <= n -> I i (k + 1) m -> I (i + 1) 1 m) ->
  usable zero inf m0 ->
  (forall m, bordered zero inf m -> large n k m -> I 1 1 m) ->
  exists m, fst (EvaluateWarpingCost ltb add zero inf dist first second m0) = Ok (m_data m n k) /\ I (n + 1) 1 m.
Proof.
  intros NF NS BIG CELL NEXT U ST. unfold EvaluateWarpingCost.
  assert (LF : (length first <> 0)%nat) by (destruct first; [congruence|discriminate]).
  assert (LS : (length second <> 0)%nat) by (destruct second; [congruence|discriminate]).
  destruct (Nat.eqb_spec (length first) 0) as [X1|X1]; [lia|]. destruct (Nat.eqb_spec (length second) 0) as [X2|X2]; [lia|].
  destruct (init_ready zero inf n k m0 ltac:(lia) ltac:(lia) U) as [B1 L1].
  destruct (rows_rule I BIG CELL NEXT first 1 ltac:(lia) ltac:(cbn; lia) ltac:(lia) ltac:(intros t; reflexivity) _ (ST _ B1 L1)) as (m & E & H).
  exists m. split; [|exact H]. unfold ebind, get, put, lift. cbn. rewrite E.
  rewrite (m_get_in m n k); [reflexivity|exact (BIG _ _ _ H)|lia|lia].
Qed.

(** ** The cost of some warping path (C61) *)
Hypothesis INF : forall x, ltb inf x = false.
Notation warp := (warping add zero d first second).
Hypothesis FIN : forall i j c, warp i j c -> ltb c inf = true.

Definition warped (i j : Z) (m : matrix) : Prop :=
  bordered zero inf m /\ large n k m /\
  forall r c, 1 <= r <= n -> 1 <= c <= k -> r < i \/ (r = i /\ c < j) -> warp (Z.to_nat (r - 1)) (Z.to_nat (c - 1)) (m_data m r c).

Lemma warp_evaluate m0 : first <> [] -> second <> [] -> usable zero inf m0 ->
  exists c, fst (EvaluateWarpingCost ltb add zero inf dist first second m0) = Ok c /\ warping_cost add zero d first second c.
Proof.
  intros NF NS U. destruct (evaluate_rule warped m0 NF NS) as (m & E & H).
  - intros i j m H. exact (proj1 (proj2 H)).
  - intros i j a b m Hi Hj NA NB (BO & LA & H).
    split; [apply with_cell_bordered; [lia|lia|exact BO]|]. split; [exact LA|].
    intros r c R C W. destruct (Z.eq_dec r i) as [->|NR]; [destruct (Z.eq_dec c j) as [->|NC]|].
    2:{ rewrite with_cell_other by lia. apply H; lia. }
    2:{ rewrite with_cell_other by lia. apply H; lia. }
    rewrite with_cell_same. destruct BO as (B0 & BR & BC). destruct LA as [LA1 LA2].
    unfold prev_cost.
    destruct (Z.eq_dec i 1) as [->|N1]; [destruct (Z.eq_dec j 1) as [->|N2]|destruct (Z.eq_dec j 1) as [->|N2]].
    + change (1 - 1) with 0 in *. rewrite (BC 1) by lia. rewrite (BR 1) by lia. rewrite !INF. cbn [andb]. rewrite B0. apply warp_start; assumption.
    + change (1 - 1) with 0 in *. rewrite (BC j), (BC (j - 1)) by lia. rewrite INF. cbn [andb].
      pose proof (H 1 (j - 1) ltac:(lia) ltac:(lia) ltac:(lia)) as HW. rewrite (FIN _ _ _ HW). cbn [andb].
      replace (Z.to_nat (j - 1)) with (S (Z.to_nat (j - 1 - 1))) in * by lia. change (Z.to_nat 0) with 0%nat in *.
      eapply warp_right; eassumption.
    + change (1 - 1) with 0 in *. rewrite (BR i), (BR (i - 1)) by lia.
      pose proof (H (i - 1) 1 ltac:(lia) ltac:(lia) ltac:(lia)) as HW. rewrite (FIN _ _ _ HW). cbn [andb].
      replace (Z.to_nat (i - 1)) with (S (Z.to_nat (i - 1 - 1))) in * by lia.
      eapply warp_down; eassumption.
    + assert (EI : Z.to_nat (i - 1) = S (Z.to_nat (i - 1 - 1))) by lia.
      assert (EJ : Z.to_nat (j - 1) = S (Z.to_nat (j - 1 - 1))) by lia.
      destruct (_ && _).
      * pose proof (H (i - 1) j ltac:(lia) ltac:(lia) ltac:(lia)) as HW. rewrite EI in *. eapply warp_down; eassumption.
      * destruct (_ && _).
        -- pose proof (H i (j - 1) ltac:(lia) ltac:(lia) ltac:(lia)) as HW. rewrite EJ in *. eapply warp_right; eassumption.
        -- pose proof (H (i - 1) (j - 1) ltac:(lia) ltac:(lia) ltac:(lia)) as HW. rewrite EI, EJ in *. eapply warp_diagonal; eassumption.
  - intros i m Hi (BO & LA & H). split; [exact BO|]. split; [exact LA|]. intros r c R C W. apply H; lia.
  - exact U.
  - intros m BO LA. split; [exact BO|]. split; [exact LA|]. intros r c R C W. lia.
  - exists (m_data m n k). split; [exact E|]. destruct H as (_ & _ & H). unfold warping_cost.
    assert (length first <> 0)%nat by (destruct first; [congruence|discriminate]).
    assert (length second <> 0)%nat by (destruct second; [congruence|discriminate]).
    replace (length first - 1)%nat with (Z.to_nat (n - 1)) by lia.
    replace (length second - 1)%nat with (Z.to_nat (k - 1)) by lia. apply H; lia.
Qed.
End Cost.

(** ** Equal sequences *)
Section Equal.
Context {D A B : Type}.
Variables (ltb : D -> D -> bool) (add : D -> D -> D) (zero inf : D).
Variable d : A -> B -> D.
Variables (first : list A) (second : list B).
Notation n := (Z.of_nat (length first)).
Notation k := (Z.of_nat (length second)).
Hypothesis INF : ltb inf zero = false.
Hypothesis ADD : forall x y, ltb x zero = false -> ltb y zero = false -> ltb (add x y) zero = false.
Hypothesis ZERO : add zero zero = zero.
Hypothesis IRR : ltb zero zero = false.
Hypothesis NN : forall a b, ltb (d a b) zero = false.
Hypothesis SAME : forall t a b, nth_error first t = Some a -> nth_error second t = Some b -> d a b = zero.
Hypothesis LEN : length first = length second.

Definition level (i j : Z) (m : @matrix D) : Prop :=
  bordered zero inf m /\ large n k m /\
  forall r c, 1 <= r <= n -> 1 <= c <= k -> r < i \/ (r = i /\ c < j) ->
    ltb (m_data m r c) zero = false /\ (r = c -> m_data m r c = zero).

Lemma zero_evaluate m0 : first <> [] -> usable zero inf m0 ->
  fst (EvaluateWarpingCost ltb add zero inf (fun a b => Ok (d a b)) first second m0) = Ok zero.
Proof.
  intros NF U.
  assert (LF : (length first <> 0)%nat) by (destruct first; [congruence|discriminate]).
  assert (NS : second <> []) by (destruct second; [cbn in LEN; lia|discriminate]).
  destruct (evaluate_rule ltb add zero inf d first second level m0 NF NS) as (m & E & H).
  - intros i j m H. exact (proj1 (proj2 H)).
  - intros i j a b m Hi Hj NA NB (BO & LA & H).
    split; [apply with_cell_bordered; [lia|lia|exact BO]|]. split; [exact LA|].
    intros r c R C W. destruct (Z.eq_dec r i) as [->|NR]; [destruct (Z.eq_dec c j) as [->|NC]|].
    2:{ rewrite with_cell_other by lia. apply H; lia. }
    2:{ rewrite with_cell_other by lia. apply H; lia. }
    rewrite with_cell_same. destruct BO as (B0 & BR & BC). destruct LA as [LA1 LA2].
    assert (ALL : forall r c, 0 <= r <= n -> 0 <= c <= k -> r < i \/ (r = i /\ c < j) -> ltb (m_data m r c) zero = false /\ (r = c -> m_data m r c = zero)).
    { intros r c R1 C1 W1. destruct (Z.eq_dec r 0) as [->|]; [destruct (Z.eq_dec c 0) as [->|]|destruct (Z.eq_dec c 0) as [->|]].
      - rewrite B0. auto.
      - rewrite BC by lia. split; [exact INF|lia].
      - rewrite BR by lia. split; [exact INF|lia].
      - apply H; lia. }
    destruct (ALL (i - 1) j ltac:(lia) ltac:(lia) ltac:(lia)) as [P1 _].
    destruct (ALL (i - 1) (j - 1) ltac:(lia) ltac:(lia) ltac:(lia)) as [P2 Q2].
    destruct (ALL i (j - 1) ltac:(lia) ltac:(lia) ltac:(lia)) as [P3 _].
    split.
    + apply ADD; [apply NN|]. unfold prev_cost. destruct (_ && _); [exact P1|]. destruct (_ && _); assumption.
    + intros ->. rewrite (SAME _ _ _ NA NB). rewrite (Q2 eq_refl). unfold prev_cost. rewrite P1, P3, andb_false_r. cbn [andb]. exact ZERO.
  - intros i m Hi (BO & LA & H). split; [exact BO|]. split; [exact LA|]. intros r c R C W. apply H; lia.
  - exact U.
  - intros m BO LA. split; [exact BO|]. split; [exact LA|]. intros r c R C W. lia.
  - rewrite E. f_equal. destruct H as (_ & _ & H). apply H; lia.
Qed.
End Equal.

(** ** Doubles *)
Lemma dinf_max x : dlt dinf x = false.
Proof. destruct x as [?|[|]| |[|] ? ? ?]; reflexivity. Qed.
Lemma not_negative x : dlt x d0 = false <-> x = B754_nan \/ nonneg x = true.
Proof.
  unfold nonneg, dle, dlt, Bltb, Bleb, SpecFloat.SFltb, SpecFloat.SFleb.
  destruct x as [[|]|[|]| |[|] m e Hb]; cbn; intuition (discriminate || auto).
Qed.
Lemma dadd_not_negative x y : dlt x d0 = false -> dlt y d0 = false -> dlt (dadd x y) d0 = false.
Proof.
  intros X Y. apply not_negative in X as [->|X]; [reflexivity|]. apply not_negative in Y as [->|Y]; [destruct x; reflexivity|].
  apply not_negative. right. apply dadd_nonneg; assumption.
Qed.

(** The cost of two equal non-empty sequences is 0. *)
Lemma dtw_zero {A B} (d : A -> B -> double) first second : first <> [] ->
  (forall a b, dlt (d a b) d0 = false) -> length first = length second ->
  (forall t a b, nth_error first t = Some a -> nth_error second t = Some b -> d a b = d0) ->
  FreshWarpingCost dlt dadd d0 dinf (fun a b => Ok (d a b)) first second = Ok d0.
Proof.
  intros NF NN LEN SAME. apply zero_evaluate; auto; try reflexivity.
  - apply dadd_not_negative.
  - apply make_usable; lia.
Qed.

(** The result is the cost of some warping. *)
Lemma dtw_warping {A B} (d : A -> B -> double) first second : first <> [] -> second <> [] ->
  (forall i j c, warping dadd d0 d first second i j c -> dlt c dinf = true) ->
  exists c, FreshWarpingCost dlt dadd d0 dinf (fun a b => Ok (d a b)) first second = Ok c /\ warping_cost dadd d0 d first second c.
Proof.
  intros NF NS FIN. apply warp_evaluate; auto; [apply dinf_max|]. apply make_usable; lia.
Qed.

(** Costs that are integers of moderate size are exact, and nothing overflows. *)
Lemma warping_small {A B} (z : A -> B -> Z) first second K : 0 <= K -> 
  (forall a b, 0 <= z a b <= K) -> (Z.of_nat (length first) + Z.of_nat (length second)) * K <= 2 ^ 53 ->
  forall i j c, warping dadd d0 (fun a b => d_of_Z (z a b)) first second i j c ->
  exists t, B2R c = IZR t /\ is_finite c = true /\ 0 <= t <= (Z.of_nat i + Z.of_nat j + 1) * K /\
    (i < length first)%nat /\ (j < length second)%nat.
Proof.
  intros HK HZ HB.
  assert (ADDZ : forall a b c t m, B2R c = IZR t -> is_finite c = true -> 0 <= t <= m * K -> 
     (m + 1) * K <= 2 ^ 53 ->
     B2R (dadd (d_of_Z (z a b)) c) = IZR (z a b + t) /\ is_finite (dadd (d_of_Z (z a b)) c) = true).
  { intros a b c t m V F T M. specialize (HZ a b).
    destruct (d_of_Z_exact (z a b)) as [V1 F1]; [nia|].
    assert (BB : Z.abs (z a b + t) <= 2 ^ 53) by nia.
    destruct (dadd_val (d_of_Z (z a b)) c F1 F) as [V2 F2].
    - rewrite V1, V, <- plus_IZR, <- abs_IZR. apply Rle_trans with (IZR (2 ^ 53)); [apply IZR_le; exact BB|].
      change (2 ^ 53) with (radix2 ^ 53). rewrite IZR_Zpower by lia. apply bpow_le. lia.
    - split; [|exact F2]. rewrite V2, V1, V, <- plus_IZR. apply rnd64_IZR. exact BB. }
  induction 1 as [a b NA NB|i j c a b W IH NA NB|i j c a b W IH NA NB|i j c a b W IH NA NB].
  - assert (L1 : (0 < length first)%nat) by (apply nth_error_Some; congruence).
    assert (L2 : (0 < length second)%nat) by (apply nth_error_Some; congruence).
    destruct (ADDZ a b d0 0 0 eq_refl eq_refl ltac:(lia) ltac:(nia)) as [V F].
    exists (z a b + 0). specialize (HZ a b). repeat split; auto; lia.
  - destruct IH as (t & V & F & T & LI & LJ).
    assert (L1 : (S i < length first)%nat) by (apply nth_error_Some; congruence).
    destruct (ADDZ a b c t (Z.of_nat i + Z.of_nat j + 1) V F T ltac:(nia)) as [V2 F2].
    exists (z a b + t). specialize (HZ a b). repeat split; auto; nia.
  - destruct IH as (t & V & F & T & LI & LJ).
    assert (L1 : (S j < length second)%nat) by (apply nth_error_Some; congruence).
    destruct (ADDZ a b c t (Z.of_nat i + Z.of_nat j + 1) V F T ltac:(nia)) as [V2 F2].
    exists (z a b + t). specialize (HZ a b). repeat split; auto; nia.
  - destruct IH as (t & V & F & T & LI & LJ).
    assert (L1 : (S i < length first)%nat) by (apply nth_error_Some; congruence).
    assert (L2 : (S j < length second)%nat) by (apply nth_error_Some; congruence).
    destruct (ADDZ a b c t (Z.of_nat i + Z.of_nat j + 1) V F T ltac:(nia)) as [V2 F2].
    exists (z a b + t). specialize (HZ a b). repeat split; auto; nia.
Qed.
Lemma warping_small_fits {A B} (z : A -> B -> Z) first second K : 0 <= K -> 
  (forall a b, 0 <= z a b <= K) -> (Z.of_nat (length first) + Z.of_nat (length second)) * K <= 2 ^ 53 ->
  forall i j c, warping dadd d0 (fun a b => d_of_Z (z a b)) first second i j c -> dlt c dinf = true.
Proof.
  intros HK HZ HB i j c W. destruct (warping_small z first second K HK HZ HB i j c W) as (t & _ & F & _).
  destruct c as [?|?| |[|] ? ? ?]; try discriminate; reflexivity.
Qed.

(** ** A run that is not optimal: nine pairs, all at distance 0 but the middle. *)
Definition middle (i j : nat) : Z := if (i =? 1)%nat && (j =? 1)%nat then 5 else 0.
Lemma dtw_not_minimal : exists (z : nat -> nat -> Z) (first second : list nat) c c',
  (forall a b, 0 <= z a b <= 5) /\
  FreshWarpingCost dlt dadd d0 dinf (fun a b => Ok (d_of_Z (z a b))) first second = Ok c /\
  warping_cost dadd d0 (fun a b => d_of_Z (z a b)) first second c' /\ dlt c' c = true.
Proof.
  exists middle, [0; 1; 2]%nat, [0; 1; 2]%nat.
  assert (E : exists c, FreshWarpingCost dlt dadd d0 dinf (fun a b => Ok (d_of_Z (middle a b))) [0; 1; 2]%nat [0; 1; 2]%nat = Ok c /\ dlt d0 c = true).
  { destruct (FreshWarpingCost dlt dadd d0 dinf (fun a b => Ok (d_of_Z (middle a b))) [0; 1; 2]%nat [0; 1; 2]%nat) as [c|e| |] eqn:E.
    - exists c. split; [reflexivity|].
      assert (match FreshWarpingCost dlt dadd d0 dinf (fun a b => Ok (d_of_Z (middle a b))) [0; 1; 2]%nat [0; 1; 2]%nat with Ok c => dlt d0 c | _ => false end = true) as X by (vm_compute; reflexivity).
      rewrite E in X. exact X.
    - exfalso. assert (is_ok (FreshWarpingCost dlt dadd d0 dinf (fun a b => Ok (d_of_Z (middle a b))) [0; 1; 2]%nat [0; 1; 2]%nat) = true) as X by (vm_compute; reflexivity). rewrite E in X. discriminate.
    - exfalso. assert (is_ok (FreshWarpingCost dlt dadd d0 dinf (fun a b => Ok (d_of_Z (middle a b))) [0; 1; 2]%nat [0; 1; 2]%nat) = true) as X by (vm_compute; reflexivity). rewrite E in X. discriminate.
    - exfalso. assert (is_ok (FreshWarpingCost dlt dadd d0 dinf (fun a b => Ok (d_of_Z (middle a b))) [0; 1; 2]%nat [0; 1; 2]%nat) = true) as X by (vm_compute; reflexivity). rewrite E in X. discriminate. }
  destruct E as (c & E & P). exists c.
  eexists (dadd (d_of_Z (middle 2 2)) (dadd (d_of_Z (middle 2 1)) (dadd (d_of_Z (middle 1 0)) (dadd (d_of_Z (middle 0 0)) d0)))).
  split; [intros a b; unfold middle; destruct (_ && _); lia|]. split; [exact E|]. split.
  - apply warp_right with (a := 2%nat) (b := 2%nat) (i := 2%nat) (j := 1%nat); [|reflexivity|reflexivity].
    apply warp_diagonal with (a := 2%nat) (b := 1%nat) (i := 1%nat) (j := 0%nat); [|reflexivity|reflexivity].
    apply warp_down with (a := 1%nat) (b := 0%nat) (i := 0%nat) (j := 0%nat); [|reflexivity|reflexivity].
    apply warp_start with (a := 0%nat) (b := 0%nat); reflexivity.
  - rewrite <- P. f_equal.
Qed.
