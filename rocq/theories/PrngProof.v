(** Proofs about the generators. *)
From Verif Require Import Base PrngModel PrngSpec.
From Coq Require Import ZArith Znumtheory.
Local Open Scope N_scope.

(** ** One step of each generator *)
Definition gamma : N := 0x9E3779B97F4A7C15.

Lemma p64_pos : 2 ^ 64 <> 0. Proof. discriminate. Qed.
Lemma u64_lt x : u64 x < 2 ^ 64. Proof. apply N.mod_lt, p64_pos. Qed.

Lemma splitmix_step st : splitmix_next st = Ok (u64 (st + gamma), mix64 (u64 (st + gamma))).
Proof.
  unfold splitmix_next, mix64, mul64, add64, u64. fold gamma. rewrite !N.shiftr_div_pow2. reflexivity.
Qed.

Definition splitmix_at (seed : N) (n : nat) : N :=
  match n with O => seed | S _ => u64 (seed + N.of_nat n * gamma) end.

Lemma splitmix_at_S seed n : u64 (splitmix_at seed n + gamma) = u64 (seed + N.of_nat (S n) * gamma).
Proof.
  destruct n as [|n].
  - cbn [splitmix_at]. f_equal.
  - unfold splitmix_at, u64. rewrite N.add_mod_idemp_l by discriminate. f_equal. lia.
Qed.

Lemma splitmix_next_at seed n :
  splitmix_next (splitmix_at seed n) = Ok (splitmix_at seed (S n), splitmix_output seed n).
Proof. rewrite splitmix_step, splitmix_at_S. reflexivity. Qed.

Lemma xs128_step a b : xs128_next (a, b) =
  Ok ((b, xorshift 23 18 5 a b), u64 (xorshift 23 18 5 a b + b)).
Proof.
  unfold xs128_next, xorshift, shl64, add64, u64. cbv zeta. rewrite N.shiftl_mul_pow2, !N.shiftr_div_pow2.
  set (t := N.lxor a _).
  assert (E : N.lxor (N.lxor (N.lxor t b) (t / 2 ^ 18)) (b / 2 ^ 5) =
              N.lxor (N.lxor t (t / 2 ^ 18)) (N.lxor b (b / 2 ^ 5))).
  { rewrite !N.lxor_assoc. f_equal. rewrite <- !N.lxor_assoc. f_equal. apply N.lxor_comm. }
  rewrite E. reflexivity.
Qed.

(** The 1024-bit state as a window, oldest word first. *)
Definition window (g : xs1024) : list N :=
  skipn (S (N.to_nat (xs_p g))) (xs_state g) ++ firstn (S (N.to_nat (xs_p g))) (xs_state g).
Definition xs_wf (g : xs1024) : Prop := length (xs_state g) = 16%nat /\ xs_p g < 16.

Lemma xs1024_word s1 s0 :
  N.lxor (N.lxor (N.lxor (N.lxor s1 (shl64 s1 31)) s0) (N.shiftr (N.lxor s1 (shl64 s1 31)) 11)) (N.shiftr s0 30)
  = xorshift 31 11 30 s1 s0.
Proof.
  unfold xorshift, shl64, u64. cbv zeta. rewrite N.shiftl_mul_pow2, !N.shiftr_div_pow2.
  set (t := N.lxor s1 _). rewrite !N.lxor_assoc. f_equal. rewrite <- !N.lxor_assoc. f_equal. apply N.lxor_comm.
Qed.

Lemma sixteen (l : list N) : length l = 16%nat ->
  exists a b c d e f g h i j k m n o p q, l = [a; b; c; d; e; f; g; h; i; j; k; m; n; o; p; q].
Proof.
  intros H. do 16 (destruct l as [|? l]; [discriminate H|]). destruct l; [|discriminate H].
  do 16 eexists. reflexivity.
Qed.

Lemma below16 (p : N) : p < 16 -> p = 0 \/ p = 1 \/ p = 2 \/ p = 3 \/ p = 4 \/ p = 5 \/ p = 6 \/ p = 7 \/
  p = 8 \/ p = 9 \/ p = 10 \/ p = 11 \/ p = 12 \/ p = 13 \/ p = 14 \/ p = 15.
Proof. lia. Qed.

Lemma xs1024_step g : xs_wf g ->
  exists old rest, window g = old :: rest /\ exists g',
    xs1024_next g = Ok (g', u64 (xorshift 31 11 30 old (last (window g) 0) * 1181783497276652981)) /\
    xs_wf g' /\ xs_p g' = (xs_p g + 1) mod 16 /\
    window g' = rest ++ [xorshift 31 11 30 old (last (window g) 0)].
Proof.
  destruct g as [l p]. intros [L P]. cbn [xs_state xs_p] in *.
  destruct (sixteen l L) as (w0 & w1 & w2 & w3 & w4 & w5 & w6 & w7 & w8 & w9 & wa & wb & wc & wd & we & wf & ->).
  unfold xs1024_next. cbn [xs_state xs_p]. cbv zeta. unfold at_get, at_set, window. cbn [xs_state xs_p].
  destruct (below16 p P) as [->|[->|[->|[->|[->|[->|[->|[->|[->|[->|[->|[->|[->|[->|[->| ->]]]]]]]]]]]]]]];
    (repeat match goal with |- context[N.to_nat ?a] =>
         let v := eval vm_compute in (N.to_nat a) in change (N.to_nat a) with v end;
     cbn [nth_error bind skipn firstn app set_nth last];
     do 2 eexists; split; [reflexivity|]; eexists; split;
     [ rewrite xs1024_word; unfold mul64; reflexivity
     | split; [split; reflexivity|]; split; reflexivity ]).
Qed.

Lemma xs1024_fill_all seed : forall n idx state, (idx + n = length state)%nat ->
  exists s', xs1024_fill n idx (splitmix_at seed idx) state = Ok s' /\
    s' = firstn idx state ++ map (splitmix_output seed) (seq idx n).
Proof.
  induction n as [|n IH]; intros idx state E; cbn [xs1024_fill].
  - exists state. split; [reflexivity|]. rewrite firstn_all2 by lia. symmetry. apply app_nil_r.
  - rewrite splitmix_next_at. cbn [bind fst snd]. unfold raw_set. rewrite set_nth_upd by lia. cbn [bind].
    destruct (IH (S idx) (upd state idx (splitmix_output seed idx))) as (s' & -> & ->).
    { rewrite upd_length. lia. }
    eexists. split; [reflexivity|]. cbn [seq map].
    assert (F : forall (l : list N) i v, (i < length l)%nat -> firstn (S i) (upd l i v) = firstn i l ++ [v]).
    { induction l as [|x l IHl]; intros [|i] v Hi; simpl in *; try lia; [reflexivity|].
      f_equal. apply IHl. lia. }
    rewrite F by lia. rewrite <- app_assoc. reflexivity.
Qed.

Lemma xs1024_seed_eq g seed : length (xs_state g) = 16%nat ->
  xs1024_seed g seed = Ok (mkXs1024 (map (splitmix_output seed) (seq 0 16)) (xs_p g)).
Proof.
  intros L. unfold xs1024_seed. rewrite L.
  destruct (xs1024_fill_all seed 16 0 (xs_state g)) as (s' & E & ->); [rewrite L; reflexivity|].
  change (splitmix_at seed 0) with (splitmix_new seed) in E. rewrite E. reflexivity.
Qed.

(** ** Sequences *)
Definition xs1024_start (seed : N) : list N := map (splitmix_output seed) (seq 1 15 ++ [0%nat]).

Lemma words_after_S a b c : forall n w, w <> [] ->
  words_after a b c (S n) w =
  let v := words_after a b c n w in tl v ++ [xorshift a b c (hd 0 v) (last v 0)].
Proof.
  induction n as [|n IH]; intros w Hw.
  - destruct w; [congruence|]. reflexivity.
  - destruct w as [|o r]; [congruence|]. cbn [words_after] in *.
    rewrite IH; [reflexivity|]. intros E. apply app_eq_nil in E. destruct E as [_ E]. discriminate.
Qed.

Lemma last_snoc (l : list N) x : last (l ++ [x]) 0 = x.
Proof. apply last_last. Qed.
Lemma removelast_snoc (l : list N) x : removelast (l ++ [x]) = l.
Proof. apply removelast_last. Qed.

(** A relation between generator states and the number of values consumed. *)
Definition numbered {S} (G : prng S) (output : nat -> N) (rep : S -> nat -> Prop) : Prop :=
  forall g k, rep g k -> exists g', next G g = Ok (g', output k) /\ rep g' (Datatypes.S k).

Lemma iter_S {A} n (f : A -> A) x : Nat.iter (S n) f x = f (Nat.iter n f x).
Proof. reflexivity. Qed.

Lemma discard_numbered {S} (G : prng S) output rep : numbered G output rep ->
  forall z g k, rep g k -> exists g', discard G g z = Ok g' /\ rep g' (k + N.to_nat z)%nat.
Proof.
  intros H z g k R. unfold discard.
  rewrite N2Nat.inj_iter. induction (N.to_nat z) as [|n IH]; rewrite ?iter_S.
  - exists g. split; [reflexivity|]. rewrite Nat.add_0_r. exact R.
  - destruct IH as (g1 & E & R1). rewrite E. cbn [bind].
    destruct (H _ _ R1) as (g2 & -> & R2). cbn [bind fst]. exists g2. split; [reflexivity|].
    rewrite Nat.add_succ_r. exact R2.
Qed.

Lemma calls_numbered {S} (G : prng S) output rep : numbered G output rep ->
  forall cs g k, never_reseeds cs -> rep g k -> exists g', prng_calls G g cs = Ok (g', draws output k cs) /\
    rep g' (k + consumed cs)%nat.
Proof.
  intros H. induction cs as [|[|z|s] r IH]; intros g k NR R; cbn [prng_calls draws consumed].
  - exists g. rewrite Nat.add_0_r. auto.
  - destruct (H g k R) as (g1 & -> & R1). cbn [bind fst snd].
    destruct (IH g1 (Datatypes.S k)) as (g' & -> & R'); [intros s Hs; apply (NR s); right; exact Hs|exact R1|].
    exists g'. cbn [bind fst snd]. split; [reflexivity|]. rewrite Nat.add_succ_r. exact R'.
  - destruct (discard_numbered G output rep H z g k R) as (g1 & -> & R1). cbn [bind].
    destruct (IH g1 (k + N.to_nat z)%nat) as (g' & -> & R'); [intros s Hs; apply (NR s); right; exact Hs|exact R1|].
    exists g'. split; [reflexivity|]. rewrite Nat.add_assoc. exact R'.
  - exfalso. apply (NR s). left. reflexivity.
Qed.

Definition rep_split (seed : N) (g : N) (k : nat) : Prop := g = splitmix_at seed k.
Definition rep_128 (seed : N) (g : N * N) (k : nat) : Prop :=
  [fst g; snd g] = words_after 23 18 5 k [splitmix_output seed 0; splitmix_output seed 1].
Definition rep_1024 (seed : N) (p0 : N) (g : xs1024) (k : nat) : Prop :=
  xs_wf g /\ xs_p g = (p0 + N.of_nat k) mod 16 /\
  (p0 = 0 -> window g = words_after 31 11 30 k (xs1024_start seed)).

Lemma numbered_split seed : numbered SplitMix64 (splitmix_output seed) (rep_split seed).
Proof.
  intros g k ->. exists (splitmix_at seed (S k)). split; [apply splitmix_next_at|reflexivity].
Qed.

Lemma numbered_128 seed : numbered XorShift128Plus (xs128_output seed) (rep_128 seed).
Proof.
  intros [a b] k R. unfold rep_128 in *. cbn [fst snd] in R.
  exists (b, xorshift 23 18 5 a b). cbn [next XorShift128Plus]. rewrite xs128_step.
  assert (E : words_after 23 18 5 (S k) [splitmix_output seed 0; splitmix_output seed 1] = [b; xorshift 23 18 5 a b]).
  { rewrite words_after_S by discriminate. rewrite <- R. reflexivity. }
  split; [|rewrite E; reflexivity]. unfold xs128_output. rewrite E. reflexivity.
Qed.

Lemma numbered_1024 seed : numbered XorShift1024Star (xs1024_output seed) (rep_1024 seed 0).
Proof.
  intros g k (W & P & E). specialize (E eq_refl).
  destruct (xs1024_step g W) as (old & rest & Ew & g' & En & W' & P' & Ew').
  exists g'. assert (E' : window g' = words_after 31 11 30 (S k) (xs1024_start seed)).
  { rewrite words_after_S by discriminate. rewrite <- E, Ew'. cbv zeta. rewrite Ew. reflexivity. }
  split.
  - cbn [next XorShift1024Star]. rewrite En. unfold xs1024_output. fold (xs1024_start seed). rewrite <- E', Ew'.
    unfold newest. rewrite last_snoc. reflexivity.
  - split; [exact W'|]. split; [|intros _; exact E']. rewrite P', P. rewrite N.add_mod_idemp_l by discriminate.
    f_equal. lia.
Qed.

Lemma xs1024_new_eq seed : xs1024_new seed = Ok (mkXs1024 (map (splitmix_output seed) (seq 0 16)) 0).
Proof. unfold xs1024_new. rewrite xs1024_seed_eq by reflexivity. reflexivity. Qed.

Lemma start_1024 seed : rep_1024 seed 0 (mkXs1024 (map (splitmix_output seed) (seq 0 16)) 0) 0.
Proof. split; [split; reflexivity|]. split; [reflexivity|]. intros _. reflexivity. Qed.

Lemma start_128 seed old : xs128_seed old seed = Ok (splitmix_output seed 0, splitmix_output seed 1).
Proof.
  unfold xs128_seed. change (splitmix_new seed) with (splitmix_at seed 0).
  rewrite splitmix_next_at. cbn [bind fst snd]. rewrite splitmix_next_at. reflexivity.
Qed.

(** ** C33 *)
Lemma splitmix_sequence seed cs : never_reseeds cs ->
  returned (prng_run SplitMix64 seed cs) (draws (splitmix_output seed) 0 cs).
Proof.
  intros NR. destruct (calls_numbered _ _ _ (numbered_split seed) cs seed 0 NR eq_refl) as (g' & E & _).
  unfold returned, outputs, prng_run. cbn [construct SplitMix64 bind]. unfold splitmix_new, splitmix_seed. rewrite E. reflexivity.
Qed.

Lemma xs128_sequence seed cs : never_reseeds cs ->
  returned (prng_run XorShift128Plus seed cs) (draws (xs128_output seed) 0 cs).
Proof.
  intros NR. destruct (calls_numbered _ _ _ (numbered_128 seed) cs (splitmix_output seed 0, splitmix_output seed 1) 0 NR eq_refl)
    as (g' & E & _).
  unfold returned, outputs, prng_run. cbn [construct XorShift128Plus]. unfold xs128_new. rewrite start_128.
  cbn [bind]. rewrite E. reflexivity.
Qed.

Lemma xs1024_sequence seed cs : never_reseeds cs ->
  returned (prng_run XorShift1024Star seed cs) (draws (xs1024_output seed) 0 cs).
Proof.
  intros NR. destruct (calls_numbered _ _ _ (numbered_1024 seed) cs _ 0%nat NR (start_1024 seed)) as (g' & E & _).
  unfold returned, outputs, prng_run. cbn [construct XorShift1024Star]. rewrite xs1024_new_eq.
  cbn [bind]. rewrite E. reflexivity.
Qed.

(** Range of the outputs. *)
Lemma lt_pow2_bits x n : x < 2 ^ n <-> forall i, n <= i -> N.testbit x i = false.
Proof.
  split.
  - intros H i Hi. destruct (N.eq_dec x 0) as [->|Hx]; [apply N.bits_0|].
    apply N.bits_above_log2. apply N.log2_lt_pow2 in H; lia.
  - intros H. destruct (N.eq_dec x 0) as [->|Hx]; [apply N.neq_0_lt_0, N.pow_nonzero; discriminate|].
    apply N.log2_lt_pow2; [lia|]. destruct (N.lt_ge_cases (N.log2 x) n) as [L|L]; [exact L|].
    specialize (H _ L). rewrite N.bit_log2 in H by exact Hx. discriminate.
Qed.

Lemma lxor_lt x y n : x < 2 ^ n -> y < 2 ^ n -> N.lxor x y < 2 ^ n.
Proof.
  rewrite !lt_pow2_bits. intros Hx Hy i Hi. rewrite N.lxor_spec, Hx, Hy by exact Hi. reflexivity.
Qed.

Lemma div_lt64 x k : x < 2 ^ 64 -> x / 2 ^ k < 2 ^ 64.
Proof.
  intros H. eapply N.le_lt_trans; [|exact H]. apply N.div_le_upper_bound; [apply N.pow_nonzero; discriminate|].
  assert (1 <= 2 ^ k) by (apply N.lt_pred_le, N.neq_0_lt_0, N.pow_nonzero; discriminate). nia.
Qed.

Lemma mix64_lt x : mix64 x < 2 ^ 64.
Proof. unfold mix64. cbv zeta. apply lxor_lt; [|apply div_lt64]; apply u64_lt. Qed.

Lemma outputs_below seed n : splitmix_output seed n < 2 ^ 64 /\ xs128_output seed n < 2 ^ 64 /\
  xs1024_output seed n < 2 ^ 64.
Proof. split; [apply mix64_lt|]. split; apply u64_lt. Qed.

Lemma next_inv {S} (G : prng S) : (forall g g' v, next G g = Ok (g', v) -> v < 2 ^ 64) ->
  forall cs g g' l, prng_calls G g cs = Ok (g', l) -> forall v, In v l -> prng_min <= v <= prng_max.
Proof.
  intros H. induction cs as [|[|z|s] r IH]; intros g g' l; cbn [prng_calls].
  - intros E v Hv. injection E as _ <-. destruct Hv.
  - destruct (next G g) as [[g1 v1]| | |] eqn:E1; cbn [bind fst snd]; try discriminate.
    destruct (prng_calls G g1 r) as [[g2 l2]| | |] eqn:E2; cbn [bind fst snd]; try discriminate.
    intros E v Hv. injection E as _ <-. destruct Hv as [<- | Hv]; [|exact (IH _ _ _ E2 v Hv)].
    apply H in E1. unfold prng_min, prng_max. rewrite N.sub_1_r. split; [apply N.le_0_l|apply N.lt_le_pred; exact E1].
  - destruct (discard G g z) as [g1| | |]; cbn [bind]; try discriminate. apply IH.
  - destruct (reseed G g s) as [g1| | |]; cbn [bind]; try discriminate. apply IH.
Qed.

Lemma run_in_range {S} (G : prng S) : (forall g g' v, next G g = Ok (g', v) -> v < 2 ^ 64) ->
  forall seed cs l, returned (prng_run G seed cs) l -> forall v, In v l -> prng_min <= v <= prng_max.
Proof.
  intros H seed cs l. unfold returned, outputs, prng_run.
  destruct (construct G seed) as [g| | |]; cbn [bind]; try discriminate.
  destruct (prng_calls G g cs) as [[g' l']| | |] eqn:E; cbn [bind snd]; try discriminate.
  intros E2. injection E2 as <-. exact (next_inv G H cs g g' l' E).
Qed.

Lemma splitmix_range g g' v : next SplitMix64 g = Ok (g', v) -> v < 2 ^ 64.
Proof. cbn [next SplitMix64]. rewrite splitmix_step. intros E. injection E as _ <-. apply mix64_lt. Qed.
Lemma xs128_range g g' v : next XorShift128Plus g = Ok (g', v) -> v < 2 ^ 64.
Proof. destruct g as [a b]. cbn [next XorShift128Plus]. rewrite xs128_step. intros E. injection E as _ <-. apply u64_lt. Qed.
Lemma xs1024_range g g' v : next XorShift1024Star g = Ok (g', v) -> v < 2 ^ 64.
Proof.
  cbn [next XorShift1024Star]. unfold xs1024_next.
  destruct (at_get _ _); cbn [bind]; try discriminate. destruct (at_get _ _); cbn [bind]; try discriminate.
  destruct (at_set _ _ _); cbn [bind]; try discriminate. destruct (at_get _ _); cbn [bind]; try discriminate.
  intros E. injection E as _ <-. apply u64_lt.
Qed.

(** ** C34 *)
Lemma calls_app {S} (G : prng S) : forall a g b, prng_calls G g (a ++ b) =
  do x <- prng_calls G g a; do y <- prng_calls G (fst x) b; Ok (fst y, snd x ++ snd y).
Proof.
  induction a as [|[|z|s] r IH]; intros g b; cbn [app prng_calls].
  - cbn [bind fst snd]. destruct (prng_calls G g b) as [[? ?]| | |]; reflexivity.
  - destruct (next G g) as [[g1 v1]| | |]; cbn [bind fst snd]; try reflexivity. rewrite IH.
    destruct (prng_calls G g1 r) as [[g2 l2]| | |]; cbn [bind fst snd]; try reflexivity.
    destruct (prng_calls G g2 b) as [[? ?]| | |]; reflexivity.
  - destruct (discard G g z); cbn [bind]; try reflexivity. apply IH.
  - destruct (reseed G g s); cbn [bind]; try reflexivity. apply IH.
Qed.

(** Any calls succeed. *)
Lemma splitmix_total cs : forall g, exists x, prng_calls SplitMix64 g cs = Ok x.
Proof.
  induction cs as [|[|z|s] r IH]; intros g; cbn [prng_calls].
  - eauto.
  - cbn [next SplitMix64]. rewrite splitmix_step. cbn [bind fst snd]. destruct (IH (u64 (g + gamma))) as [x ->]. cbn [bind]. eauto.
  - destruct (discard_numbered _ _ _ (numbered_split g) z g 0 eq_refl) as (g1 & -> & _). cbn [bind]. apply IH.
  - cbn [reseed SplitMix64 bind]. apply IH.
Qed.

Lemma discard_total {S} (G : prng S) (inv : S -> Prop) :
  (forall g, inv g -> exists g' v, next G g = Ok (g', v) /\ inv g') ->
  forall z g, inv g -> exists g', discard G g z = Ok g' /\ inv g'.
Proof.
  intros H z g I. unfold discard. rewrite N2Nat.inj_iter. induction (N.to_nat z) as [|n IH]; rewrite ?iter_S.
  - exists g. split; [reflexivity|exact I].
  - destruct IH as (g1 & E & I1). rewrite E. cbn [bind]. destruct (H g1 I1) as (g2 & v & -> & I2). cbn [bind fst]. eauto.
Qed.

Lemma calls_total {S} (G : prng S) (inv : S -> Prop) :
  (forall g, inv g -> exists g' v, next G g = Ok (g', v) /\ inv g') ->
  (forall g s, inv g -> exists g', reseed G g s = Ok g' /\ inv g') ->
  forall cs g, inv g -> exists g' l, prng_calls G g cs = Ok (g', l) /\ inv g'.
Proof.
  intros H1 H2. induction cs as [|[|z|s] r IH]; intros g I; cbn [prng_calls].
  - eauto.
  - destruct (H1 g I) as (g1 & v & -> & I1). cbn [bind fst snd]. destruct (IH g1 I1) as (g2 & l & -> & I2). cbn [bind fst snd]. eauto.
  - destruct (discard_total G inv H1 z g I) as (g1 & -> & I1). cbn [bind]. apply IH, I1.
  - destruct (H2 g s I) as (g1 & -> & I1). cbn [bind]. apply IH, I1.
Qed.

Lemma like_fresh_intro {S} (G : prng S) (inv : S -> Prop) s0 s before g0 g1 l1 gf :
  (forall g, inv g -> exists g' v, next G g = Ok (g', v) /\ inv g') ->
  (forall g s, inv g -> exists g', reseed G g s = Ok g' /\ inv g') ->
  construct G s0 = Ok g0 -> prng_calls G g0 before = Ok (g1, l1) ->
  construct G s = Ok gf -> inv gf -> reseed G g1 s = Ok gf -> like_fresh G s0 s before.
Proof.
  intros H1 H2 C0 E0 Cf If R after. destruct (calls_total G inv H1 H2 after gf If) as (g2 & l2 & E2 & _).
  exists l1, l2. unfold returned, outputs, prng_run. rewrite C0, Cf. cbn [bind]. rewrite E0, E2. cbn [bind snd].
  split; [reflexivity|]. split; [reflexivity|]. rewrite calls_app, E0. cbn [bind fst snd prng_calls]. rewrite R.
  cbn [bind]. rewrite E2. reflexivity.
Qed.

Lemma splitmix_inv : (forall g : N, True -> exists g' v, next SplitMix64 g = Ok (g', v) /\ True) /\
  (forall (g s : N), True -> exists g', reseed SplitMix64 g s = Ok g' /\ True).
Proof.
  split; intros g; intros; [|eexists; split; [reflexivity|exact I]].
  cbn [next SplitMix64]. rewrite splitmix_step. eauto.
Qed.

Lemma xs128_inv : (forall g : N * N, True -> exists g' v, next XorShift128Plus g = Ok (g', v) /\ True) /\
  (forall (g : N * N) s, True -> exists g', reseed XorShift128Plus g s = Ok g' /\ True).
Proof.
  split; intros g; intros; [|eexists; split; [apply start_128|exact I]].
  destruct g. cbn [next XorShift128Plus]. rewrite xs128_step. eauto.
Qed.

Lemma xs1024_inv : (forall g, xs_wf g -> exists g' v, next XorShift1024Star g = Ok (g', v) /\ xs_wf g') /\
  (forall g s, xs_wf g -> exists g', reseed XorShift1024Star g s = Ok g' /\ xs_wf g').
Proof.
  split.
  - intros g W. destruct (xs1024_step g W) as (o & r & _ & g' & E & W' & _). eauto.
  - intros g s [L P]. eexists. split; [apply xs1024_seed_eq, L|]. split; [reflexivity|exact P].
Qed.

Lemma splitmix_reseed s0 s before : like_fresh SplitMix64 s0 s before.
Proof.
  destruct splitmix_inv as [H1 H2]. destruct (calls_total SplitMix64 (fun _ => True) H1 H2 before s0 I) as (g1 & l1 & E & _).
  eapply (like_fresh_intro SplitMix64 (fun _ => True)); eauto; reflexivity.
Qed.

Lemma xs128_reseed s0 s before : like_fresh XorShift128Plus s0 s before.
Proof.
  destruct xs128_inv as [H1 H2].
  destruct (calls_total XorShift128Plus (fun _ => True) H1 H2 before (splitmix_output s0 0, splitmix_output s0 1) I) as (g1 & l1 & E & _).
  eapply (like_fresh_intro XorShift128Plus (fun _ => True)); eauto; apply start_128.
Qed.

Lemma xs1024_pos g : forall z, xs_wf g -> exists g', discard XorShift1024Star g z = Ok g' /\ xs_wf g' /\
  xs_p g' = (xs_p g + N.of_nat (N.to_nat z)) mod 16.
Proof.
  intros z W. unfold discard. rewrite N2Nat.inj_iter. induction (N.to_nat z) as [|n IH]; rewrite ?iter_S.
  - exists g. split; [reflexivity|]. split; [exact W|]. change (N.of_nat 0) with 0. rewrite N.add_0_r.
    symmetry. apply N.mod_small, W.
  - destruct IH as (g1 & E & W1 & P1). rewrite E. cbn [bind].
    destruct (xs1024_step g1 W1) as (o & r & _ & g2 & E2 & W2 & P2 & _). cbn [next XorShift1024Star]. rewrite E2.
    cbn [bind fst]. exists g2. split; [reflexivity|]. split; [exact W2|]. rewrite P2, P1.
    rewrite N.add_mod_idemp_l by discriminate. f_equal. lia.
Qed.

Lemma xs1024_calls_pos cs : forall g, xs_wf g -> exists g' l, prng_calls XorShift1024Star g cs = Ok (g', l) /\
  xs_wf g' /\ xs_p g' = (xs_p g + N.of_nat (consumed cs)) mod 16.
Proof.
  induction cs as [|[|z|s] r IH]; intros g W; cbn [prng_calls consumed].
  - exists g, []. split; [reflexivity|]. split; [exact W|]. change (N.of_nat 0) with 0. rewrite N.add_0_r.
    symmetry. apply N.mod_small, W.
  - destruct (xs1024_step g W) as (o & rr & _ & g2 & E2 & W2 & P2 & _). cbn [next XorShift1024Star]. rewrite E2. cbn [bind fst snd].
    destruct (IH g2 W2) as (g3 & l3 & -> & W3 & P3). cbn [bind fst snd]. do 2 eexists. split; [reflexivity|].
    split; [exact W3|]. rewrite P3, P2, N.add_mod_idemp_l by discriminate. f_equal. lia.
  - destruct (xs1024_pos g z W) as (g2 & -> & W2 & P2). cbn [bind].
    destruct (IH g2 W2) as (g3 & l3 & -> & W3 & P3). do 2 eexists. split; [reflexivity|].
    split; [exact W3|]. rewrite P3, P2, N.add_mod_idemp_l by discriminate. f_equal. lia.
  - cbn [reseed XorShift1024Star]. rewrite xs1024_seed_eq by apply W. cbn [bind].
    destruct (IH (mkXs1024 (map (splitmix_output s) (seq 0 16)) (xs_p g))) as (g3 & l3 & -> & W3 & P3).
    { split; [reflexivity|apply W]. }
    do 2 eexists. split; [reflexivity|]. split; [exact W3|exact P3].
Qed.

Lemma xs1024_reseed s0 s before : (consumed before mod 16 = 0)%nat -> like_fresh XorShift1024Star s0 s before.
Proof.
  intros M. destruct xs1024_inv as [H1 H2].
  destruct (xs1024_calls_pos before (mkXs1024 (map (splitmix_output s0) (seq 0 16)) 0)) as (g1 & l1 & E & W & P).
  { split; reflexivity. }
  cbn [xs_p] in P. rewrite N.add_0_l in P.
  assert (P0 : xs_p g1 = 0).
  { rewrite P. change 16 with (N.of_nat 16). rewrite <- Nat2N.inj_mod, M. reflexivity. }
  eapply (like_fresh_intro XorShift1024Star xs_wf); [exact H1|exact H2|apply xs1024_new_eq|exact E|apply xs1024_new_eq| |].
  - split; reflexivity.
  - cbn [reseed XorShift1024Star]. rewrite xs1024_seed_eq by apply W. rewrite P0. reflexivity.
Qed.

Lemma xs1024_reseed_fails : ~ like_fresh XorShift1024Star 42 42 [Draw].
Proof.
  intros H. destruct (H [Draw]) as (e & l & H1 & H2 & H3).
  assert (C : match outputs (prng_run XorShift1024Star 42 [Draw]), outputs (prng_run XorShift1024Star 42 ([Draw] ++ Seed 42 :: [Draw])) with
    | Ok [x], Ok [x'; y] => N.eqb x y | _, _ => true end = false) by (vm_compute; reflexivity).
  unfold returned in *. rewrite H1, H3 in C. rewrite H2 in H1. injection H1 as ->.
  destruct e as [|x [|? ?]]; try discriminate C. cbn [app] in C. rewrite N.eqb_refl in C. discriminate C.
Qed.

(** ** C35 *)
Lemma lxor_self_shiftr d k : 0 < k -> N.lxor d (d / 2 ^ k) = 0 -> d = 0.
Proof.
  intros K H. apply N.lxor_eq in H. destruct (N.eq_dec d 0) as [E|E]; [exact E|exfalso].
  assert (1 < 2 ^ k) by (apply N.pow_gt_1; lia).
  pose proof (N.div_lt d (2 ^ k) ltac:(lia) ltac:(lia)). lia.
Qed.

Lemma lxor_self_shiftl d a : 0 < a -> d < 2 ^ 64 -> N.lxor d ((d * 2 ^ a) mod 2 ^ 64) = 0 -> d = 0.
Proof.
  intros A L H. apply N.lxor_eq in H. apply N.bits_inj_0. intros i.
  induction i as [i IH] using (well_founded_induction N.lt_wf_0).
  destruct (N.lt_ge_cases i 64) as [Hi|Hi]; [|apply (proj1 (lt_pow2_bits d 64) L i Hi)].
  rewrite H, N.mod_pow2_bits_low by exact Hi.
  destruct (N.lt_ge_cases i a) as [Ha|Ha].
  - apply N.mul_pow2_bits_low, Ha.
  - rewrite N.mul_pow2_bits_high by exact Ha. apply IH. lia.
Qed.

Lemma xorshift_zero a b c old : 0 < a -> 0 < b -> old < 2 ^ 64 -> xorshift a b c old 0 = 0 -> old = 0.
Proof.
  intros A B L H. unfold xorshift in H. cbv zeta in H. rewrite N.div_0_l in H by (apply N.pow_nonzero; discriminate).
  rewrite N.lxor_nilpotent, N.lxor_0_r in H. apply lxor_self_shiftr in H; [|exact B].
  apply lxor_self_shiftl in H; assumption.
Qed.

Lemma xorshift_lt a b c x y : x < 2 ^ 64 -> y < 2 ^ 64 -> xorshift a b c x y < 2 ^ 64.
Proof.
  intros Hx Hy. unfold xorshift. cbv zeta. set (t := N.lxor x _).
  assert (t < 2 ^ 64) by (apply lxor_lt; [exact Hx|apply u64_lt]).
  apply lxor_lt; apply lxor_lt; auto; apply div_lt64; assumption.
Qed.

Definition words64 (l : list N) : Prop := forall w, In w l -> w < 2 ^ 64.

Lemma xs128_nonzero_step a b s v : a < 2 ^ 64 -> b < 2 ^ 64 -> ~ xs128_zero (a, b) ->
  xs128_next (a, b) = Ok (s, v) -> fst s < 2 ^ 64 /\ snd s < 2 ^ 64 /\ ~ xs128_zero s.
Proof.
  intros Ha Hb NZ. rewrite xs128_step. intros E. injection E as <- <-. cbn [fst snd].
  split; [exact Hb|]. split; [apply xorshift_lt; assumption|].
  unfold xs128_zero in *. intros E. injection E as -> E. apply xorshift_zero in E; [|lia|lia|exact Ha]. subst. apply NZ. reflexivity.
Qed.

Lemma window_in g w : In w (window g) <-> In w (xs_state g).
Proof.
  unfold window. rewrite in_app_iff.
  rewrite <- (firstn_skipn (S (N.to_nat (xs_p g))) (xs_state g)) at 3. rewrite in_app_iff. tauto.
Qed.

Lemma window_length g : length (window g) = length (xs_state g).
Proof. unfold window. rewrite app_length, skipn_length, firstn_length. lia. Qed.

Lemma xs1024_nonzero_step g g' v : xs_wf g -> words64 (xs_state g) -> ~ xs1024_zero g ->
  xs1024_next g = Ok (g', v) -> xs_wf g' /\ words64 (xs_state g') /\ ~ xs1024_zero g'.
Proof.
  intros W L NZ E. destruct (xs1024_step g W) as (old & rest & Ew & g1 & E1 & W1 & _ & Ew1).
  rewrite E1 in E. injection E as <- _.
  assert (Lw : forall w, In w (window g) -> w < 2 ^ 64) by (intros w Hw; apply L, window_in, Hw).
  assert (Llast : In (last (window g) 0) (window g)).
  { rewrite Ew. clear. revert old. induction rest as [|x r IH]; intros o; [left; reflexivity|].
    right. change (last (o :: x :: r) 0) with (last (x :: r) 0). apply IH. }
  split; [exact W1|]. split.
  - intros w Hw. apply window_in in Hw. rewrite Ew1 in Hw. apply in_app_iff in Hw. destruct Hw as [Hw|[<- |[]]].
    + apply Lw. rewrite Ew. right. exact Hw.
    + apply xorshift_lt; apply Lw; [rewrite Ew; left; reflexivity|exact Llast].
  - intros Z. apply NZ. intros w Hw. apply window_in in Hw.
    assert (Zr : forall x, In x rest -> x = 0).
    { intros x Hx. apply Z, window_in. rewrite Ew1. apply in_app_iff. left. exact Hx. }
    assert (Zl : last (window g) 0 = 0).
    { apply Zr. pose proof (window_length g) as Lg. rewrite (proj1 W), Ew in Lg. rewrite Ew.
      destruct rest as [|x r] using rev_ind; [discriminate Lg|].
      change (old :: r ++ [x]) with ((old :: r) ++ [x]). rewrite last_snoc. apply in_app_iff. right. left. reflexivity. }
    assert (Zo : xorshift 31 11 30 old (last (window g) 0) = 0).
    { apply Z, window_in. rewrite Ew1. apply in_app_iff. right. left. reflexivity. }
    rewrite Zl in Zo. apply xorshift_zero in Zo; [|lia|lia|apply Lw; rewrite Ew; left; reflexivity].
    rewrite Ew in Hw. destruct Hw as [<- |Hw]; [exact Zo|apply Zr, Hw].
Qed.

(** *** SplitMix64 never repeats within its period *)
Lemma xor_shift_inj x y k : 0 < k -> N.lxor x (x / 2 ^ k) = N.lxor y (y / 2 ^ k) -> x = y.
Proof.
  intros K H. apply N.lxor_eq. apply (lxor_self_shiftr (N.lxor x y) k K).
  rewrite <- !N.shiftr_div_pow2 in *. rewrite N.shiftr_lxor.
  rewrite N.lxor_assoc, (N.lxor_comm y), N.lxor_assoc, <- N.lxor_assoc, H.
  rewrite (N.lxor_comm (N.shiftr y k)). apply N.lxor_nilpotent.
Qed.

Lemma mul_odd_inj m x y : N.odd m = true -> x < 2 ^ 64 -> y < 2 ^ 64 ->
  (x * m) mod 2 ^ 64 = (y * m) mod 2 ^ 64 -> x = y.
Proof.
  intros O Hx Hy H.
  assert (G : forall a b, b <= a -> a < 2 ^ 64 -> (a * m) mod 2 ^ 64 = (b * m) mod 2 ^ 64 -> a = b).
  { intros a b Hab Ha E.
    assert (D : (2 ^ 64 | (Z.of_N m) * Z.of_N (a - b))%Z).
    { apply Z.mod_divide; [discriminate|]. rewrite N2Z.inj_sub by exact Hab. rewrite Z.mul_sub_distr_l.
      apply (f_equal Z.of_N) in E. rewrite !N2Z.inj_mod, !N2Z.inj_mul in E. change (Z.of_N (2 ^ 64)) with (2 ^ 64)%Z in E.
      rewrite Zminus_mod, (Z.mul_comm _ (Z.of_N a)), (Z.mul_comm _ (Z.of_N b)), E, Z.sub_diag. reflexivity. }
    apply Z.gauss in D.
    - destruct D as [q D]. assert (Z.of_N (a - b) < 2 ^ 64)%Z.
      { change (2 ^ 64)%Z with (Z.of_N (2 ^ 64)). apply N2Z.inj_lt. eapply N.le_lt_trans; [|exact Ha]. lia. }
      assert (q = 0)%Z. { assert (0 <= Z.of_N (a - b))%Z by lia. change (2 ^ 64)%Z with 18446744073709551616%Z in *. lia. }
      subst q. lia.
    - apply Zgcd_1_rel_prime. apply rel_prime_sym. 
      assert (R2 : rel_prime (Z.of_N m) 2).
      { apply rel_prime_sym. apply prime_rel_prime; [apply prime_2|]. intros [q Hq].
        apply N.odd_spec in O. destruct O as [r Hr]. lia. }
      assert (P : forall n, rel_prime (Z.of_N m) (2 ^ Z.of_nat n)%Z).
      { induction n as [|n IH]; [apply rel_prime_sym, rel_prime_1|].
        rewrite Nat2Z.inj_succ, Z.pow_succ_r by lia. apply rel_prime_mult; assumption. }
      exact (P 64%nat). }
  destruct (N.le_ge_cases y x) as [L|L]; [apply G; assumption|symmetry; apply G; auto].
Qed.

Lemma mix64_inj x y : x < 2 ^ 64 -> y < 2 ^ 64 -> mix64 x = mix64 y -> x = y.
Proof.
  intros Hx Hy H. unfold mix64 in H. cbv zeta in H.
  apply xor_shift_inj in H; [|reflexivity].
  apply mul_odd_inj in H; [|reflexivity|apply lxor_lt; [|apply div_lt64]; apply u64_lt..].
  apply xor_shift_inj in H; [|reflexivity].
  apply mul_odd_inj in H; [|reflexivity|apply lxor_lt; [|apply div_lt64]; assumption..].
  apply xor_shift_inj in H; [exact H|reflexivity].
Qed.

Lemma splitmix_distinct seed i j : (i < j)%nat -> N.of_nat (j - i) < 2 ^ 64 ->
  splitmix_output seed i <> splitmix_output seed j.
Proof.
  intros Hij Hd H. unfold splitmix_output in H. apply mix64_inj in H; [|apply u64_lt..].
  assert (E : (0 * gamma) mod 2 ^ 64 = (N.of_nat (j - i) * gamma) mod 2 ^ 64).
  { fold gamma in H. set (A := seed + N.of_nat (S i) * gamma) in *.
    replace (seed + N.of_nat (S j) * gamma) with (A + N.of_nat (j - i) * gamma) in H by (unfold A; nia).
    apply (f_equal Z.of_N) in H. rewrite !N2Z.inj_mod, N2Z.inj_add in H. change (Z.of_N (2 ^ 64)) with (2 ^ 64)%Z in H.
    assert (((Z.of_N A + Z.of_N (N.of_nat (j - i) * gamma)) - Z.of_N A) mod 2 ^ 64 = 0)%Z as E2.
    { rewrite Zminus_mod, <- H, Z.sub_diag. reflexivity. }
    replace (_ + _ - _)%Z with (Z.of_N (N.of_nat (j - i) * gamma)) in E2 by lia.
    apply N2Z.inj. rewrite !N2Z.inj_mod. change (Z.of_N (2 ^ 64)) with (2 ^ 64)%Z. rewrite E2. reflexivity. }
  apply mul_odd_inj in E; [lia|reflexivity|reflexivity|exact Hd].
Qed.

Lemma splitmix_no_repeat seed : forall n k, N.of_nat n <= 2 ^ 64 ->
  NoDup (map (splitmix_output seed) (seq k n)).
Proof.
  induction n as [|n IH]; intros k H; [constructor|]. cbn [seq map]. constructor.
  - rewrite in_map_iff. intros (j & E & Hj). apply in_seq in Hj. symmetry in E. revert E. apply splitmix_distinct; lia.
  - apply IH. lia.
Qed.

Lemma draws_repeat output : forall n k, draws output k (repeat Draw n) = map output (seq k n).
Proof. induction n as [|n IH]; intros k; [reflexivity|]. cbn [repeat draws seq map]. f_equal. apply IH. Qed.

Lemma repeat_never n : never_reseeds (repeat Draw n).
Proof. intros s H. apply repeat_spec in H. discriminate. Qed.

Lemma splitmix_period seed before n : never_reseeds before -> N.of_nat n <= 2 ^ 64 ->
  exists earlier values, returned (prng_run SplitMix64 seed (before ++ repeat Draw n)) (earlier ++ values) /\
    length values = n /\ NoDup values.
Proof.
  intros NR H. exists (draws (splitmix_output seed) 0 before), (map (splitmix_output seed) (seq (consumed before) n)).
  split; [|split; [rewrite map_length, seq_length; reflexivity|apply splitmix_no_repeat, H]].
  unfold returned, outputs, prng_run. cbn [construct SplitMix64 bind]. rewrite calls_app.
  destruct (calls_numbered _ _ _ (numbered_split seed) before seed 0 NR eq_refl) as (g' & E & R).
  unfold splitmix_new, splitmix_seed. rewrite E. cbn [bind fst snd].
  destruct (calls_numbered _ _ _ (numbered_split seed) (repeat Draw n) g' _ (repeat_never n) R) as (g2 & E2 & _).
  rewrite E2. cbn [bind fst snd]. rewrite draws_repeat. reflexivity.
Qed.

(** Seeded states are not all zero. *)
Lemma seed_128_nonzero seed : ~ xs128_zero (splitmix_output seed 0, splitmix_output seed 1).
Proof.
  intros E. injection E as E0 E1. apply (splitmix_distinct seed 0 1); [lia|reflexivity|congruence].
Qed.

Lemma calls_keep {S} (G : prng S) (inv : S -> Prop) :
  (forall g g' v, inv g -> next G g = Ok (g', v) -> inv g') ->
  (forall g s g', inv g -> reseed G g s = Ok g' -> inv g') ->
  forall cs g g' l, inv g -> prng_calls G g cs = Ok (g', l) -> inv g'.
Proof.
  intros H1 H2. induction cs as [|[|z|s] r IH]; intros g g' l I; cbn [prng_calls].
  - intros E. injection E as <- _. exact I.
  - destruct (next G g) as [[g1 v1]| | |] eqn:E1; cbn [bind fst snd]; try discriminate.
    destruct (prng_calls G g1 r) as [[g2 l2]| | |] eqn:E2; cbn [bind fst snd]; try discriminate.
    intros E. injection E as <- _. eauto.
  - assert (D : forall g1, discard G g z = Ok g1 -> inv g1).
    { unfold discard. rewrite N2Nat.inj_iter. induction (N.to_nat z) as [|n IHn]; rewrite ?iter_S.
      - intros g1 E. injection E as <-. exact I.
      - destruct (Nat.iter n _ (Ok g)) as [g2| | |] eqn:En; cbn [bind]; try discriminate.
        destruct (next G g2) as [[g3 v3]| | |] eqn:E3; cbn [bind fst]; try discriminate.
        intros g1 E. injection E as <-. eauto. }
    destruct (discard G g z) as [g1| | |]; cbn [bind]; try discriminate. apply IH. apply D. reflexivity.
  - destruct (reseed G g s) as [g1| | |] eqn:E1; cbn [bind]; try discriminate. apply IH. eauto.
Qed.

Definition inv128 (g : N * N) : Prop := fst g < 2 ^ 64 /\ snd g < 2 ^ 64 /\ ~ xs128_zero g.
Definition inv1024 (g : xs1024) : Prop := xs_wf g /\ words64 (xs_state g) /\ ~ xs1024_zero g.

Lemma xs128_never_zero seed cs g l : prng_run XorShift128Plus seed cs = Ok (g, l) -> ~ xs128_zero g.
Proof.
  unfold prng_run. cbn [construct XorShift128Plus]. unfold xs128_new. rewrite start_128. cbn [bind].
  intros E. apply (calls_keep XorShift128Plus inv128) in E; [apply E| | |].
  - intros [a b] g' v (A & B & C) H. exact (xs128_nonzero_step a b g' v A B C H).
  - intros g0 s g' _ H. cbn [reseed XorShift128Plus] in H. rewrite start_128 in H. injection H as <-.
    split; [apply mix64_lt|]. split; [apply mix64_lt|apply seed_128_nonzero].
  - split; [apply mix64_lt|]. split; [apply mix64_lt|apply seed_128_nonzero].
Qed.

Lemma seed_1024 seed p : p < 16 -> inv1024 (mkXs1024 (map (splitmix_output seed) (seq 0 16)) p).
Proof.
  intros P. split; [split; [reflexivity|exact P]|]. split.
  - intros w Hw. cbn [xs_state] in Hw. apply in_map_iff in Hw. destruct Hw as (i & <- & _). apply mix64_lt.
  - intros Z. apply (splitmix_distinct seed 0 1); [lia|reflexivity|].
    rewrite (Z (splitmix_output seed 0)), (Z (splitmix_output seed 1)); [reflexivity| |]; cbn; auto.
Qed.

Lemma xs1024_keeps cs : forall g g' l, inv1024 g -> prng_calls XorShift1024Star g cs = Ok (g', l) -> inv1024 g'.
Proof.
  apply (calls_keep XorShift1024Star inv1024).
  - intros g g' v (A & B & C) H. exact (xs1024_nonzero_step g g' v A B C H).
  - intros g s g' (A & _) H. cbn [reseed XorShift1024Star] in H. rewrite xs1024_seed_eq in H by apply A.
    injection H as <-. apply seed_1024, A.
Qed.

Lemma xs1024_never_zero seed cs g l : prng_run XorShift1024Star seed cs = Ok (g, l) -> ~ xs1024_zero g.
Proof.
  unfold prng_run. cbn [construct XorShift1024Star]. rewrite xs1024_new_eq. cbn [bind].
  intros E. apply xs1024_keeps in E; [apply E|apply seed_1024; reflexivity].
Qed.

(** Observable form: sixteen consecutive draws are never all zero. *)
Lemma xs1024_draws_window n : forall g g' l, xs_wf g -> words64 (xs_state g) ->
  prng_calls XorShift1024Star g (repeat Draw n) = Ok (g', l) -> (forall v, In v l -> v = 0) ->
  length l = n /\ xs_wf g' /\ words64 (xs_state g') /\
  exists kept, window g' = kept ++ repeat 0 (Nat.min n 16) /\ length (window g') = 16%nat.
Proof.
  induction n as [|n IH]; intros g g' l W L.
  - cbn [repeat prng_calls]. intros E _. injection E as <- <-. split; [reflexivity|]. split; [exact W|]. split; [exact L|].
    exists (window g). cbn [Nat.min repeat]. rewrite app_nil_r. split; [reflexivity|]. rewrite window_length. apply W.
  - change (repeat Draw (S n)) with (Draw :: repeat Draw n). rewrite repeat_cons, calls_app.
    destruct (prng_calls XorShift1024Star g (repeat Draw n)) as [[g1 l1]| | |] eqn:E1; cbn [bind fst snd]; try discriminate.
    cbn [prng_calls]. destruct (next XorShift1024Star g1) as [[g2 v]| | |] eqn:E2; cbn [bind fst snd]; try discriminate.
    intros E Z. injection E as <- <-.
    destruct (IH g g1 l1 W L E1) as (L1 & W1 & B1 & kept & K1 & K2).
    { intros x Hx. apply Z, in_app_iff. left. exact Hx. }
    cbn [next XorShift1024Star] in E2.
    destruct (xs1024_step g1 W1) as (old & rest & Ew & g3 & E3 & W3 & _ & Ew3). rewrite E3 in E2. injection E2 as <- Ev.
    assert (Lw : forall w, In w (window g1) -> w < 2 ^ 64) by (intros w Hw; apply B1, window_in, Hw).
    assert (Llast : last (window g1) 0 < 2 ^ 64).
    { apply Lw. rewrite Ew. clear. revert old. induction rest as [|x r IHr]; intros o; [left; reflexivity|].
      right. change (last (o :: x :: r) 0) with (last (x :: r) 0). apply IHr. }
    assert (Lold : old < 2 ^ 64) by (apply Lw; rewrite Ew; left; reflexivity).
    assert (N0 : xorshift 31 11 30 old (last (window g1) 0) = 0).
    { apply (mul_odd_inj 1181783497276652981); [reflexivity|apply xorshift_lt; assumption|reflexivity|].
      fold (u64 (xorshift 31 11 30 old (last (window g1) 0) * 1181783497276652981)). rewrite Ev.
      rewrite (Z v); [reflexivity|]. apply in_app_iff. right. left. reflexivity. }
    rewrite N0 in Ew3.
    split; [rewrite app_length, L1; simpl; lia|]. split; [exact W3|]. split.
    { intros w Hw. apply window_in in Hw. rewrite Ew3 in Hw. apply in_app_iff in Hw. destruct Hw as [Hw|[<- |[]]]; [|reflexivity].
      apply Lw. rewrite Ew. right. exact Hw. }
    rewrite window_length. rewrite Ew3.
    destruct (Nat.le_gt_cases 16 n) as [Hn|Hn].
    + rewrite Nat.min_r in K1 by exact Hn. rewrite Nat.min_r by lia.
      assert (kept = []).
      { rewrite K1, app_length, repeat_length in K2. destruct kept; [reflexivity|simpl in K2; lia]. }
      subst kept. rewrite Ew in K1. cbn [app repeat] in K1. injection K1 as _ ->. exists []. split; [reflexivity|apply W3].
    + rewrite Nat.min_l in K1 by lia. rewrite Nat.min_l by lia.
      destruct kept as [|k ks].
      { exfalso. rewrite K1 in K2. cbn [app] in K2. rewrite repeat_length in K2. lia. }
      rewrite Ew in K1. cbn [app] in K1. injection K1 as _ ->. exists ks. split; [|apply W3].
      rewrite <- app_assoc, <- repeat_cons. reflexivity.
Qed.

Lemma xs1024_not_all_zero seed before l values :
  returned (prng_run XorShift1024Star seed (before ++ repeat Draw 16)) (l ++ values) -> length values = 16%nat ->
  exists v, In v values /\ v <> 0.
Proof.
  unfold returned, outputs, prng_run. cbn [construct XorShift1024Star]. rewrite xs1024_new_eq. cbn [bind]. rewrite calls_app.
  destruct (prng_calls XorShift1024Star _ before) as [[g1 l1]| | |] eqn:E1; cbn [bind fst snd]; try discriminate.
  apply xs1024_keeps in E1; [|apply seed_1024; reflexivity]. destruct E1 as (W & B & NZ).
  destruct (prng_calls XorShift1024Star g1 (repeat Draw 16)) as [[g2 l2]| | |] eqn:E2; cbn [bind fst snd]; try discriminate.
  intros E Lv. injection E as E.
  destruct (Exists_dec (fun v => v <> 0) values (fun v => match N.eq_dec v 0 with left e => right (fun n => n e) | right n => left n end)) as [X|X].
  - apply Exists_exists in X. destruct X as (v & H1 & H2). eauto.
  - exfalso. assert (AZ : forall v, In v values -> v = 0).
    { intros v Hv. destruct (N.eq_dec v 0) as [e|n]; [exact e|]. exfalso. apply X, Exists_exists. eauto. }
    pose proof (xs1024_keeps (repeat Draw 16) g1 g2 l2 (conj W (conj B NZ)) E2) as (W2 & B2 & NZ2).
    assert (Ll : length l2 = 16%nat).
    { clear - E2. revert E2. generalize (16%nat) as n. intros n. revert g1 g2 l2.
      induction n as [|n IH]; intros g1 g2 l2; cbn [repeat prng_calls]; [intros E; injection E as _ <-; reflexivity|].
      destruct (next XorShift1024Star g1) as [[g3 v]| | |]; cbn [bind fst snd]; try discriminate.
      destruct (prng_calls XorShift1024Star g3 (repeat Draw n)) as [[g4 l4]| | |] eqn:E4; cbn [bind fst snd]; try discriminate.
      intros E. injection E as _ <-. simpl. f_equal. eapply IH, E4. }
    assert (Ev : l2 = values).
    { assert (Hl : length l = length l1) by (apply (f_equal (@length N)) in E; rewrite !app_length in E; lia).
      clear - E Hl. symmetry in E. revert l1 E Hl. induction l as [|x l IH]; intros [|y l1] E Hl; try discriminate.
      - symmetry. exact E. - cbn [app] in E. injection E as _ E. injection Hl as Hl. eauto. }
    subst l2. destruct (xs1024_draws_window 16 g1 g2 values W B E2 AZ) as (_ & _ & _ & kept & K1 & K2).
    apply NZ2. intros w Hw. apply window_in in Hw. rewrite K1 in Hw.
    assert (kept = []). { rewrite K1, app_length, repeat_length in K2. destruct kept; [reflexivity|simpl in K2; lia]. }
    subst kept. cbn [app] in Hw. apply repeat_spec in Hw. exact Hw.
Qed.

(** discard(n) leaves the generator in the state n draws leave it in. *)
Lemma discard_is_draws {S} (G : prng S) g z :
  discard G g z = do x <- prng_calls G g (repeat Draw (N.to_nat z)); Ok (fst x).
Proof.
  unfold discard. rewrite N2Nat.inj_iter. induction (N.to_nat z) as [|n IH].
  - reflexivity.
  - rewrite iter_S, IH. change (repeat Draw (Datatypes.S n)) with (Draw :: repeat Draw n). rewrite repeat_cons, calls_app.
    destruct (prng_calls G g (repeat Draw n)) as [[g1 l1]| | |]; cbn [bind fst snd]; try reflexivity.
    cbn [prng_calls]. destruct (next G g1) as [[g2 v]| | |]; reflexivity.
Qed.
