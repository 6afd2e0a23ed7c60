(** Properties C33, C34, C35 and C79 (random number generators).  Model in
    PrngModel.v, vocabulary in PrngSpec.v. *)
From Verif Require Import Base PrngModel PrngSpec PrngProof.
Local Open Scope N_scope.

(** C33: the values returned by any sequence of draws and discards are those of
    the published generator for the seed (so equal seeds give equal sequences). *)
Theorem C33_splitmix64_sequence : forall seed cs, never_reseeds cs ->
  returned (prng_run SplitMix64 seed cs) (draws (splitmix_output seed) 0 cs).
Proof. exact splitmix_sequence. Qed.
Print Assumptions C33_splitmix64_sequence.

Theorem C33_xorshift128plus_sequence : forall seed cs, never_reseeds cs ->
  returned (prng_run XorShift128Plus seed cs) (draws (xs128_output seed) 0 cs).
Proof. exact xs128_sequence. Qed.
Print Assumptions C33_xorshift128plus_sequence.

Theorem C33_xorshift1024star_sequence : forall seed cs, never_reseeds cs ->
  returned (prng_run XorShift1024Star seed cs) (draws (xs1024_output seed) 0 cs).
Proof. exact xs1024_sequence. Qed.
Print Assumptions C33_xorshift1024star_sequence.

(** discard(n) leaves any generator, in any state, as n draws leave it. *)
Theorem C33_discard_is_n_draws : forall (S : Type) (G : prng S) g n,
  discard G g n = do x <- prng_calls G g (repeat Draw (N.to_nat n)); Ok (fst x).
Proof. intros S. exact discard_is_draws. Qed.
Print Assumptions C33_discard_is_n_draws.

(** Whatever calls are made, also with reseeding, outputs are in [min(),max()]. *)
Theorem C33_outputs_in_range : forall seed cs l v,
  returned (prng_run SplitMix64 seed cs) l \/ returned (prng_run XorShift128Plus seed cs) l \/
  returned (prng_run XorShift1024Star seed cs) l ->
  In v l -> prng_min <= v <= prng_max.
Proof.
  intros seed cs l v [H|[H|H]]; [exact (run_in_range _ splitmix_range _ _ _ H v)
    |exact (run_in_range _ xs128_range _ _ _ H v)|exact (run_in_range _ xs1024_range _ _ _ H v)].
Qed.
Print Assumptions C33_outputs_in_range.

(** Published test values: first outputs of SplitMix64 for seed 1234567. *)
Example C33_nonvacuous : never_reseeds [Draw; Discard 2; Draw] /\
  outputs (prng_run SplitMix64 1234567 [Draw; Draw; Draw; Draw; Draw]) =
    Ok [6457827717110365317; 3203168211198807973; 9817491932198370423; 4593380528125082431; 16408922859458223821] /\
  outputs (prng_run XorShift1024Star 7 [Discard 20; Draw]) =
    outputs (do x <- prng_run XorShift1024Star 7 (repeat Draw 21); Ok (tt, skipn 20 (snd x))).
Proof.
  split; [intros s [H|[H|[H|[]]]]; discriminate|]. split; vm_compute; reflexivity.
Qed.

(** C34 (full claim: after seed(s), whatever happened before, a generator goes on
    like one constructed with s).  True of two generators, *)
Theorem C34_splitmix64_reseed : forall s0 s before, like_fresh SplitMix64 s0 s before.
Proof. exact splitmix_reseed. Qed.
Print Assumptions C34_splitmix64_reseed.

Theorem C34_xorshift128plus_reseed : forall s0 s before, like_fresh XorShift128Plus s0 s before.
Proof. exact xs128_reseed. Qed.
Print Assumptions C34_xorshift128plus_reseed.

(** false of the third: seed() does not put the position back, so a generator that
    was used once does not restart its own sequence; *)
Theorem C34_xorshift1024star_reseed_refuted :
  exists s0 s before, ~ like_fresh XorShift1024Star s0 s before.
Proof. exact (ex_intro _ 42 (ex_intro _ 42 (ex_intro _ [Draw] xs1024_reseed_fails))). Qed.
Print Assumptions C34_xorshift1024star_reseed_refuted.

(** it does when the number of values consumed since construction is a multiple
    of 16. *)
Theorem C34_xorshift1024star_reseed_partial : forall s0 s before,
  (consumed before mod 16 = 0)%nat -> like_fresh XorShift1024Star s0 s before.
Proof. exact xs1024_reseed. Qed.
Print Assumptions C34_xorshift1024star_reseed_partial.

Example C34_nonvacuous : (consumed [Draw; Discard 30; Seed 3; Draw] mod 16 = 0)%nat.
Proof. reflexivity. Qed.

(** C35: from any seed and through any calls, and from any non-zero state. *)
Theorem C35_xorshift128plus_never_zero :
  (forall seed cs g l, prng_run XorShift128Plus seed cs = Ok (g, l) -> ~ xs128_zero g) /\
  (forall a b g v, a < 2 ^ 64 -> b < 2 ^ 64 -> ~ xs128_zero (a, b) ->
     next XorShift128Plus (a, b) = Ok (g, v) -> ~ xs128_zero g).
Proof.
  split; [exact xs128_never_zero|]. intros a b g v A B NZ H. exact (proj2 (proj2 (xs128_nonzero_step a b g v A B NZ H))).
Qed.
Print Assumptions C35_xorshift128plus_never_zero.

Theorem C35_xorshift1024star_never_zero :
  (forall seed cs g l, prng_run XorShift1024Star seed cs = Ok (g, l) -> ~ xs1024_zero g) /\
  (forall g g' v, length (xs_state g) = 16%nat /\ xs_p g < 16 -> (forall w, In w (xs_state g) -> w < 2 ^ 64) ->
     ~ xs1024_zero g -> next XorShift1024Star g = Ok (g', v) -> ~ xs1024_zero g').
Proof.
  split; [exact xs1024_never_zero|]. intros g g' v A B NZ H. exact (proj2 (proj2 (xs1024_nonzero_step g g' v A B NZ H))).
Qed.
Print Assumptions C35_xorshift1024star_never_zero.

(** Observable consequence: no sixteen consecutive draws are all zero. *)
Theorem C35_xorshift1024star_output_not_stuck : forall seed before l values,
  returned (prng_run XorShift1024Star seed (before ++ repeat Draw 16)) (l ++ values) -> length values = 16%nat ->
  exists v, In v values /\ v <> 0.
Proof. exact xs1024_not_all_zero. Qed.
Print Assumptions C35_xorshift1024star_output_not_stuck.

Example C35_nonvacuous : exists g l, prng_run XorShift1024Star 0 [Draw; Seed 5; Draw] = Ok (g, l) /\ length l = 2%nat.
Proof.
  destruct (xs1024_calls_pos [Draw; Seed 5; Draw] (mkXs1024 (map (splitmix_output 0) (seq 0 16)) 0)) as (g & l & E & _).
  { split; reflexivity. }
  exists g, l. unfold prng_run. cbn [construct XorShift1024Star]. rewrite xs1024_new_eq. cbn [bind]. split; [exact E|].
  assert (C : match prng_calls XorShift1024Star (mkXs1024 (map (splitmix_output 0) (seq 0 16)) 0) [Draw; Seed 5; Draw] with
    Ok (_, l) => Nat.eqb (length l) 2 | _ => false end = true) by (vm_compute; reflexivity).
  rewrite E in C. apply Nat.eqb_eq, C.
Qed.

(** C79: SplitMix64 returns pairwise different values in any 2^64 consecutive
    draws. *)
Theorem C79_splitmix64_full_period : forall seed before n, never_reseeds before -> N.of_nat n <= 2 ^ 64 ->
  exists earlier values, returned (prng_run SplitMix64 seed (before ++ repeat Draw n)) (earlier ++ values) /\
    length values = n /\ NoDup values.
Proof. exact splitmix_period. Qed.
Print Assumptions C79_splitmix64_full_period.

Example C79_nonvacuous : never_reseeds [Draw; Discard 2] /\ N.of_nat 3 <= 2 ^ 64.
Proof. split; [intros s [H|[H|[]]]; discriminate|discriminate]. Qed.
