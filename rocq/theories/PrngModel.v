(** Model of include/common_robotics_utilities/simple_prngs.hpp.

    uint64_t is a number below 2^64 with wrap-around arithmetic.  The
    std::array of the 1024-bit generator is a list of 16 words; at() throws when
    out of range. *)
From Verif Require Import Base.
Local Open Scope N_scope.

(** uint64_t arithmetic: reduction, addition, multiplication, left shift. *)
Definition u64 (x : N) : N := x mod 2 ^ 64.
Definition add64 (x y : N) : N := u64 (x + y).
Definition mul64 (x y : N) : N := u64 (x * y).
Definition shl64 (x k : N) : N := u64 (N.shiftl x k).

(** SplitMix64PRNG: members, seed and constructor, Next and operator(),
    simple_prngs.hpp:20, 47-50, 32-35, 22-28 and 65-68. *)
Definition splitmix_seed (old : N) (seed_val : N) : N := seed_val.
Definition splitmix_new (seed_val : N) : N := splitmix_seed 0 seed_val.
Definition splitmix_next (state : N) : outcome (N * N) :=
  let state1 := add64 state 0x9E3779B97F4A7C15 in
  let z := state1 in
  let z := mul64 (N.lxor z (N.shiftr z 30)) 0xBF58476D1CE4E5B9 in
  let z := mul64 (N.lxor z (N.shiftr z 27)) 0x94D049BB133111EB in
  Ok (state1, N.lxor z (N.shiftr z 31)).

(** XorShift128PlusPRNG: members, seed and constructor, Next and operator(),
    simple_prngs.hpp:76-77, 106-111, 91-94, 79-87 and 126-129. *)
Definition xs128_seed (old : N * N) (seed_val : N) : outcome (N * N) :=
  do r1 <- splitmix_next (splitmix_new seed_val);
  do r2 <- splitmix_next (fst r1);
  Ok (snd r1, snd r2).
Definition xs128_new (seed_val : N) : outcome (N * N) := xs128_seed (0, 0) seed_val.
Definition xs128_next (state : N * N) : outcome ((N * N) * N) :=
  let '(state_1, state_2) := state in
  let s1 := state_1 in
  let s0 := state_2 in
  let state_1 := s0 in
  let s1 := N.lxor s1 (shl64 s1 23) in
  let state_2 := N.lxor (N.lxor (N.lxor s1 s0) (N.shiftr s1 18)) (N.shiftr s0 5) in
  Ok ((state_1, state_2), add64 state_2 s0).

(** XorShift1024StarPRNG: members, simple_prngs.hpp:137-139. *)
Record xs1024 : Type := mkXs1024 { xs_state : list N; xs_p : N }.

(** seed, simple_prngs.hpp:169-176: the loop over the 16 words. *)
Fixpoint xs1024_fill (n : nat) (idx : nat) (gen : N) (state : list N) : outcome (list N) :=
  match n with
  | O => Ok state
  | S n' =>
      do r <- splitmix_next gen;
      do state' <- raw_set state idx (snd r);
      xs1024_fill n' (S idx) (fst r) state'
  end.
Definition xs1024_seed (g : xs1024) (seed_val : N) : outcome xs1024 :=
  do s <- xs1024_fill (length (xs_state g)) 0 (splitmix_new seed_val) (xs_state g);
  Ok (mkXs1024 s (xs_p g)).

(** Constructor, simple_prngs.hpp:153-157. *)
Definition xs1024_new (seed_val : N) : outcome xs1024 :=
  do g <- xs1024_seed (mkXs1024 (repeat 0 16) 0) seed_val;
  Ok (mkXs1024 (xs_state g) 0).

(** Next and operator(), simple_prngs.hpp:141-149 and 191-194. *)
Definition xs1024_next (g : xs1024) : outcome (xs1024 * N) :=
  do s0 <- at_get (xs_state g) (N.to_nat (xs_p g));
  let p := N.land (u64 (xs_p g + 1)) 15 in
  do s1 <- at_get (xs_state g) (N.to_nat p);
  let s1 := N.lxor s1 (shl64 s1 31) in
  do state <- at_set (xs_state g) (N.to_nat p)
    (N.lxor (N.lxor (N.lxor s1 s0) (N.shiftr s1 11)) (N.shiftr s0 30));
  do v <- at_get state (N.to_nat p);
  Ok (mkXs1024 state p, mul64 v 1181783497276652981).

(** The interface shared by the three classes. *)
Record prng (S : Type) : Type := mkPrng {
  construct : N -> outcome S; reseed : S -> N -> outcome S; next : S -> outcome (S * N) }.
Arguments construct {S}. Arguments reseed {S}. Arguments next {S}.

Definition SplitMix64 : prng N :=
  mkPrng N (fun s => Ok (splitmix_new s)) (fun g s => Ok (splitmix_seed g s)) splitmix_next.
Definition XorShift128Plus : prng (N * N) := mkPrng (N * N) xs128_new xs128_seed xs128_next.
Definition XorShift1024Star : prng xs1024 := mkPrng xs1024 xs1024_new xs1024_seed xs1024_next.

(** min and max, simple_prngs.hpp:37-45, 96-104, 159-167. *)
Definition prng_min : N := 0.
Definition prng_max : N := 2 ^ 64 - 1.

(** discard, simple_prngs.hpp:52-63, 113-124, 178-189 (the same loop three times). *)
Definition discard {S} (G : prng S) (g : S) (z : N) : outcome S :=
  N.iter z (fun o => do s <- o; do r <- next G s; Ok (fst r)) (Ok g).

(** Calls on one generator and the values the draws return. *)
Inductive prng_call : Type := Draw | Discard (z : N) | Seed (seed_val : N).

Fixpoint prng_calls {S} (G : prng S) (g : S) (cs : list prng_call) : outcome (S * list N) :=
  match cs with
  | [] => Ok (g, [])
  | Draw :: r => do x <- next G g; do y <- prng_calls G (fst x) r; Ok (fst y, snd x :: snd y)
  | Discard z :: r => do g' <- discard G g z; prng_calls G g' r
  | Seed s :: r => do g' <- reseed G g s; prng_calls G g' r
  end.

(** Construct a generator and make the calls. *)
Definition prng_run {S} (G : prng S) (seed_val : N) (cs : list prng_call) : outcome (S * list N) :=
  do g <- construct G seed_val; prng_calls G g cs.
