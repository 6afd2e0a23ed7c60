(** Independent description of the three published generators as sequences of
    numbers, without any mutable state, and of what a user sees. *)
From Verif Require Import Base PrngModel.
Local Open Scope N_scope.

(** SplitMix64: the n-th output (from 0) is a fixed mixing function of
    seed + (n+1) * golden gamma. *)
Definition mix64 (x : N) : N :=
  let a := (N.lxor x (x / 2 ^ 30) * 0xBF58476D1CE4E5B9) mod 2 ^ 64 in
  let b := (N.lxor a (a / 2 ^ 27) * 0x94D049BB133111EB) mod 2 ^ 64 in
  N.lxor b (b / 2 ^ 31).
Definition splitmix_output (seed : N) (n : nat) : N :=
  mix64 ((seed + N.of_nat (S n) * 0x9E3779B97F4A7C15) mod 2 ^ 64).

(** Xorshift step with shifts a, b, c: the next word from the oldest one and the
    newest one. *)
Definition xorshift (a b c : N) (oldest newest : N) : N :=
  let t := N.lxor oldest ((oldest * 2 ^ a) mod 2 ^ 64) in
  N.lxor (N.lxor t (t / 2 ^ b)) (N.lxor newest (newest / 2 ^ c)).

(** Words produced when each new one is made from the oldest and the newest of
    the current window; [window] lists the current words, oldest first. *)
Fixpoint words_after (a b c : N) (n : nat) (window : list N) : list N :=
  match n with
  | O => window
  | S n' => match window with
            | [] => []
            | oldest :: rest =>
                words_after a b c n' (rest ++ [xorshift a b c oldest (last window 0)])
            end
  end.
Definition newest (window : list N) : N := last window 0.
Definition second_newest (window : list N) : N := last (removelast window) 0.

(** XorShift128+: two words seeded from SplitMix64; an output is the sum of the
    two newest words. *)
Definition xs128_output (seed : N) (n : nat) : N :=
  let w := words_after 23 18 5 (S n) [splitmix_output seed 0; splitmix_output seed 1] in
  (newest w + second_newest w) mod 2 ^ 64.

(** XorShift1024*: sixteen words seeded from SplitMix64, the first seeded one
    taken as the newest; an output is the newest word times a constant. *)
Definition xs1024_output (seed : N) (n : nat) : N :=
  let w := words_after 31 11 30 (S n) (map (splitmix_output seed) (seq 1 15 ++ [0%nat])) in
  (newest w * 1181783497276652981) mod 2 ^ 64.

(** What the draws among [cs] return, if [output] numbers the values of the
    generator and [k] of them have been consumed already. *)
Fixpoint draws (output : nat -> N) (k : nat) (cs : list prng_call) : list N :=
  match cs with
  | [] => []
  | Draw :: r => output k :: draws output (S k) r
  | Discard z :: r => draws output (k + N.to_nat z) r
  | Seed _ :: r => draws output k r
  end.
Definition never_reseeds (cs : list prng_call) : Prop := forall s, ~ In (Seed s) cs.

(** Values consumed by a sequence of calls. *)
Fixpoint consumed (cs : list prng_call) : nat :=
  match cs with
  | [] => 0
  | Draw :: r => S (consumed r)
  | Discard z :: r => N.to_nat z + consumed r
  | Seed _ :: r => consumed r
  end.

(** What a user who made the calls sees. *)
Definition outputs {S} (x : outcome (S * list N)) : outcome (list N) := do r <- x; Ok (snd r).
Definition returned {S} (x : outcome (S * list N)) (l : list N) : Prop := outputs x = Ok l.

(** Reseeding as a fresh start: outputs after [before; Seed s]. *)
Definition like_fresh {S} (G : prng S) (s0 s : N) (before : list prng_call) : Prop :=
  forall after, exists earlier later,
    returned (prng_run G s0 before) earlier /\
    returned (prng_run G s after) later /\
    returned (prng_run G s0 (before ++ Seed s :: after)) (earlier ++ later).

(** All-zero states. *)
Definition xs128_zero (s : N * N) : Prop := s = (0, 0).
Definition xs1024_zero (g : xs1024) : Prop := forall w, In w (xs_state g) -> w = 0.
