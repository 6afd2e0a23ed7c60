(** Specification vocabulary for C08-C11: what can be observed of a loop. *)
From Verif Require Import Base ParallelismModel.
Local Open Scope Z_scope.

(** The indices handed to the work function, in the order of the calls. *)
Definition visited (tr : list event) : list Z :=
  flat_map (fun ev => match ev with EvBegin _ lo hi => seqZ lo hi | _ => [] end) tr.

(** Thread numbers passed to the work function. *)
Definition thread_numbers (tr : list event) : list Z :=
  flat_map (fun ev => match ev with EvBegin t _ _ => [t] | _ => [] end) tr.

(** Exceptions thrown by the work function. *)
Definition thrown (tr : list event) : list exn :=
  flat_map (fun ev => match ev with EvEnd _ _ _ (Some e) => [e] | _ => [] end) tr.

Definition times_visited (tr : list event) (i : Z) : nat :=
  count_occ Z.eq_dec (visited tr) i.

(** Every index of [lo, hi) was visited once and no other index at all. *)
Definition each_once (lo hi : Z) (tr : list event) : Prop :=
  forall i, times_visited tr i = if (lo <=? i) && (i <? hi) then 1%nat else 0%nat.

(** No index was visited twice and no index outside [lo, hi) at all. *)
Definition at_most_once (lo hi : Z) (tr : list event) : Prop :=
  forall i, (times_visited tr i <= (if ((lo <=? i) && (i <? hi))%Z then 1 else 0))%nat.

Definition call_eq_dec (x y : Z * (Z * Z)) : {x = y} + {x <> y}.
Proof. repeat decide equality. Defined.

(** Remove one occurrence. *)
Fixpoint remove_one (x : Z * (Z * Z)) (l : list (Z * (Z * Z))) : list (Z * (Z * Z)) :=
  match l with
  | [] => []
  | y :: r => if call_eq_dec x y then r else y :: remove_one x r
  end.

(** Calls (thread number, range) that have begun and not ended after [tr]. *)
Definition running (tr : list event) : list (Z * (Z * Z)) :=
  fold_left (fun l ev => match ev with
                         | EvBegin t lo hi => (t, (lo, hi)) :: l
                         | EvEnd t lo hi _ => remove_one (t, (lo, hi)) l
                         end) tr [].

(** The two user-level loop bodies. *)
Definition loop_body (body : Z -> Z -> list (Z * Z)) : Prop :=
  body = range_body \/ body = index_body.

(** Arguments a caller may pass: a valid degree of parallelism, an ordered range
    of int64_t values whose length is an int64_t, and an OpenMP team with at
    least one thread. *)
Definition valid_call (num_threads lo hi : Z) (team : nat) : Prop :=
  DegreeOfParallelism num_threads = Ok num_threads /\
  int64_min <= lo /\ lo <= hi /\ hi <= int64_max /\ hi - lo <= int64_max /\
  (1 <= team)%nat.
