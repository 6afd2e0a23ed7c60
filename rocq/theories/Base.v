(** Shared vocabulary of all models: outcomes of C++ code and raw array access. *)
From Coq Require Export List Arith ZArith NArith Bool Lia.
Export ListNotations.

(** C++ exception classes thrown by the library (std::invalid_argument etc.).
    [UserException n] stands for an exception escaping a user callback. *)
Inductive exn : Type :=
| InvalidArgument | OutOfRange | RuntimeError | LengthError | BadFunctionCall
| BadAlloc | UserException (n : nat).

(** Result of running a piece of C++ code: normal value, exception, undefined
    behaviour, or loop fuel exhausted (only used for loops without a bound). *)
Inductive outcome (A : Type) : Type :=
| Ok (a : A) | Throw (e : exn) | UB | Diverge.
Arguments Ok {A} a.
Arguments Throw {A} e.
Arguments UB {A}.
Arguments Diverge {A}.

(** Sequencing: exceptions, UB and divergence propagate. *)
Definition bind {A B} (x : outcome A) (f : A -> outcome B) : outcome B :=
  match x with
  | Ok a => f a
  | Throw e => Throw e
  | UB => UB
  | Diverge => Diverge
  end.
Notation "'do' x <- a ; b" := (bind a (fun x => b))
  (at level 200, x pattern, a at level 100, b at level 200).

Definition is_ok {A} (x : outcome A) : bool :=
  match x with Ok _ => true | _ => false end.

(** std::vector::operator[] read: out of range is undefined behaviour. *)
Definition raw_get {A} (l : list A) (i : nat) : outcome A :=
  match nth_error l i with Some a => Ok a | None => UB end.

(** std::vector::at read: out of range throws std::out_of_range. *)
Definition at_get {A} (l : list A) (i : nat) : outcome A :=
  match nth_error l i with Some a => Ok a | None => Throw OutOfRange end.

(** In-place update of one element; [None] when out of range. *)
Fixpoint set_nth {A} (l : list A) (i : nat) (v : A) : option (list A) :=
  match l, i with
  | [], _ => None
  | _ :: r, O => Some (v :: r)
  | x :: r, S j => match set_nth r j v with
                   | Some r' => Some (x :: r')
                   | None => None
                   end
  end.

(** std::vector::operator[] write: out of range is undefined behaviour. *)
Definition raw_set {A} (l : list A) (i : nat) (v : A) : outcome (list A) :=
  match set_nth l i v with Some l' => Ok l' | None => UB end.

(** std::vector::at write: out of range throws std::out_of_range. *)
Definition at_set {A} (l : list A) (i : nat) (v : A) : outcome (list A) :=
  match set_nth l i v with Some l' => Ok l' | None => Throw OutOfRange end.

(** Total update used in specifications and when the index is known good. *)
Fixpoint upd {A} (l : list A) (i : nat) (v : A) : list A :=
  match l, i with
  | [], _ => []
  | _ :: r, O => v :: r
  | x :: r, S j => x :: upd r j v
  end.

(** Left-to-right effectful fold over a list (range-for loop with early exit on
    exception). *)
Fixpoint mfold {S A} (f : S -> A -> outcome S) (s : S) (l : list A) : outcome S :=
  match l with
  | [] => Ok s
  | x :: r => do s' <- f s x; mfold f s' r
  end.

Lemma upd_length {A} (l : list A) i v : length (upd l i v) = length l.
Proof. revert i; induction l as [|x r IH]; intros [|i]; simpl; auto. Qed.

Lemma set_nth_upd {A} (l : list A) i v :
  i < length l -> set_nth l i v = Some (upd l i v).
Proof.
  revert i; induction l as [|x r IH]; intros [|i] Hi; simpl in *; try lia; auto.
  rewrite IH by lia. reflexivity.
Qed.

Lemma set_nth_none {A} (l : list A) i v :
  length l <= i -> set_nth l i v = None.
Proof.
  revert i; induction l as [|x r IH]; intros [|i] Hi; simpl in *; try lia; auto.
  rewrite IH by lia. reflexivity.
Qed.

Lemma set_nth_some {A} (l : list A) i v l' :
  set_nth l i v = Some l' -> i < length l /\ l' = upd l i v.
Proof.
  intros H. destruct (lt_dec i (length l)) as [Hi|Hi].
  - rewrite set_nth_upd in H by assumption. injection H as H. auto.
  - rewrite set_nth_none in H by lia. discriminate.
Qed.

Lemma nth_error_upd {A} (l : list A) i j v :
  nth_error (upd l i v) j =
  if Nat.eq_dec i j then (if lt_dec i (length l) then Some v else None)
  else nth_error l j.
Proof.
  revert i j; induction l as [|x r IH]; intros i j.
  - replace (upd [] i v) with (@nil A) by (destruct i; reflexivity).
    destruct (Nat.eq_dec i j); [destruct (lt_dec i (length (@nil A))); [simpl in *; lia|]|];
      destruct j; reflexivity.
  - destruct i as [|i], j as [|j]; simpl.
    + destruct (Nat.eq_dec 0 0) as [_|C]; [|lia].
      destruct (lt_dec 0 (S (length r))); [reflexivity|lia].
    + destruct (Nat.eq_dec 0 (S j)); [discriminate|reflexivity].
    + destruct (Nat.eq_dec (S i) 0); [discriminate|reflexivity].
    + rewrite IH. destruct (Nat.eq_dec i j) as [E|E], (Nat.eq_dec (S i) (S j)) as [E'|E'];
        try lia; try reflexivity.
      destruct (lt_dec i (length r)), (lt_dec (S i) (S (length r))); try lia; reflexivity.
Qed.

Lemma nth_error_upd_same {A} (l : list A) i v :
  i < length l -> nth_error (upd l i v) i = Some v.
Proof.
  intros Hi. rewrite nth_error_upd.
  destruct (Nat.eq_dec i i); [|lia]. destruct (lt_dec i (length l)); [reflexivity|lia].
Qed.

Lemma nth_error_upd_other {A} (l : list A) i j v :
  i <> j -> nth_error (upd l i v) j = nth_error l j.
Proof. intros H. rewrite nth_error_upd. destruct (Nat.eq_dec i j); [lia|reflexivity]. Qed.

Lemma nth_error_ext {A} (l1 l2 : list A) :
  (forall i, nth_error l1 i = nth_error l2 i) -> l1 = l2.
Proof.
  revert l2; induction l1 as [|x r IH]; intros [|y r2] H; auto.
  - specialize (H 0); discriminate.
  - specialize (H 0); discriminate.
  - f_equal.
    + specialize (H 0). simpl in H. congruence.
    + apply IH. intros i. exact (H (S i)).
Qed.

Lemma upd_app_r {A} (l r : list A) i v :
  upd (l ++ r) (length l + i) v = l ++ upd r i v.
Proof. induction l as [|x l IH]; simpl; [reflexivity|]. now rewrite IH. Qed.

Lemma bind_ok {A B} (x : outcome A) (f : A -> outcome B) b :
  bind x f = Ok b -> exists a, x = Ok a /\ f a = Ok b.
Proof. destruct x; simpl; intros H; try discriminate. eauto. Qed.

Lemma mfold_app {S A} (f : S -> A -> outcome S) s l1 l2 :
  mfold f s (l1 ++ l2) = do s' <- mfold f s l1; mfold f s' l2.
Proof.
  revert s; induction l1 as [|x r IH]; intros s; simpl; [reflexivity|].
  destruct (f s x); simpl; auto.
Qed.

(** Invariant rule for [mfold]. *)
Lemma mfold_inv {S A} (P : S -> Prop) (f : S -> A -> outcome S) s l s' :
  P s -> (forall s x s', In x l -> P s -> f s x = Ok s' -> P s') ->
  mfold f s l = Ok s' -> P s'.
Proof.
  revert s; induction l as [|x r IH]; intros s HP Hf H; simpl in H.
  - injection H as <-. exact HP.
  - apply bind_ok in H as (s1 & H1 & H2).
    apply (IH s1); auto.
    + eapply Hf; eauto. now left.
    + intros ? ? ? Hin. apply Hf. now right.
Qed.
