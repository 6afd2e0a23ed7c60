(** Model of ReferencingMaybe<T> (maybe.hpp:197-250) in a client program: the client's
    objects live in a store, a maybe is a pointer into it or null. *)
From Verif Require Import Base.

Section RefMaybe.
Variable T : Type.

(** The client's objects (None: destroyed) and the ReferencingMaybe<T> objects, each its
    item_ptr_ (maybe.hpp:206). *)
Record store : Type := mkStore { objects : list (option T); maybes : list (option nat) }.
Definition no_objects : store := mkStore [] [].

(** What a client can do: create, change and destroy objects; make maybes and use them. *)
Inductive rop : Type :=
| NewObject (v : T) | WriteObject (p : nat) (v : T) | DestroyObject (p : nat)
| MakeEmpty | MakeRef (p : nat) | MakeCopy (y : nat) | MakeMove (y : nat)
| AssignCopy (x y : nat) | AssignMove (x y : nat) | ResetMaybe (x : nat)
| AskHasValue (x : nat) | GetValue (x : nat) | SetValue (x : nat) (v : T).
Inductive rreply : Type := RDone | RFlag (b : bool) | RGot (v : T) | RRaised (e : exn).

Fixpoint set_nth {X} (n : nat) (v : X) (l : list X) : list X :=
  match l, n with [], _ => [] | _ :: l', O => v :: l' | a :: l', S n' => a :: set_nth n' v l' end.

(** HasValue, maybe.hpp:246, and operator bool, 248. *)
Definition HasValue (item_ptr : option nat) : bool := match item_ptr with Some _ => true | None => false end.
(** An access to *item_ptr_: undefined if the object is gone. *)
Definition deref (s : store) (p : nat) : outcome T := match nth_error (objects s) p with Some (Some v) => Ok v | _ => UB end.
(** Value(), maybe.hpp:222-244 (const and not const): the object, or std::runtime_error. *)
Definition Value (s : store) (item_ptr : option nat) : outcome T :=
  match item_ptr with Some p => deref s p | None => Throw RuntimeError end.
(** A call on a maybe that does not exist is a program that does not compile: UB. *)
Definition maybe_at (s : store) (x : nat) : outcome (option nat) := match nth_error (maybes s) x with Some m => Ok m | None => UB end.

Definition run_rop (o : rop) (s : store) : outcome (store * rreply) :=
  match o with
  | NewObject v => Ok (mkStore (objects s ++ [Some v]) (maybes s), RDone)
  | WriteObject p v => do _ <- deref s p; Ok (mkStore (set_nth p (Some v) (objects s)) (maybes s), RDone)
  | DestroyObject p => do _ <- deref s p; Ok (mkStore (set_nth p None (objects s)) (maybes s), RDone)
  (** ReferencingMaybe(), maybe.hpp:209 *)
  | MakeEmpty => Ok (mkStore (objects s) (maybes s ++ [None]), RDone)
  (** explicit ReferencingMaybe(T&), 211: the address of the object *)
  | MakeRef p => do _ <- deref s p; Ok (mkStore (objects s) (maybes s ++ [Some p]), RDone)
  (** the defaulted copy and move constructors, 213-215: both copy the pointer *)
  | MakeCopy y | MakeMove y => do m <- maybe_at s y; Ok (mkStore (objects s) (maybes s ++ [m]), RDone)
  (** the defaulted assignments, 217-219 *)
  | AssignCopy x y | AssignMove x y => do _ <- maybe_at s x; do m <- maybe_at s y;
      Ok (mkStore (objects s) (set_nth x m (maybes s)), RDone)
  (** Reset, 221 *)
  | ResetMaybe x => do _ <- maybe_at s x; Ok (mkStore (objects s) (set_nth x None (maybes s)), RDone)
  | AskHasValue x => do m <- maybe_at s x; Ok (s, RFlag (HasValue m))
  | GetValue x => do m <- maybe_at s x;
      match Value s m with Ok v => Ok (s, RGot v) | Throw e => Ok (s, RRaised e) | UB => UB | Diverge => Diverge end
  (** maybe.Value() = v *)
  | SetValue x v => do m <- maybe_at s x;
      match Value s m, m with
      | Ok _, Some p => Ok (mkStore (set_nth p (Some v) (objects s)) (maybes s), RDone)
      | Throw e, _ => Ok (s, RRaised e) | Diverge, _ => Diverge | _, _ => UB end
  end.
(** A program: the calls one after another. *)
Fixpoint run_rops (os : list rop) (s : store) : outcome (store * list rreply) :=
  match os with [] => Ok (s, []) | o :: os' => do r <- run_rop o s; do rs <- run_rops os' (fst r); Ok (fst rs, snd r :: snd rs) end.
End RefMaybe.
Arguments mkStore {T}. Arguments objects {T}. Arguments maybes {T}. Arguments no_objects {T}.
Arguments NewObject {T}. Arguments WriteObject {T}. Arguments DestroyObject {T}. Arguments MakeEmpty {T}. Arguments MakeRef {T}. Arguments MakeCopy {T}.
Arguments MakeMove {T}. Arguments AssignCopy {T}. Arguments AssignMove {T}. Arguments ResetMaybe {T}. Arguments AskHasValue {T}. Arguments GetValue {T}. Arguments SetValue {T}.
Arguments RDone {T}. Arguments RFlag {T}. Arguments RGot {T}. Arguments RRaised {T}. Arguments run_rop {T}. Arguments run_rops {T}. Arguments deref {T}. Arguments Value {T}. Arguments maybe_at {T}.
