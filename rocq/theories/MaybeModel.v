(** Model of include/common_robotics_utilities/maybe.hpp: internal::TaggedUnion<A, B>
    as used by OwningMaybe<T>, that is with A the trivial DummyType and B = T.

    Lifetimes: every T that is constructed in the storage of a maybe is an element
    with a number; an element knows its value and how often its destructor ran.
    Using or destroying an element after its destructor ran, or destroying
    storage that never held an element, is undefined behaviour.  DummyType has no
    lifetime worth tracking (trivial constructor and destructor).  Copying or
    moving a T may throw: [w_faults] says, construction by construction, whether
    it does; a throwing construction leaves its source as it was and creates
    nothing.  Raw storage: [s_slot] is the element last constructed in the union. *)
From Verif Require Import Base.

Section Maybe.
Context {T : Type}.
(** What moving a T leaves behind in the source. *)
Variable moved : T -> T.

Record element : Type := mkElement { e_value : T; e_destroyed : nat }.
(** enum {TYPE_A, TYPE_B} type_, maybe.hpp:78. *)
Inductive tag_t : Type := TYPE_A | TYPE_B.
(** The data of a TaggedUnion, maybe.hpp:72-78. *)
Record storage : Type := mkStorage { s_tag : tag_t; s_slot : option nat }.
(** All elements ever constructed, all maybes ever constructed (None after
    destruction), coming faults. *)
Record world : Type := mkWorld {
  w_elements : list element; w_objects : list (option storage); w_faults : list bool }.

Definition state_m (A : Type) : Type := world -> world * outcome A.
Definition ret {A} (a : A) : state_m A := fun w => (w, Ok a).
Definition fail {A} (o : outcome A) : state_m A := fun w => (w, o).
Definition bind_m {A B} (m : state_m A) (f : A -> state_m B) : state_m B :=
  fun w => let '(w1, r) := m w in
           match r with
           | Ok a => f a w1
           | Throw e => (w1, Throw e) | UB => (w1, UB) | Diverge => (w1, Diverge)
           end.
Notation "'let!' x := a 'in' b" := (bind_m a (fun x => b)) (at level 200, x pattern, b at level 200).

(** Element operations: T's constructors, destructor, and access. *)
Definition construct_element (v : T) : state_m nat := fun w =>
  match w_faults w with
  | true :: r => (mkWorld (w_elements w) (w_objects w) r, Throw (UserException 0))
  | f => (mkWorld (w_elements w ++ [mkElement v 0]) (w_objects w) (tl f), Ok (length (w_elements w)))
  end.
Definition read_element (i : option nat) : state_m T := fun w =>
  match i with
  | Some i => match nth_error (w_elements w) i with
              | Some (mkElement v 0) => (w, Ok v)
              | _ => (w, UB)
              end
  | None => (w, UB)
  end.
Definition write_element (i : option nat) (v : T) : state_m unit := fun w =>
  match i with
  | Some i => match nth_error (w_elements w) i with
              | Some (mkElement _ 0) =>
                  (mkWorld (upd (w_elements w) i (mkElement v 0)) (w_objects w) (w_faults w), Ok tt)
              | _ => (w, UB)
              end
  | None => (w, UB)
  end.
Definition destroy_element (i : option nat) : state_m unit := fun w =>
  match i with
  | Some i => match nth_error (w_elements w) i with
              | Some (mkElement v 0) =>
                  (mkWorld (upd (w_elements w) i (mkElement v 1)) (w_objects w) (w_faults w), Ok tt)
              | _ => (w, UB)
              end
  | None => (w, UB)
  end.

(** The object with a name; using one that is not alive is a client error. *)
Definition get_object (x : nat) : state_m storage := fun w =>
  match nth_error (w_objects w) x with Some (Some s) => (w, Ok s) | _ => (w, UB) end.
Definition set_object (x : nat) (s : option storage) : state_m unit := fun w =>
  (mkWorld (w_elements w) (upd (w_objects w) x s) (w_faults w), Ok tt).
Definition new_object (s : storage) : state_m unit := fun w =>
  (mkWorld (w_elements w) (w_objects w ++ [Some s]) (w_faults w), Ok tt).

(** ConstructCopy, maybe.hpp:20-37: the storage it leaves in *this. *)
Definition ConstructCopy (other : storage) : state_m storage :=
  match s_tag other with
  | TYPE_A => ret (mkStorage TYPE_A None)
  | TYPE_B =>
      let! v := read_element (s_slot other) in
      let! i := construct_element v in
      ret (mkStorage TYPE_B (Some i))
  end.

(** ConstructMove, maybe.hpp:39-56. *)
Definition ConstructMove (other : storage) : state_m storage :=
  match s_tag other with
  | TYPE_A => ret (mkStorage TYPE_A None)
  | TYPE_B =>
      let! v := read_element (s_slot other) in
      let! i := construct_element v in
      let! _ := write_element (s_slot other) (moved v) in
      ret (mkStorage TYPE_B (Some i))
  end.

(** Cleanup, maybe.hpp:58-73. *)
Definition Cleanup (s : storage) : state_m unit :=
  match s_tag s with
  | TYPE_A => ret tt
  | TYPE_B => destroy_element (s_slot s)
  end.

(** Constructors of OwningMaybe and TaggedUnion, maybe.hpp:81-95, 148-156. *)
Definition new_empty : state_m unit := new_object (mkStorage TYPE_A None).
Definition new_value (v : T) : state_m unit :=
  let! i := construct_element v in new_object (mkStorage TYPE_B (Some i)).
Definition new_copy (y : nat) : state_m unit :=
  let! other := get_object y in let! s := ConstructCopy other in new_object s.
Definition new_move (y : nat) : state_m unit :=
  let! other := get_object y in let! s := ConstructMove other in new_object s.

(** Destructor, maybe.hpp:97. *)
Definition destroy (x : nat) : state_m unit :=
  let! s := get_object x in let! _ := Cleanup s in set_object x None.

(** operator=, maybe.hpp:99-108, 110-119, 158-160. *)
Definition assign_copy (x y : nat) : state_m unit :=
  if Nat.eqb x y then ret tt
  else
    let! s := get_object x in
    let! _ := Cleanup s in
    let! other := get_object y in
    let! s' := ConstructCopy other in
    set_object x (Some s').
Definition assign_move (x y : nat) : state_m unit :=
  if Nat.eqb x y then ret tt
  else
    let! s := get_object x in
    let! _ := Cleanup s in
    let! other := get_object y in
    let! s' := ConstructMove other in
    set_object x (Some s').

(** HasValue, maybe.hpp:188. *)
Definition has_value (x : nat) : state_m bool :=
  let! s := get_object x in ret (match s_tag s with TYPE_B => true | TYPE_A => false end).

(** Value, maybe.hpp:162-184: read, and assignment through the reference. *)
Definition value (x : nat) : state_m T :=
  let! s := get_object x in
  match s_tag s with TYPE_B => read_element (s_slot s) | TYPE_A => fail (Throw RuntimeError) end.
Definition set_value (x : nat) (v : T) : state_m unit :=
  let! s := get_object x in
  match s_tag s with TYPE_B => write_element (s_slot s) v | TYPE_A => fail (Throw RuntimeError) end.

(** Reset, maybe.hpp:186: assignment from a temporary that holds the dummy, and
    the destruction of the temporary. *)
Definition reset (x : nat) : state_m unit :=
  let temporary := mkStorage TYPE_A None in
  let! s := get_object x in
  let! _ := Cleanup s in
  let! s' := ConstructMove temporary in
  let! _ := set_object x (Some s') in
  Cleanup temporary.

(** One operation of a client; objects are numbered in order of construction. *)
Inductive op : Type :=
| NewEmpty | NewValue (v : T) | NewCopy (y : nat) | NewMove (y : nat)
| AssignCopy (x y : nat) | AssignMove (x y : nat) | Reset (x : nat) | Destroy (x : nat)
| HasValue (x : nat) | GetValue (x : nat) | SetValue (x : nat) (v : T).

Inductive reply : Type := Done | Flag (b : bool) | Got (v : T) | Raised (e : exn).

Definition reply_of {A} (k : A -> reply) (x : world * outcome A) : outcome (world * reply) :=
  match snd x with
  | Ok a => Ok (fst x, k a)
  | Throw e => Ok (fst x, Raised e)
  | UB => UB | Diverge => Diverge
  end.

Definition run_op (o : op) (w : world) : outcome (world * reply) :=
  let done := reply_of (fun _ : unit => Done) in
  match o with
  | NewEmpty => done (new_empty w)
  | NewValue v => done (new_value v w)
  | NewCopy y => done (new_copy y w)
  | NewMove y => done (new_move y w)
  | AssignCopy x y => done (assign_copy x y w)
  | AssignMove x y => done (assign_move x y w)
  | Reset x => done (reset x w)
  | Destroy x => done (destroy x w)
  | HasValue x => reply_of Flag (has_value x w)
  | GetValue x => reply_of Got (value x w)
  | SetValue x v => done (set_value x v w)
  end.

Fixpoint run_ops (os : list op) (w : world) : outcome (world * list reply) :=
  match os with
  | [] => Ok (w, [])
  | o :: r => do a <- run_op o w; do b <- run_ops r (fst a); Ok (fst b, snd a :: snd b)
  end.

(** A program that starts with no maybe. *)
Definition run_client (faults : list bool) (os : list op) : outcome (world * list reply) :=
  run_ops os (mkWorld [] [] faults).
End Maybe.
Arguments element : clear implicits.
Arguments world : clear implicits.
Arguments op : clear implicits.
Arguments reply : clear implicits.
