(** What C161 expects of references, told from the history of calls alone: a history is
    the list of calls made so far, the latest first. *)
From Verif Require Import Base RefMaybeModel.

Section Spec.
Variable T : Type.
Notation history := (list (rop T)).

(** How many objects and maybes were made. *)
Fixpoint made_objects (h : history) : nat :=
  match h with [] => 0 | o :: h' => match o with NewObject _ => S (made_objects h') | _ => made_objects h' end end.
Fixpoint made_maybes (h : history) : nat :=
  match h with [] => 0
  | o :: h' => match o with MakeEmpty | MakeRef _ | MakeCopy _ | MakeMove _ => S (made_maybes h') | _ => made_maybes h' end end.
(** The object maybe x was last bound to. *)
Fixpoint bound (h : history) (x : nat) : option nat :=
  match h with
  | [] => None
  | MakeEmpty :: h' => if x =? made_maybes h' then None else bound h' x
  | MakeRef p :: h' => if x =? made_maybes h' then Some p else bound h' x
  | (MakeCopy y | MakeMove y) :: h' => if x =? made_maybes h' then bound h' y else bound h' x
  | (AssignCopy x' y | AssignMove x' y) :: h' => if x =? x' then bound h' y else bound h' x
  | ResetMaybe x' :: h' => if x =? x' then None else bound h' x
  | _ :: h' => bound h' x
  end.
(** The latest value of object p, written directly or through any maybe; None if it does
    not exist (yet, or any more). *)
Fixpoint latest (h : history) (p : nat) : option T :=
  match h with
  | [] => None
  | NewObject v :: h' => if p =? made_objects h' then Some v else latest h' p
  | WriteObject p' v :: h' => if p =? p' then Some v else latest h' p
  | DestroyObject p' :: h' => if p =? p' then None else latest h' p
  | SetValue x v :: h' => match bound h' x with Some p' => if p =? p' then Some v else latest h' p | None => latest h' p end
  | _ :: h' => latest h' p
  end.
(** Calls that name maybes and objects that exist; a maybe that is read or written refers
    to nothing or to an object that is still there. *)
Definition lives (h : history) (p : nat) : Prop := latest h p <> None.
Definition usable (h : history) (x : nat) : Prop := (x < made_maybes h)%nat /\ forall p, bound h x = Some p -> lives h p.
Definition call_ok (h : history) (o : rop T) : Prop :=
  match o with
  | NewObject _ | MakeEmpty => True
  | WriteObject p _ | DestroyObject p | MakeRef p => lives h p
  | MakeCopy y | MakeMove y => (y < made_maybes h)%nat
  | AssignCopy x y | AssignMove x y => (x < made_maybes h)%nat /\ (y < made_maybes h)%nat
  | ResetMaybe x | AskHasValue x => (x < made_maybes h)%nat
  | GetValue x | SetValue x _ => usable h x
  end.
Fixpoint history_ok (h : history) : Prop := match h with [] => True | o :: h' => call_ok h' o /\ history_ok h' end.
(** The reply to call o after history h. *)
Definition expected (h : history) (o : rop T) : rreply T :=
  match o with
  | AskHasValue x => RFlag (match bound h x with Some _ => true | None => false end)
  | GetValue x => match bound h x with
      | Some p => match latest h p with Some v => RGot v | None => RDone end
      | None => RRaised RuntimeError end
  | SetValue x _ => match bound h x with Some _ => RDone | None => RRaised RuntimeError end
  | _ => RDone
  end.
Fixpoint replies (h : history) : list (rreply T) := match h with [] => [] | o :: h' => replies h' ++ [expected h' o] end.
End Spec.
Arguments made_objects {T}. Arguments made_maybes {T}. Arguments bound {T}. Arguments latest {T}. Arguments lives {T}. Arguments usable {T}.
Arguments call_ok {T}. Arguments history_ok {T}. Arguments expected {T}. Arguments replies {T}.
