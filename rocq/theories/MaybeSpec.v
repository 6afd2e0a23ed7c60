(** What a client of OwningMaybe expects: a maybe is an option, copies are
    independent, a failing copy changes nothing. *)
From Verif Require Import Base MaybeModel.

Section Spec.
Context {T : Type}.
Variable moved : T -> T.

(** Maybes in order of construction; None once destroyed; what they hold. *)
Definition options : Type := list (option (option T)).

Definition held (os : options) (x : nat) : option (option T) :=
  match nth_error os x with Some (Some h) => Some h | _ => None end.

(** Constructing one element: does it fail, and the faults that remain. *)
Definition draw (faults : list bool) : bool * list bool :=
  match faults with [] => (false, []) | f :: r => (f, r) end.

Definition spec_result : Type := option (options * list bool * reply T).
Definition failed (st : options) (r : list bool) : spec_result := Some (st, r, Raised (UserException 0)).
Definition done (st : options) (r : list bool) : spec_result := Some (st, r, Done).

(** What an operation does; None: the client used a maybe that is not alive. *)
Definition spec_op (o : op T) (st : options) (faults : list bool) : spec_result :=
  match o with
  | NewEmpty => done (st ++ [Some None]) faults
  | NewValue v =>
      let (f, r) := draw faults in
      if f then failed st r else done (st ++ [Some (Some v)]) r
  | NewCopy y =>
      match held st y with
      | Some (Some v) => let (f, r) := draw faults in if f then failed st r else done (st ++ [Some (Some v)]) r
      | Some None => done (st ++ [Some None]) faults
      | None => None
      end
  | NewMove y =>
      match held st y with
      | Some (Some v) => let (f, r) := draw faults in
                         if f then failed st r else done (upd st y (Some (Some (moved v))) ++ [Some (Some v)]) r
      | Some None => done (st ++ [Some None]) faults
      | None => None
      end
  | AssignCopy x y =>
      match held st x, held st y with
      | Some _, Some (Some v) =>
          if Nat.eqb x y then done st faults
          else let (f, r) := draw faults in if f then failed st r else done (upd st x (Some (Some v))) r
      | Some _, Some None => done (upd st x (Some None)) faults
      | _, _ => None
      end
  | AssignMove x y =>
      match held st x, held st y with
      | Some _, Some (Some v) =>
          if Nat.eqb x y then done st faults
          else let (f, r) := draw faults in
               if f then failed st r else done (upd (upd st y (Some (Some (moved v)))) x (Some (Some v))) r
      | Some _, Some None => done (upd st x (Some None)) faults
      | _, _ => None
      end
  | Reset x => match held st x with Some _ => done (upd st x (Some None)) faults | None => None end
  | Destroy x => match held st x with Some _ => done (upd st x None) faults | None => None end
  | HasValue x =>
      match held st x with
      | Some h => Some (st, faults, Flag (match h with Some _ => true | None => false end))
      | None => None
      end
  | GetValue x =>
      match held st x with
      | Some (Some v) => Some (st, faults, Got v)
      | Some None => Some (st, faults, Raised RuntimeError)
      | None => None
      end
  | SetValue x v =>
      match held st x with
      | Some (Some _) => done (upd st x (Some (Some v))) faults
      | Some None => Some (st, faults, Raised RuntimeError)
      | None => None
      end
  end.

(** A history the client may run, its replies and what the maybes hold then. *)
Fixpoint spec_ops (os : list (op T)) (st : options) (faults : list bool) : option (options * list (reply T)) :=
  match os with
  | [] => Some (st, [])
  | o :: r =>
      match spec_op o st faults with
      | Some (st1, f1, a) =>
          match spec_ops r st1 f1 with Some (st2, l) => Some (st2, a :: l) | None => None end
      | None => None
      end
  end.

Definition never_throws (faults : list bool) : Prop := forall f, In f faults -> f = false.

(** No fault strikes while an assignment is replacing a held value. *)
Definition replaces (o : op T) (st : options) : Prop :=
  exists x y v v', (o = AssignCopy x y \/ o = AssignMove x y) /\ x <> y /\
    held st x = Some (Some v) /\ held st y = Some (Some v').
Fixpoint no_fault_replacing (os : list (op T)) (st : options) (faults : list bool) : Prop :=
  match os with
  | [] => True
  | o :: r =>
      (replaces o st -> fst (draw faults) = false) /\
      match spec_op o st faults with
      | Some (st1, f1, _) => no_fault_replacing r st1 f1
      | None => True
      end
  end.

(** Observations on the final world. *)
Definition holding (st : options) : nat :=
  length (filter (fun o => match o with Some (Some _) => true | _ => false end) st).
Definition alive (w : world T) : nat :=
  length (filter (fun e => Nat.eqb (e_destroyed e) 0) (w_elements w)).
Definition destroyed_at_most_once (w : world T) : Prop :=
  forall e, In e (w_elements w) -> e_destroyed e <= 1.
Definition all_destroyed_once (w : world T) : Prop :=
  forall e, In e (w_elements w) -> e_destroyed e = 1.
End Spec.
Arguments options : clear implicits.
