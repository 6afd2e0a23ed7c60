(** Properties C36, C37 and C38 (OwningMaybe).  Model in MaybeModel.v, vocabulary
    in MaybeSpec.v. *)
From Verif Require Import Base MaybeModel MaybeSpec MaybeProof.

(** C36: in every history of operations on live maybes, with element copies and
    moves that do not throw, nothing undefined happens (no element is read or
    destroyed after its destruction), no element is destroyed twice, the elements
    alive are as many as the maybes holding a value, and once no maybe holds a
    value every element has been destroyed exactly once. *)
Theorem C36_elements_destroyed_once : forall (T : Type) (moved : T -> T) faults os st replies,
  never_throws faults -> spec_ops moved os [] faults = Some (st, replies) ->
  exists w, run_client moved faults os = Ok (w, replies) /\ destroyed_at_most_once w /\ alive w = holding st /\
    (holding st = 0 -> all_destroyed_once w).
Proof. intros T. exact client_no_throw. Qed.
Print Assumptions C36_elements_destroyed_once.

Definition sample_history : list (op nat) :=
  [NewEmpty; NewValue 5; AssignCopy 0 1; SetValue 1 6; GetValue 0; NewMove 0; AssignMove 1 0; AssignCopy 1 1;
   Reset 0; HasValue 0; GetValue 0; Destroy 0; Destroy 2; GetValue 1; Destroy 1].
Example C36_nonvacuous : never_throws [] /\
  spec_ops (fun _ => 0) sample_history [] [] =
    Some ([None; None; None], [Done; Done; Done; Done; Got 5; Done; Done; Done; Done; Flag false; Raised RuntimeError;
                               Done; Done; Got 0; Done]) /\ holding (T := nat) [None; None; None] = 0.
Proof. split; [intros f []|]. split; reflexivity. Qed.

(** C37 (full claim: the same in histories where any copy or move may throw, the
    failing operation having no effect).  False: a copy that throws while it
    replaces a held value leaves the maybe believing it still holds that value,
    which has been destroyed; destroying the maybe destroys it again. *)
Theorem C37_throwing_copy_refuted : exists (faults : list bool) (os : list (op nat)) st replies,
  spec_ops (fun v => v) os [] faults = Some (st, replies) /\ run_client (fun v => v) faults os = UB.
Proof. exact (ex_intro _ _ (ex_intro _ _ (ex_intro _ _ (ex_intro _ _ double_destruction)))). Qed.
Print Assumptions C37_throwing_copy_refuted.

(** C37, proved part: faults may strike anywhere but in an assignment that
    replaces a held value by a held value.  Then a failing operation has no
    effect and every element is destroyed exactly once. *)
Theorem C37_throwing_copy_partial : forall (T : Type) (moved : T -> T) faults os st replies,
  no_fault_replacing moved os [] faults -> spec_ops moved os [] faults = Some (st, replies) ->
  exists w, run_client moved faults os = Ok (w, replies) /\ destroyed_at_most_once w /\ alive w = holding st /\
    (holding st = 0 -> all_destroyed_once w).
Proof. intros T. exact client_ok. Qed.
Print Assumptions C37_throwing_copy_partial.

Definition faulty_history : list (op nat) :=
  [NewEmpty; NewValue 4; AssignCopy 0 1; GetValue 1; HasValue 0; NewCopy 1; Destroy 0; Destroy 1].
Example C37_nonvacuous : no_fault_replacing (fun v => v) faulty_history [] [false; true; true] /\
  spec_ops (fun v => v) faulty_history [] [false; true; true] =
    Some ([None; None], [Done; Done; Raised (UserException 0); Got 4; Flag false; Raised (UserException 0); Done; Done]).
Proof.
  split; [|reflexivity]. cbn. repeat split; auto; intros (x & y & v & v' & [H|H] & N & A & B); try discriminate H.
  injection H as <- <-. discriminate A.
Qed.

(** C38: whatever the history, every reply is the one of a plain option:
    HasValue, Value() (or its exception) and writes; moving leaves the
    moved-from element in the source; copies are independent. *)
Theorem C38_maybe_is_option : forall (T : Type) (moved : T -> T) os st replies,
  spec_ops moved os [] [] = Some (st, replies) ->
  exists w, run_client moved [] os = Ok (w, replies).
Proof.
  intros T moved os st replies H. destruct (client_no_throw moved [] os st replies) as (w & E & _); [intros f []|exact H|].
  exact (ex_intro _ w E).
Qed.
Print Assumptions C38_maybe_is_option.

Example C38_nonvacuous : spec_ops (fun _ => 0) [NewValue 1; NewCopy 0; SetValue 1 9; GetValue 0; GetValue 1; Reset 0; HasValue 0]
   [] [] = Some ([Some None; Some (Some 9)], [Done; Done; Done; Got 1; Got 9; Done; Flag false]).
Proof. reflexivity. Qed.
