(** Vocabulary for the statements about trajectories (TotpModel.v). *)
From Coq Require Import List Bool Arith.
From Verif Require Import Base MathModel TotpModel.

Section Spec.
Context {A : Type} (ar : arith A) (ex : extras A).

(** What a program can do with trajectories, which it knows by number: sample one at a
    time, clone one under a new number, destroy one. *)
Inductive op : Type := Sample (id : nat) (time : A) | Copy (id new_id : nat) | Drop (id : nat).
Definition run_op (h : @heap A) (o : op) : outcome heap :=
  match o with
  | Sample id t => do r <- GetPositionVelocityTimePoint ar ex h id t; Ok (snd r)
  | Copy id new_id => Clone h id new_id
  | Drop id => Ok (Destroy h id)
  end.
Definition run_ops (h : heap) (ops : list op) : outcome heap := mfold run_op h ops.

(** Only trajectory number 0 exists, just constructed. *)
Definition only (tr : trajectory) : @heap A := heap_set (fun _ => None) 0 (Some (fresh_object ex tr)).
(** The answer of trajectory [id] at a time; the answer of a just constructed one. *)
Definition answer (h : heap) (id : nat) (t : A) : outcome (list A * list A * A) :=
  do r <- GetPositionVelocityTimePoint ar ex h id t; Ok (fst r).
Definition first_answer (tr : trajectory) (t : A) : outcome (list A * list A * A) := answer (only tr) 0 t.

(** A time that is not negative, not NaN and below the largest number. *)
Definition ordinary (t : A) : Prop := aleb ar (a_of ar 0) t = true /\ altb ar t (e_max ex) = true.

(** The program uses only trajectories that exist, at ordinary times; [live] are the
    numbers of those that exist. *)
Fixpoint legal (live : list nat) (ops : list op) : Prop :=
  match ops with
  | [] => True
  | Sample id t :: r => In id live /\ ordinary t /\ legal live r
  | Copy id new_id :: r => In id live /\ ~ In new_id live /\ legal (new_id :: live) r
  | Drop id :: r => In id live /\ legal (remove Nat.eq_dec id live) r
  end.
Fixpoint alive (live : list nat) (ops : list op) : list nat :=
  match ops with
  | [] => live
  | Sample _ _ :: r => alive live r
  | Copy _ new_id :: r => alive (new_id :: live) r
  | Drop id :: r => alive (remove Nat.eq_dec id live) r
  end.
Definition drops (o : op) : bool := match o with Drop _ => true | _ => false end.
(** No trajectory is cloned after it was sampled. *)
Fixpoint clones_unsampled (sampled : list nat) (ops : list op) : Prop :=
  match ops with
  | [] => True
  | Sample id _ :: r => clones_unsampled (id :: sampled) r
  | Copy id _ :: r => ~ In id sampled /\ clones_unsampled sampled r
  | Drop _ :: r => clones_unsampled sampled r
  end.
End Spec.
