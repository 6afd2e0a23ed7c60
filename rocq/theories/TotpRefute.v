(** Computed trajectories that go against expectations. *)
From Coq Require Import Bool ZArith List.
From Flocq Require Import Core BinarySingleNaN.
From Verif Require Import Base Double MathModel MathReal TotpModel TotpSpec TotpScalar TotpDouble.

Section Probes.
Variable m : trig.
Notation z := d_of_Z.
Notation DX := (dextras m).
Definition deq (x y : double) : bool := Beqb x y.
Definition one_is (l : list double) (x : double) : bool := match l with [y] => deq y x | _ => false end.
Definition shows (r : outcome (list double * list double * double)) (q v : double) : bool :=
  match r with Ok (p, w, _) => one_is p q && one_is w v | _ => false end.

Definition probe_history : bool :=
  match simple m with
  | Ok tr =>
    match run_ops double_arith DX (only DX tr) [Sample 0 three_halves; Sample 0 dnan] with
    | Ok h => shows (answer double_arith DX h 0 dhalf) (z 0) three_halves
              && shows (first_answer double_arith DX tr dhalf) (ddiv (z 1) (z 8)) dhalf
    | _ => false
    end
  | _ => false
  end.
Definition probe_clone : bool :=
  match simple m with
  | Ok tr =>
    match run_ops double_arith DX (only DX tr) [Sample 0 dhalf; Copy 0 1; Drop 0] with
    | Ok h => match answer double_arith DX h 1 three_halves with UB => true | _ => false end
              && match first_answer double_arith DX tr three_halves with Ok _ => true | _ => false end
    | _ => false
    end
  | _ => false
  end.
Definition probe_nan : bool :=
  match simple m with
  | Ok tr => match first_answer double_arith DX tr dnan with UB => true | _ => false end
  | _ => false
  end.
Definition probe_after : bool :=
  match simple m with
  | Ok tr => match Duration tr with Ok d => deq d (z 2) | _ => false end && shows (first_answer double_arith DX tr (z 3)) dhalf (aopp double_arith (z 1))
  | _ => false
  end.
Definition thousandth : double := ddiv (z 1) (z 1000).
Definition tenth : double := ddiv (z 1) (z 10).
Definition is_fast (o : outcome (@trajectory double)) (x : double) : bool :=
  match o with
  | Ok tr =>
    match Duration tr with Ok d => dlt x d | _ => false end &&
    match first_answer double_arith DX tr x with Ok (_, [v], _) => dlt (dmul (z 4) tenth) v | _ => false end
  | _ => false
  end.
Definition probe_fast : bool :=
  is_fast (ParametrizePathTOTP double_arith DX 10 [[z 0]; [thousandth]] [tenth] [z 1000] (z 0) thousandth) (ddiv (z 107) (z 10000)).
(** Two joints, but only one acceleration limit; more limits than joints; two joints, but
    only one limit of each kind. *)
Definition is_undefined (o : outcome (@trajectory double)) : bool := match o with UB => true | _ => false end.
Definition is_crooked (o : outcome (@trajectory double)) : bool :=
  match o with
  | Ok tr => match first_answer double_arith DX tr (z 2) with Ok (_, [v; w], _) => deq v (z 1) && dlt (z 1) w | _ => false end
  | _ => false end.
Definition probe_sizes : bool :=
  is_undefined (ParametrizePathTOTP double_arith DX 10 [[z 0; z 0]; [z 1; z 1]] [z 1; z 1] [z 1] (z 0) (z 1)) &&
  is_undefined (ParametrizePathTOTP double_arith DX 10 [[z 0]; [z 1]] [z 1; z 1] [z 1; z 1] (z 0) (z 1)) &&
  is_crooked (ParametrizePathTOTP double_arith DX 10 [[z 0; z 0]; [z 3; z 4]] [z 1] [z 1] (z 0) (z 1)).

Lemma history_true : probe_history = true. Proof. vm_compute. reflexivity. Qed.
Lemma clone_true : probe_clone = true. Proof. vm_compute. reflexivity. Qed.
Lemma nan_true : probe_nan = true. Proof. vm_compute. reflexivity. Qed.
Lemma after_true : probe_after = true. Proof. vm_compute. reflexivity. Qed.
Lemma fast_true : probe_fast = true. Proof. vm_compute. reflexivity. Qed.
Lemma sizes_true : probe_sizes = true. Proof. vm_compute. reflexivity. Qed.
End Probes.
