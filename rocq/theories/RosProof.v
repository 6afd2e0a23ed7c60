(** Proofs for RosModel.v. *)
From Coq Require Import Reals Lra.
From Verif Require Import Base UtilityModel MathModel MathReal MathSpec MathLinModel MathLinSpec MathLinProof RotationModel RotationSpec RotationProof RotationAngle RotationAverage RosModel.

Lemma convert_from {X Y} (f : X -> Y) input : forall n k out, (k + n = length input)%nat -> length out = length input ->
  (forall i, (i < k)%nat -> nth_error out i = option_map f (nth_error input i)) ->
  exists r, mfold (fun out idx => do x <- at_get input idx; at_set out idx (f x)) out (seq k n) = Ok r /\
    length r = length input /\ forall i, (i < k + n)%nat -> nth_error r i = option_map f (nth_error input i).
Proof.
  induction n as [|n IH]; intros k out K L H; cbn [seq mfold].
  - exists out. rewrite Nat.add_0_r. auto.
  - destruct (nth_error input k) as [x|] eqn:E; [|apply nth_error_None in E; lia].
    unfold at_get at 1. rewrite E. cbn [bind]. unfold at_set at 1. rewrite set_nth_upd by lia. cbn [bind].
    destruct (IH (S k) (upd out k (f x))) as (r & R & RL & RN); [lia|rewrite upd_length; exact L| |].
    + intros i I. rewrite nth_error_upd. destruct (Nat.eq_dec k i) as [<-|N].
      * destruct (lt_dec k (length out)); [rewrite E; reflexivity|lia].
      * apply H. lia.
    + exists r. split; [exact R|]. split; [exact RL|]. intros i I. apply RN. lia.
Qed.
Lemma convert_map {X Y} (f : X -> Y) b input : convert_loop f b input = Ok (map f input).
Proof.
  unfold convert_loop. destruct (convert_from f input (length input) 0 (repeat b (length input))) as (r & R & L & N); [lia|apply repeat_length|lia|].
  rewrite R. f_equal. apply nth_error_ext. intros i. rewrite nth_error_map. destruct (lt_dec i (length input)) as [I|I]; [apply N; lia|].
  assert (nth_error input i = None) as -> by (apply nth_error_None; lia). apply nth_error_None. lia.
Qed.
Local Open Scope R_scope.
Lemma same_rotation p q : unit p -> unit q -> toRotationMatrix ra p = toRotationMatrix ra q -> q = p \/ q = oppq p.
Proof.
  intros U V E. apply dotq_extreme; auto. pose proof (trace_dot p q U V) as T. rewrite E in T. rewrite (trace_dot q q V V) in T. unfold unit in V. rewrite V in T. lra.
Qed.
