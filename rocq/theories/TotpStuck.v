(** Two waypoints so close that the square of their distance underflows. *)
From Coq Require Import Bool ZArith List.
From Flocq Require Import Core BinarySingleNaN.
From Verif Require Import Base Double MathModel MathReal TotpModel TotpSpec TotpScalar TotpDouble TotpRefute TotpFinal.

Section Stuck.
Variable m : trig.
Notation z := d_of_Z.
Notation DX := (dextras m).
Notation da := double_arith.
(** 2^-600. *)
Definition close_by : double := ddiv (z 1) (z (2 ^ 600)).
Definition close_path : @path double := mkPath (z 0) [] [mkSegment (z 0) (LinearShape [z 0] [close_by]) (z 0)].
Definition close_setup : @setup double := mkSetup close_path [z 1] [z 1] (z 1).

Definition gives (o : outcome double) : option SpecFloat.spec_float := match o with Ok x => Some (B2SF x) | _ => None end.
Lemma gives_ok o y : gives o = Some (B2SF y) -> o = Ok y.
Proof. destruct o; cbn; try discriminate. intros H. injection H as H. apply B2SF_inj in H. now subst. Qed.
Lemma same_d x y : B2SF x = B2SF y -> x = y :> double. Proof. apply B2SF_inj. Qed.

Lemma close_acceleration : GetMinMaxPathAcceleration da DX close_setup (z 0) (z 0) true = Ok (z 0).
Proof. apply gives_ok. vm_compute. reflexivity. Qed.
Lemma close_follow : follow da DX close_setup (z 0) (z 0) (z 0) = Ok (z 0).
Proof. apply gives_ok. vm_compute. reflexivity. Qed.
Lemma close_over : over_limit da DX close_setup (z 0) (z 0) = Ok false.
Proof. vm_compute. reflexivity. Qed.
Lemma close_vel : aadd da (z 0) (amul da (z 1) (z 0)) = z 0.
Proof. apply same_d. vm_compute. reflexivity. Qed.
Lemma close_pos : aadd da (z 0) (amul da (amul da (z 1) (lit_half da)) (aadd da (z 0) (z 0))) = z 0.
Proof. apply same_d. vm_compute. reflexivity. Qed.
Lemma close_less : altb da (z 0) (z 0) = false.
Proof. vm_compute. reflexivity. Qed.
Lemma close_loop f0 : forall f l, IntegrateForward_loop da DX f0 f close_setup [] l (z 0) (z 0) (z 0) = Diverge.
Proof.
  induction f as [|f IH]; intros l; [reflexivity|]. cbn [IntegrateForward_loop skip_discontinuities].
  change (su_time_step close_setup) with (z 1). change (path_length (su_path close_setup)) with (z 0). change (a_of da 0) with (z 0).
  rewrite close_vel, close_pos, close_less, close_follow. cbn [bind]. rewrite close_acceleration. cbn [bind]. rewrite close_over. cbn [bind]. apply IH.
Qed.
Definition one_sf (p : @path double) : option (SpecFloat.spec_float * SpecFloat.spec_float * SpecFloat.spec_float * SpecFloat.spec_float * SpecFloat.spec_float) :=
  match path_switching_points p, path_segments p with
  | [], [mkSegment l (LinearShape [a] [b]) q] => Some (B2SF (path_length p), B2SF l, B2SF a, B2SF b, B2SF q)
  | _, _ => None
  end.
Lemma one_sf_inj o len l a b q : match o with Ok p => one_sf p | _ => None end = Some (B2SF len, B2SF l, B2SF a, B2SF b, B2SF q) ->
  o = Ok (mkPath len [] [mkSegment l (LinearShape [a] [b]) q]).
Proof.
  destruct o as [[len' pts segs]| | |]; try discriminate. unfold one_sf. cbn [path_switching_points path_segments path_length].
  destruct pts; [|discriminate]. destruct segs as [|[l' sh q'] [|? ?]]; try discriminate; destruct sh as [u v|]; try discriminate;
    destruct u as [|u [|? ?]]; try discriminate; destruct v as [|v [|? ?]]; try discriminate.
  intros H. injection H as H1 H2 H3 H4 H5. apply B2SF_inj in H1, H2, H3, H4, H5. subst. reflexivity.
Qed.
Lemma close_make : MakePath da DX [[z 0]; [close_by]] (z 0) = Ok close_path.
Proof. apply one_sf_inj. vm_compute. reflexivity. Qed.
Lemma close_diverges fuel : ParametrizePathTOTP da DX fuel [[z 0]; [close_by]] [z 1] [z 1] (z 0) (z 1) = Diverge.
Proof.
  unfold ParametrizePathTOTP. rewrite close_make. cbn [bind].
  replace (forallb (e_finite DX) [z 1]) with true by reflexivity. replace (e_finite DX (z 1)) with true by reflexivity. cbn [negb].
  fold close_setup. change (a_of da 0) with (z 0). rewrite close_acceleration. cbn [bind].
  destruct fuel as [|f]; [reflexivity|]. cbn [integrate]. unfold IntegrateForward. change (path_switching_points (su_path close_setup)) with (@nil (double * bool)).
  rewrite close_loop. reflexivity.
Qed.
Lemma close_distinct : dlt (z 0) close_by = true. Proof. vm_compute. reflexivity. Qed.

(** There and back again with deviation 0: at the turning point the joint goes on at
    full speed. *)
Definition turn : outcome (@trajectory double) :=
  ParametrizePathTOTP da DX 30 [[z 0]; [z 1]; [z 0]] [z 1] [z 1] (z 0) (z 1).
Definition before_turn : double := dsub three_halves (ddiv (z 1) (z (2 ^ 20))).
Definition sample_of (o : outcome (@trajectory double)) (t : double) : option (SpecFloat.spec_float) :=
  match o with
  | Ok tr => match first_answer da DX tr t with Ok (q, [v], _) => Some (B2SF v) | _ => None end
  | _ => None
  end.
Lemma before_sample : sample_of turn before_turn = Some (B2SF (z 1)). Proof. vm_compute. reflexivity. Qed.
Lemma after_sample : sample_of turn three_halves = Some (B2SF (z (-1))). Proof. vm_compute. reflexivity. Qed.
Definition late_enough (o : outcome (@trajectory double)) (t : double) : bool :=
  match o with Ok tr => match Duration tr with Ok d => dlt t d | _ => false end | _ => false end.
Lemma late_true : late_enough turn three_halves = true. Proof. vm_compute. reflexivity. Qed.
Lemma sample_of_inv tr t y : sample_of (Ok tr) t = Some (B2SF y) -> exists q, first_answer da DX tr t = Ok (q, [y], t).
Proof.
  unfold sample_of. destruct (first_answer da DX tr t) as [[[q v] t']| | |] eqn:F; try discriminate.
  destruct v as [|v [|? ?]]; try discriminate. intros H. injection H as H. apply B2SF_inj in H. subst v. exists q.
  pose proof (answer_time m _ _ _ _ _ _ F) as T. now subst.
Qed.
Lemma late_inv o t : late_enough o t = true -> exists tr d, o = Ok tr /\ Duration tr = Ok d /\ dlt t d = true.
Proof.
  intros L. unfold late_enough in L. destruct o as [tr| | |]; try discriminate. destruct (Duration tr) as [d| | |] eqn:D; try discriminate.
  exists tr, d. auto.
Qed.
Lemma turn_jump : exists tr d t1 t2 q1 q2 v1 v2, turn = Ok tr /\ Duration tr = Ok d /\
  dlt (z 0) t1 = true /\ dlt t1 t2 = true /\ dlt t2 d = true /\
  first_answer da DX tr t1 = Ok (q1, [v1], t1) /\ first_answer da DX tr t2 = Ok (q2, [v2], t2) /\
  dlt (dmul (dmul (z (2 ^ 20)) (z 1)) (dsub t2 t1)) (dsub v1 v2) = true.
Proof.
  destruct (late_inv _ _ late_true) as (tr & d & E & D & L). pose proof before_sample as B1. pose proof after_sample as B2. rewrite E in B1, B2.
  destruct (sample_of_inv tr _ _ B1) as (q1 & A1). destruct (sample_of_inv tr _ _ B2) as (q2 & A2).
  exists tr, d, before_turn, three_halves, q1, q2, (z 1), (z (-1)).
  split; [exact E|]. split; [exact D|]. split; [vm_compute; reflexivity|]. split; [vm_compute; reflexivity|]. split; [exact L|]. split; [exact A1|]. split; [exact A2|].
  vm_compute. reflexivity.
Qed.
End Stuck.
