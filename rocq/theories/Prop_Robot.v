(** C162: distances per dimension and distances from the current position, for every
    implementation of the robot model interface, in IEEE binary64. *)
From Coq Require Import Reals Lra.
From Flocq Require Import Core BinarySingleNaN.
From Verif Require Import Base Double DoubleFacts MathModel MathReal RobotModel.
Local Open Scope R_scope.

(** C162: per dimension the magnitude of the signed distance: as many entries, each the
    absolute value, never below zero, and NaN or infinite exactly where the signed one is. *)
Theorem C162_magnitudes : forall (C S : Type) (r : robot double C S) s a b,
  let d := ComputePerDimensionConfigurationDistance double_arith r s a b in
  let e := ComputePerDimensionConfigurationSignedDistance r s a b in
  length d = length e /\ forall k, (k < length e)%nat -> let x := nth k d d0 in let y := nth k e d0 in
  B2R x = Rabs (B2R y) /\ 0 <= B2R x /\ is_finite x = is_finite y /\ is_nan x = is_nan y /\ (is_nan x = false -> Bsign x = false).
Proof.
  intros C S r s a b d e. split; [apply map_length|]. intros k K x y.
  assert (E : x = Babs y).
  { unfold x, d, ComputePerDimensionConfigurationDistance. rewrite (nth_indep _ d0 (Babs d0)) by (rewrite map_length; exact K).
    change (Babs d0) with (aabs double_arith d0). rewrite map_nth. reflexivity. }
  rewrite E. split; [apply B2R_Babs|]. split; [rewrite B2R_Babs; apply Rabs_pos|]. split; [apply is_finite_Babs|]. clear. destruct y; split; try reflexivity; discriminate.
Qed.
(** C162: it does not matter which configuration comes first, if the implementation's
    signed distance only changes sign. *)
Theorem C162_symmetric : forall (C S : Type) (r : robot double C S) s a b,
  ComputePerDimensionConfigurationSignedDistance r s b a = map (@Bopp 53 1024) (ComputePerDimensionConfigurationSignedDistance r s a b) ->
  ComputePerDimensionConfigurationDistance double_arith r s b a = ComputePerDimensionConfigurationDistance double_arith r s a b.
Proof.
  intros C S r s a b H. unfold ComputePerDimensionConfigurationDistance. rewrite H, map_map. apply map_ext. intros x. cbn [aabs double_arith]. destruct x; reflexivity.
Qed.
(** C162: after any sequence of calls of SetPosition on a robot whose GetPosition gives
    the position last set, the distances "to" are measured from that position. *)
Theorem C162_from_current_position : forall (C S : Type) (r : robot double C S), (forall s c, GetPosition r (SetPosition r s c) = c) ->
  forall s0 earlier last config, let s := fold_left (SetPosition r) (earlier ++ [last]) s0 in
  ComputeConfigurationDistanceTo r s config = ComputeConfigurationDistance r s last config /\
  ComputePerDimensionConfigurationSignedDistanceTo r s config = ComputePerDimensionConfigurationSignedDistance r s last config /\
  ComputePerDimensionConfigurationDistanceTo double_arith r s config = map (@Babs 53 1024) (ComputePerDimensionConfigurationSignedDistance r s last config).
Proof.
  intros C S r H s0 earlier last config. cbv zeta. rewrite fold_left_app. cbn [fold_left]. set (s := fold_left (SetPosition r) earlier s0).
  unfold ComputeConfigurationDistanceTo, ComputePerDimensionConfigurationSignedDistanceTo, ComputePerDimensionConfigurationDistanceTo, ComputePerDimensionConfigurationDistance. rewrite H. repeat split.
Qed.
Print Assumptions C162_magnitudes.
Print Assumptions C162_symmetric.
Print Assumptions C162_from_current_position.
(** A robot with one joint: from -2 (set after 5) to 1 it is 3. *)
Example C162_nonvacuous : let r := mkRobot (fun s : double => s) (fun _ c => c) (fun _ a b => Babs (dsub b a)) (fun _ a b => [dsub b a]) in
  (forall s c, GetPosition r (SetPosition r s c) = c) /\
  ComputePerDimensionConfigurationDistanceTo double_arith r (fold_left (SetPosition r) ([d_of_Z 5] ++ [d_of_Z (-2)]) d0) (d_of_Z 1) = [d_of_Z 3] /\
  ComputePerDimensionConfigurationDistance double_arith r d0 (d_of_Z 1) (d_of_Z (-2)) = [d_of_Z 3].
Proof.
  split; [reflexivity|]. unfold ComputePerDimensionConfigurationDistanceTo, ComputePerDimensionConfigurationDistance. cbn [app fold_left SetPosition GetPosition ComputePerDimensionConfigurationSignedDistance map aabs double_arith].
  split; f_equal; apply B2SF_inj; vm_compute; reflexivity.
Qed.
