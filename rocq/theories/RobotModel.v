(** Model of the wrappers of SimpleRobotModelInterface
    (simple_robot_model_interface.hpp:15-118).  The virtual functions are the fields of a
    record: a robot implementation with an internal state. *)
From Verif Require Import Base MathModel.

Section Robot.
Variable A : Type.
Variable ar : arith A.
Variables Configuration State : Type.

(** The pure virtual functions the wrappers use, simple_robot_model_interface.hpp:27-31,
    54-56, 67-70.  The other virtual functions (links, Jacobians, interpolation) have no
    wrappers and are not modelled. *)
Record robot : Type := mkRobot {
  GetPosition : State -> Configuration;
  SetPosition : State -> Configuration -> State;
  ComputeConfigurationDistance : State -> Configuration -> Configuration -> A;
  ComputePerDimensionConfigurationSignedDistance : State -> Configuration -> Configuration -> list A }.
Variable r : robot.

(** ComputePerDimensionConfigurationDistance, 58-65; cwiseAbs is std::abs of each. *)
Definition ComputePerDimensionConfigurationDistance (s : State) (config1 config2 : Configuration) : list A :=
  map (aabs ar) (ComputePerDimensionConfigurationSignedDistance r s config1 config2).
(** ComputeConfigurationDistanceTo, 72-77. *)
Definition ComputeConfigurationDistanceTo (s : State) (config : Configuration) : A :=
  ComputeConfigurationDistance r s (GetPosition r s) config.
(** ComputePerDimensionConfigurationDistanceTo, 79-85. *)
Definition ComputePerDimensionConfigurationDistanceTo (s : State) (config : Configuration) : list A :=
  ComputePerDimensionConfigurationDistance s (GetPosition r s) config.
(** ComputePerDimensionConfigurationSignedDistanceTo, 87-94. *)
Definition ComputePerDimensionConfigurationSignedDistanceTo (s : State) (config : Configuration) : list A :=
  ComputePerDimensionConfigurationSignedDistance r s (GetPosition r s) config.
End Robot.
Arguments mkRobot {A Configuration State}. Arguments GetPosition {A Configuration State}. Arguments SetPosition {A Configuration State}.
Arguments ComputeConfigurationDistance {A Configuration State}. Arguments ComputePerDimensionConfigurationSignedDistance {A Configuration State}.
Arguments ComputePerDimensionConfigurationDistance {A} ar {Configuration State}. Arguments ComputeConfigurationDistanceTo {A Configuration State}.
Arguments ComputePerDimensionConfigurationDistanceTo {A} ar {Configuration State}. Arguments ComputePerDimensionConfigurationSignedDistanceTo {A Configuration State}.
