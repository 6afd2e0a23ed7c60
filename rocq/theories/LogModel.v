(** Model of the functions of utility.hpp that report what they do to a logging function. *)
From Verif Require Import Base UtilityModel UtilityModel2.
Local Open Scope Z_scope.

(** The messages, by what they say (std::to_string of the values is not modelled),
    utility.hpp:280-281, 290-291, 324-326, 335-337, 370-372 and 381-383. *)
Inductive message (T : Type) : Type :=
| ClampingToMin (val min : T)
| ClampingToMax (val max : T)
| ThresholdingToHigh (val high : T)
| ThresholdingToLow (val low : T)
| AlignedTo (address alignment : Z)
| NotAlignedTo (address alignment : Z).
Arguments ClampingToMin {T} _ _. Arguments ClampingToMax {T} _ _. Arguments ThresholdingToHigh {T} _ _.
Arguments ThresholdingToLow {T} _ _. Arguments AlignedTo {T} _ _. Arguments NotAlignedTo {T} _ _.
(** A std::function: empty, or one that returns or throws; the calls made of it and how the
    rest ends. *)
Definition logger (T : Type) : Type := option (message T -> outcome unit).
Definition logging {T R} (logging_fn : logger T) (msg : message T) (rest : outcome R) : list (message T) * outcome R :=
  match logging_fn with
  | Some f => ([msg], do _ <- f msg; rest)
  | None => ([], rest)
  end.

Section Values.
Context {T : Type} (ltb leb : T -> T -> bool).
(** ClampValueAndLog, utility.hpp:270-302. *)
Definition ClampValueAndLog (val min max : T) (logging_fn : logger T) : list (message T) * outcome T :=
  if leb min max then
    if ltb val min then logging logging_fn (ClampingToMin val min) (Ok min)
    else if ltb max val then logging logging_fn (ClampingToMax val max) (Ok max)
    else ([], Ok val)
  else ([], Throw InvalidArgument).
(** SpreadValueAndLog, utility.hpp:313-348. *)
Definition SpreadValueAndLog (val low_threshold midpoint high_threshold : T) (logging_fn : logger T) : list (message T) * outcome T :=
  if leb low_threshold midpoint && leb midpoint high_threshold then
    if leb midpoint val && ltb val high_threshold then logging logging_fn (ThresholdingToHigh val high_threshold) (Ok high_threshold)
    else if ltb val midpoint && ltb low_threshold val then logging logging_fn (ThresholdingToLow val low_threshold) (Ok low_threshold)
    else ([], Ok val)
  else ([], Throw InvalidArgument).
End Values.

(** CheckAlignment, utility.hpp:358-387, of an item at [address]; % by zero is undefined. *)
Definition CheckAlignment (address desired_alignment : Z) (logging_fn : logger unit) : list (message unit) * outcome bool :=
  if desired_alignment =? 0 then ([], UB)
  else if address mod desired_alignment =? 0 then logging logging_fn (AlignedTo address desired_alignment) (Ok true)
  else logging logging_fn (NotAlignedTo address desired_alignment) (Ok false).
(** RequireAlignment, utility.hpp:389-400. *)
Definition RequireAlignment (address desired_alignment : Z) : outcome unit :=
  if desired_alignment =? 0 then UB
  else if negb (address mod desired_alignment =? 0) then Throw RuntimeError else Ok tt.
(** RequireEigenAlignment, utility.hpp:402-408: EIGEN_DEFAULT_ALIGN_BYTES is 0 without
    alignment, otherwise a power of two. *)
Definition RequireEigenAlignment (eigen_default_align_bytes address : Z) : outcome unit :=
  RequireAlignment address eigen_default_align_bytes.
