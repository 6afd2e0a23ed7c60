(** Vocabulary for the statements about the switching points of a path. *)
From Coq Require Import Reals List.
From Verif Require Import Base MathModel TotpModel TotpScalar.
Local Open Scope R_scope.

(** What Path::SwitchingPoints returns, in order: positions, with whether each is marked as
    a discontinuity. *)
Definition switches_at (p : @path xr) (pts : list (R * bool)) : Prop :=
  path_switching_points p = map (fun e => (XFin (fst e), snd e)) pts.
(** [x] is where a segment of the path, other than the first, begins. *)
Definition segment_begins (p : @path xr) (x : R) : Prop :=
  exists k g, (0 < k)%nat /\ nth_error (path_segments p) k = Some g /\ seg_position g = XFin x.
(** A function into vectors is zero in a component everywhere near a place. *)
Definition vanishes_near (f : R -> list R) (i : nat) (s : R) : Prop :=
  exists d, 0 < d /\ forall u, Rabs (u - s) < d -> nth i (f u) 0 = 0.
