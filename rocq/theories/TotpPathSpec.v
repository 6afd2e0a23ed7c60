(** Vocabulary for the statements about the geometry of a path. *)
From Coq Require Import Reals List.
From Verif Require Import Base MathModel MathVec TotpModel TotpScalar TotpRealSpec.
Local Open Scope R_scope.

(** The distance of two points, and the point at [t] of the way from [p] to [q]. *)
Definition dist (x y : list R) : R := norm (vsub x y).
Definition between (p q : list R) (t : R) : list R := vadd p (vscale t (vsub q p)).
(** Some leg of the polyline through the waypoints comes within [dev] of [x]. *)
Fixpoint near_polyline (dev : R) (ws : list (list R)) (x : list R) : Prop :=
  match ws with
  | p :: ((q :: _) as r) => (exists t, 0 <= t <= 1 /\ dist x (between p q t) <= dev) \/ near_polyline dev r x
  | _ => False
  end.
(** All legs are longer than [e]. *)
Fixpoint legs_longer (e : R) (ws : list (list R)) : Prop :=
  match ws with
  | p :: ((q :: _) as r) => e < dist p q /\ legs_longer e r
  | _ => True
  end.
(** From [q] the polyline goes straight back to where it came from. *)
Definition reverses (p q r : list R) : Prop := exists k, 0 < k /\ vsub r q = vscale (- k) (vsub q p).
Fixpoint no_reversal (ws : list (list R)) : Prop :=
  match ws with
  | p :: ((q :: r :: _) as t) => ~ reverses p q r /\ no_reversal t
  | _ => True
  end.
(** The point of the polyline at arc length [s]. *)
Fixpoint polyline_at (ws : list (list R)) (s : R) : list R :=
  match ws with
  | p :: ((q :: rest) as r) =>
    if Rlt_dec s (dist p q) then between p q (s / dist p q)
    else match rest with [] => q | _ => polyline_at r (s - dist p q) end
  | [p] => p
  | [] => []
  end.
Fixpoint polyline_length (ws : list (list R)) : R :=
  match ws with
  | p :: ((q :: _) as r) => dist p q + polyline_length r
  | _ => 0
  end.
(** A millionth, the tolerance of the code. *)
Definition tiny : R := 1 / 1000000.
(** The length of the last leg. *)
Fixpoint last_leg (ws : list (list R)) : R :=
  match ws with
  | p :: ((q :: rest) as r) => match rest with [] => dist p q | _ => last_leg r end
  | _ => 0
  end.
(** The waypoints and the deviation are such that the path is well defined. *)
Definition well_posed (n : nat) (dev : R) (ws : list (list R)) : Prop :=
  (2 <= length ws)%nat /\ Forall (fun w => length w = n) ws /\
  (dev <= 0 -> 0 < last_leg ws) /\ (0 < dev -> legs_longer (2 * tiny) ws /\ no_reversal ws).
(** The unit vector from [p] towards [q]. *)
Definition direction (p q : list R) : list R := vscale (/ dist q p) (vsub q p).
(** At every corner the direction changes by a millionth or more, or by at most [e]. *)
Fixpoint clear_turns (e : R) (ws : list (list R)) : Prop :=
  match ws with
  | p :: ((q :: r :: _) as t) =>
    (tiny <= dist (direction p q) (direction q r) \/ dist (direction p q) (direction q r) <= e) /\ clear_turns e t
  | _ => True
  end.
(** The path has length [len], and at every arc length [s] of it the configuration,
    tangent and curvature that the path reports are [q s], [q' s] and [q'' s]. *)
Definition describes (p : @path xr) (len : R) (q q' q'' : R -> list R) : Prop :=
  path_length p = XFin len /\ forall s, 0 <= s <= len ->
    GetConfig xarith xextras p (XFin s) = Ok (fin (q s)) /\
    GetTangent xarith xextras p (XFin s) = Ok (fin (q' s)) /\
    GetCurvature xarith xextras p (XFin s) = Ok (fin (q'' s)).
