(** Model of gaussian_distributions.hpp.  The evaluation functions are written over a
    type of scalars (MathModel.v) with exp and erf as parameters.  The sampling class
    is written over real numbers with infinite bounds allowed, and gets its draws
    from an arbitrary source.  (As written the header does not compile:
    line 155 initialises an enum class member with the bare name NONE; DrawCases::NONE
    is meant.) *)
From Coq Require Import Reals.
From Flocq Require Import Core.
From Verif Require Import Base MathModel.

Section Eval.
Context {A : Type} (ar : arith A).
Variables a_exp a_erf : A -> A.
Notation "a +' b" := (aadd ar a b) (at level 50, left associativity).
Notation "a -' b" := (asub ar a b) (at level 50, left associativity).
Notation "a *' b" := (amul ar a b) (at level 40, left associativity).
Notation "a /' b" := (adiv ar a b) (at level 40, left associativity).
Notation c0 := (a_of ar 0). Notation c1 := (a_of ar 1). Notation c2 := (a_of ar 2).

(** EvaluateGaussianCDF, gaussian_distributions.hpp:20-24; 0.5 is 1 / 2. *)
Definition EvaluateGaussianCDF (mean std_dev val : A) : A :=
  (c1 /' c2) *' (c1 +' a_erf (((val -' mean) /' std_dev) /' asqrt ar c2)).
(** EvaluateGaussianPDF, gaussian_distributions.hpp:28-36. *)
Definition EvaluateGaussianPDF (mean std_dev val : A) : A :=
  let exponent := ((val -' mean) *' (val -' mean)) /' ((c2 *' std_dev) *' std_dev) in
  let fraction := c1 /' (std_dev *' asqrt ar (c2 *' a_pi ar)) in
  fraction *' a_exp (aopp ar exponent).
(** EvaluateTruncatedGaussianCDF, gaussian_distributions.hpp:41-67. *)
Definition EvaluateTruncatedGaussianCDF (mean lower_bound upper_bound std_dev val : A) : outcome A :=
  if altb ar upper_bound lower_bound then Throw InvalidArgument
  else if aleb ar val lower_bound then Ok c0
  else if aleb ar upper_bound val then Ok c1
  else
    let cdf_lower_bound := EvaluateGaussianCDF mean std_dev lower_bound in
    let numerator := EvaluateGaussianCDF mean std_dev val -' cdf_lower_bound in
    let denominator := EvaluateGaussianCDF mean std_dev upper_bound -' cdf_lower_bound in
    Ok (numerator /' denominator).
(** EvaluateTruncatedGaussianPDF, gaussian_distributions.hpp:72-97. *)
Definition EvaluateTruncatedGaussianPDF (mean lower_bound upper_bound std_dev val : A) : outcome A :=
  if altb ar upper_bound lower_bound then Throw InvalidArgument
  else if aleb ar val lower_bound then Ok c0
  else if aleb ar upper_bound val then Ok c0
  else
    let cdf_upper := EvaluateGaussianCDF mean std_dev upper_bound in
    let cdf_lower := EvaluateGaussianCDF mean std_dev lower_bound in
    let probability_enclosed := cdf_upper -' cdf_lower in
    Ok (EvaluateGaussianPDF mean std_dev val /' probability_enclosed).
(** IntegrateGaussian, gaussian_distributions.hpp:102-116. *)
Definition IntegrateGaussian (mean std_dev lower_limit upper_limit : A) : outcome A :=
  if altb ar upper_limit lower_limit then Throw InvalidArgument
  else Ok (EvaluateGaussianCDF mean std_dev upper_limit -' EvaluateGaussianCDF mean std_dev lower_limit).
(** IntegrateTruncatedGaussian, gaussian_distributions.hpp:121-142. *)
Definition IntegrateTruncatedGaussian (mean lower_bound upper_bound std_dev lower_limit upper_limit : A) : outcome A :=
  if altb ar upper_bound lower_bound then Throw InvalidArgument
  else if altb ar upper_limit lower_limit then Throw InvalidArgument
  else
    do lower_limit_cdf <- EvaluateTruncatedGaussianCDF mean lower_bound upper_bound std_dev lower_limit;
    do upper_limit_cdf <- EvaluateTruncatedGaussianCDF mean lower_bound upper_bound std_dev upper_limit;
    Ok (upper_limit_cdf -' lower_limit_cdf).
End Eval.

(** ** TruncatedGaussianDistribution *)
Local Open Scope R_scope.
(** Bounds may be infinite. *)
Inductive ext : Type := NegInf | Fin (r : R) | PosInf.
(** x - mean and x / stddev (stddev not zero), with the rules for infinities. *)
Definition ext_sub (x : ext) (m : R) : ext := match x with Fin r => Fin (r - m) | _ => x end.
Definition ext_div (x : ext) (s : R) : ext :=
  match x with
  | Fin r => Fin (r / s)
  | NegInf => if Rlt_bool 0 s then NegInf else PosInf
  | PosInf => if Rlt_bool 0 s then PosInf else NegInf
  end.
Definition ext_opp (x : ext) : ext := match x with Fin r => Fin (- r) | NegInf => PosInf | PosInf => NegInf end.
(** x <= y and x < y, for a number and a bound. *)
Definition ext_leb (x y : ext) : bool :=
  match x, y with NegInf, _ => true | _, PosInf => true | Fin a, Fin b => Rle_bool a b | _, _ => false end.
Definition ext_ltb (x y : ext) : bool := negb (ext_leb y x).
Definition is_neg_inf (x : ext) : bool := match x with NegInf => true | _ => false end.
Definition is_pos_inf (x : ext) : bool := match x with PosInf => true | _ => false end.

(** DrawCases, gaussian_distributions.hpp:154. *)
Inductive DrawCases := TYPE_1 | TYPE_2 | TYPE_3 | TYPE_4 | NONE.
(** The members, gaussian_distributions.hpp:149-159; the range of
    uniform_range_dist_ is kept with them. *)
Record TruncatedGaussian : Type := mkTG {
  tg_mean : R; tg_stddev : R; tg_std_lower : ext; tg_std_upper : ext; tg_case : DrawCases; tg_range : ext * ext }.

(** CheckSimple, gaussian_distributions.hpp:161-180. *)
Definition CheckSimple (lower_bound upper_bound : R) : bool :=
  let val1 := (2 * sqrt (exp 1)) / (lower_bound + sqrt (lower_bound ^ 2 + 4)) in
  let val2 := exp ((lower_bound ^ 2 - lower_bound * sqrt (lower_bound ^ 2 + 4)) / 4) in
  Rlt_bool (lower_bound + val1 * val2) upper_bound.

(** The constructor, gaussian_distributions.hpp:301-357.  An upper bound of minus
    infinity or a lower bound of plus infinity leads to the arithmetic of infinities
    in CheckSimple: left out, UB. *)
Definition MakeTruncatedGaussian (mean stddev : R) (lower_bound upper_bound : ext) : outcome TruncatedGaussian :=
  let range := (lower_bound, upper_bound) in
  if Req_bool stddev 0 then Ok (mkTG mean stddev (Fin 0) (Fin 0) NONE range)
  else
    let lo := ext_div (ext_sub lower_bound mean) stddev in
    let hi := ext_div (ext_sub upper_bound mean) stddev in
    let case := if ext_leb (Fin 0) hi && ext_leb lo (Fin 0) then TYPE_1 else NONE in
    let case := if ext_ltb (Fin 0) lo && is_pos_inf hi then TYPE_2 else case in
    let '(lo, hi, stddev, case) :=
      if ext_ltb hi (Fin 0) && is_neg_inf lo then (ext_opp hi, PosInf, - stddev, TYPE_2) else (lo, hi, stddev, case) in
    let tail := (ext_ltb hi (Fin 0) || ext_ltb (Fin 0) lo) && negb (is_pos_inf hi || is_neg_inf lo) in
    if tail then
      match lo, hi with
      | Fin l, Fin h => Ok (mkTG mean stddev lo hi (if CheckSimple l h then TYPE_3 else TYPE_4) range)
      | _, _ => UB
      end
    else
      match case with
      | NONE => Throw InvalidArgument
      | TYPE_3 => UB | TYPE_4 => UB (* not assigned so far *)
      | _ => Ok (mkTG mean stddev lo hi case range)
      end.

(** The draws of the four standard distributions from a generator state. *)
Record source (G : Type) : Type := {
  normal_draw : G -> R * G;            (* std::normal_distribution(0, 1) *)
  exponential_draw : G -> R * G;       (* std::exponential_distribution(1) *)
  unit_draw : G -> R * G;              (* std::uniform_real_distribution(0, 1) *)
  range_draw : ext -> ext -> G -> R * G (* std::uniform_real_distribution(a, b) *) }.
Arguments normal_draw {G} _ _. Arguments exponential_draw {G} _ _. Arguments unit_draw {G} _ _. Arguments range_draw {G} _ _ _ _.

Section Sampling.
Context {G : Type} (src : source G).
(** NaiveAcceptReject, gaussian_distributions.hpp:182-197. *)
Fixpoint NaiveAcceptReject (fuel : nat) (lower_bound upper_bound : ext) (g : G) : outcome (R * G) :=
  match fuel with
  | O => Diverge
  | S fuel =>
    let '(draw, g) := normal_draw src g in
    if ext_leb (Fin draw) upper_bound && ext_leb lower_bound (Fin draw) then Ok (draw, g)
    else NaiveAcceptReject fuel lower_bound upper_bound g
  end.
(** SimpleAcceptReject, gaussian_distributions.hpp:199-220. *)
Fixpoint SimpleAcceptReject (fuel : nat) (lower_bound : R) (g : G) : outcome (R * G) :=
  let alpha := (lower_bound + sqrt (lower_bound ^ 2 + 4)) / 2 in
  match fuel with
  | O => Diverge
  | S fuel =>
    let '(e, g) := exponential_draw src g in
    let z := lower_bound + e / alpha in
    let rho := exp (- ((alpha - z) ^ 2) / 2) in
    let '(u, g) := unit_draw src g in
    if Rle_bool u rho then Ok (z, g) else SimpleAcceptReject fuel lower_bound g
  end.
(** The retry loop of TYPE_3, gaussian_distributions.hpp:269-279. *)
Fixpoint BoundedAcceptReject (fuel : nat) (lower_bound : R) (upper_bound : ext) (g : G) : outcome (R * G) :=
  match fuel with
  | O => Diverge
  | S fuel' =>
    do r <- SimpleAcceptReject fuel lower_bound g;
    if ext_leb (Fin (fst r)) upper_bound then Ok r else BoundedAcceptReject fuel' lower_bound upper_bound (snd r)
  end.
(** ComplexAcceptReject, gaussian_distributions.hpp:222-253: [range] is the range of
    uniform_range_dist_. *)
Fixpoint ComplexAcceptReject (fuel : nat) (range : ext * ext) (lower_bound upper_bound : R) (g : G) : outcome (R * G) :=
  match fuel with
  | O => Diverge
  | S fuel =>
    let '(z, g) := range_draw src (fst range) (snd range) g in
    let rho :=
      if Rlt_bool 0 lower_bound then exp ((lower_bound ^ 2 - z ^ 2) / 2)
      else if Rlt_bool upper_bound 0 then exp ((upper_bound ^ 2 - z ^ 2) / 2)
      else if Rlt_bool 0 upper_bound && Rlt_bool lower_bound 0 then exp (- (z ^ 2) / 2)
      else 0 in
    let '(u, g) := unit_draw src g in
    if Rle_bool u rho then Ok (z, g) else ComplexAcceptReject fuel range lower_bound upper_bound g
  end.
(** Sample, gaussian_distributions.hpp:255-297. *)
Definition Sample (fuel : nat) (d : TruncatedGaussian) (g : G) : outcome (R * G) :=
  let scaled r := do r <- r; Ok (tg_mean d + tg_stddev d * fst r, snd r) in
  match tg_case d with
  | TYPE_1 => scaled (NaiveAcceptReject fuel (tg_std_lower d) (tg_std_upper d) g)
  | TYPE_2 => match tg_std_lower d with Fin l => scaled (SimpleAcceptReject fuel l g) | _ => UB end
  | TYPE_3 => match tg_std_lower d with Fin l => scaled (BoundedAcceptReject fuel l (tg_std_upper d) g) | _ => UB end
  | TYPE_4 => match tg_std_lower d, tg_std_upper d with
              | Fin l, Fin h => scaled (ComplexAcceptReject fuel (tg_range d) l h g) | _, _ => UB end
  | NONE => Ok (tg_mean d, g)
  end.
(** A history of calls of operator(), gaussian_distributions.hpp:360-364. *)
Fixpoint SampleMany (n : nat) (fuel : nat) (d : TruncatedGaussian) (g : G) : outcome (list R * G) :=
  match n with
  | O => Ok ([], g)
  | S n => do r <- Sample fuel d g; do rest <- SampleMany n fuel d (snd r); Ok (fst r :: fst rest, snd rest)
  end.
End Sampling.

(** ** MultivariteGaussianDistribution, gaussian_distributions.hpp:367-438 *)
(** The size check of the constructor, 413-416: [mean_] is a column vector.  The
    matrix is assumed square, which Eigen::LLT requires, and its factor free of
    NaN and infinity. *)
Definition CheckMultivariateSizes (mean_rows covariance_rows covariance_cols : nat) : outcome unit :=
  let mean_cols := 1%nat in
  if negb (covariance_rows =? covariance_cols)%nat then UB
  else if negb (mean_rows =? covariance_rows)%nat || negb (mean_cols =? covariance_cols)%nat then Throw InvalidArgument
  else Ok tt.
