(** The scalars of TotpModel.v: IEEE binary64, and exact arithmetic in which - as in
    IEEE arithmetic - a division by zero gives an infinity and an undefined result is
    NaN ([Rdiv] of the standard library would give some real number instead).  The
    sign of a zero divisor is taken to be plus. *)
From Coq Require Import Reals Lra Bool ZArith.
From Flocq Require Import Core BinarySingleNaN.
From Verif Require Import Base Double MathModel MathReal TotpModel.

(** Extended real numbers: finite, infinite (true: negative), not a number. *)
Inductive xr : Type := XFin (r : R) | XInf (negative : bool) | XNan.

Definition xsign (r : R) : bool := Rlt_bool r 0.
Definition xopp (a : xr) : xr := match a with XFin r => XFin (- r) | XInf s => XInf (negb s) | XNan => XNan end.
Definition xabs (a : xr) : xr := match a with XFin r => XFin (Rabs r) | XInf _ => XInf false | XNan => XNan end.
Definition xadd (a b : xr) : xr :=
  match a, b with
  | XFin x, XFin y => XFin (x + y)
  | XInf s, XInf t => if eqb s t then XInf s else XNan
  | XInf s, XFin _ | XFin _, XInf s => XInf s
  | _, _ => XNan
  end.
Definition xsub (a b : xr) : xr := xadd a (xopp b).
Definition xmul (a b : xr) : xr :=
  match a, b with
  | XFin x, XFin y => XFin (x * y)
  | XInf s, XInf t => XInf (xorb s t)
  | XInf s, XFin x | XFin x, XInf s => if Req_bool x 0 then XNan else XInf (xorb s (xsign x))
  | _, _ => XNan
  end.
Definition xdiv (a b : xr) : xr :=
  match a, b with
  | XFin x, XFin y => if Req_bool y 0 then (if Req_bool x 0 then XNan else XInf (xsign x)) else XFin (x / y)
  | XFin _, XInf _ => XFin 0
  | XInf s, XFin y => XInf (xorb s (xsign y))
  | _, _ => XNan
  end.
Definition xsqrt (a : xr) : xr :=
  match a with
  | XFin x => if Rlt_bool x 0 then XNan else XFin (sqrt x)
  | XInf false => XInf false
  | _ => XNan
  end.
Definition xltb (a b : xr) : bool :=
  match a, b with
  | XFin x, XFin y => Rlt_bool x y
  | XInf true, XFin _ | XInf true, XInf false | XFin _, XInf false => true
  | _, _ => false
  end.
Definition xeqb (a b : xr) : bool :=
  match a, b with
  | XFin x, XFin y => Req_bool x y
  | XInf s, XInf t => eqb s t
  | _, _ => false
  end.
Definition xleb (a b : xr) : bool := xltb a b || xeqb a b.
Definition xfmod (a b : xr) : xr :=
  match a, b with
  | XFin x, XFin y => if Req_bool y 0 then XNan else XFin (Rfmod x y)
  | XFin x, XInf _ => XFin x
  | _, _ => XNan
  end.
(** Exact arithmetic with infinities. *)
Definition xarith : arith xr := {|
  a_of := fun z => XFin (IZR z); aadd := xadd; asub := xsub; amul := xmul; adiv := xdiv; aopp := xopp; aabs := xabs;
  asqrt := xsqrt; afmod := xfmod; altb := xltb; aleb := xleb; aeqb := xeqb; a_pi := XFin PI |}.

(** numeric_limits<double>::max() = (2^53 - 1) 2^971. *)
Definition max_double : Z := ((2 ^ 53 - 1) * 2 ^ 971)%Z.
(** The angle of the point (x, y), std::atan2. *)
Definition Ratan2 (y x : R) : R :=
  if Rlt_bool 0 x then atan (y / x)
  else if Rlt_bool x 0 then (if Rle_bool 0 y then atan (y / x) + PI else atan (y / x) - PI)
  else if Rlt_bool 0 y then PI / 2 else if Rlt_bool y 0 then - PI / 2 else 0.
Definition on_fin (f : R -> R) (a : xr) : xr := match a with XFin x => XFin (f x) | _ => XNan end.
Definition xextras : extras xr := {|
  e_max := XFin (IZR max_double); e_inf := XInf false;
  e_finite := fun a => match a with XFin _ => true | _ => false end;
  e_sin := on_fin sin; e_cos := on_fin cos;
  e_tan := fun a => match a with XFin x => xdiv (XFin (sin x)) (XFin (cos x)) | _ => XNan end;
  e_acos := fun a => match a with XFin x => if Rle_bool (Rabs x) 1 then XFin (acos x) else XNan | _ => XNan end;
  e_atan2 := fun a b => match a, b with XFin y, XFin x => XFin (Ratan2 y x) | _, _ => XNan end |}.

(** binary64; the functions of <cmath> are given from outside, since their results are
    not specified exactly. *)
Record trig : Type := mkTrig {
  m_sin : double -> double; m_cos : double -> double; m_tan : double -> double; m_acos : double -> double;
  m_atan2 : double -> double -> double }.
Definition dmax : double := d_of_Z max_double.
Definition dextras (m : trig) : extras double := {|
  e_max := dmax; e_inf := dinf; e_finite := is_finite;
  e_sin := m_sin m; e_cos := m_cos m; e_tan := m_tan m; e_acos := m_acos m; e_atan2 := m_atan2 m |}.
