(** Specification vocabulary for color_builder.hpp (C70, C96-C98). *)
From Coq Require Import Reals.
From Flocq Require Import Core BinarySingleNaN.
From Verif Require Import Base ColorModel.
Local Open Scope R_scope.

(** A channel value in [0, 1]. *)
Definition in_unit (x : single) : Prop := is_finite x = true /\ 0 <= B2R x <= 1.
Definition valid_color (c : color) : Prop := in_unit (cr c) /\ in_unit (cg c) /\ in_unit (cb c) /\ in_unit (ca c).
(** The value of a float channel limited to [0, 1]; infinities count as beyond every number. *)
Definition limited (x : single) : R :=
  match x with
  | B754_infinity true => 0
  | B754_infinity false => 1
  | _ => Rmax 0 (Rmin 1 (B2R x))
  end.
(** Everything a program can do with the checked interface of a colour. *)
Inductive color_op : Type := OpSet (ch : nat) (v : single) | OpSetHex (ch : nat) (h : Z) | OpConvert.
Definition apply_op (c : color) (o : color_op) : outcome color :=
  match o with
  | OpSet ch v => SetChannel c ch v
  | OpSetHex ch h => Ok (SetChannelHex c ch h)
  | OpConvert => ConvertColor c
  end.
(** An operation with arguments that are numbers, hex values being bytes. *)
Definition numeric_op (o : color_op) : Prop :=
  match o with OpSet _ v => is_nan v = false | OpSetHex _ h => (0 <= h <= 255)%Z | OpConvert => True end.

(** A real number limited to [0, 1]. *)
Definition limit01 (x : R) : R := Rmax 0 (Rmin 1 x).
(** The heat scale: how far [value], limited to [lo, hi], lies between them, and the
    colour of that position: blue at 0, cyan at 1/4, green at 1/2, yellow at 3/4, red at 1. *)
Definition heat (value lo hi : R) : R := (Rmax lo (Rmin hi value) - lo) / (hi - lo).
Definition heat_color (t : R) : R * R * R := (limit01 (4 * t - 2), limit01 (Rmin (4 * t) (4 - 4 * t)), limit01 (2 - 4 * t)).
(** Red, green and blue of a colour. *)
Definition rgb_of (c : color) : single * single * single := (cr c, cg c, cb c).
(** Every way of making a colour. *)
Inductive construction : Type :=
| CDefault | CFloat4 (r g b a : single) | CFloat3 (r g b : single) | CHex4 (r g b a : Z) | CMixed (r g b : Z) (a : single) | CHex3 (r g b : Z)
| CMakeHex (r g b a : Z) | CMakeMixed (r g b : Z) (a : single).
Definition build (k : construction) : outcome color :=
  match k with
  | CDefault => Ok RGBAColorDefault
  | CFloat4 r g b a => MakeFromFloatColors r g b a
  | CFloat3 r g b => RGBAColorF3 r g b
  | CHex4 r g b a => Ok (RGBAColorH4 r g b a)
  | CMixed r g b a => RGBAColorHF r g b a
  | CHex3 r g b => Ok (RGBAColorH3 r g b)
  | CMakeHex r g b a => MakeFromHexColors r g b a
  | CMakeMixed r g b a => MakeFromMixedColors r g b a
  end.
Definition byte_value (h : Z) : Prop := (0 <= h <= 255)%Z.
Definition number (x : single) : Prop := is_nan x = false.
(** A construction from numbers. *)
Definition numeric_construction (k : construction) : Prop :=
  match k with
  | CDefault => True
  | CFloat4 r g b a => number r /\ number g /\ number b /\ number a
  | CFloat3 r g b => number r /\ number g /\ number b
  | CHex4 r g b a | CMakeHex r g b a => byte_value r /\ byte_value g /\ byte_value b /\ byte_value a
  | CMixed r g b a | CMakeMixed r g b a => byte_value r /\ byte_value g /\ byte_value b /\ number a
  | CHex3 r g b => byte_value r /\ byte_value g /\ byte_value b
  end.
(** A program that makes a colour and then works on it. *)
Fixpoint run_ops (c : color) (ops : list color_op) : outcome color :=
  match ops with [] => Ok c | o :: r => do c' <- apply_op c o; run_ops c' r end.
Definition run_program (k : construction) (ops : list color_op) : outcome color := do c <- build k; run_ops c ops.
