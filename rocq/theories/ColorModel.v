(** Model of color_builder.hpp. float is IEEE binary32; InterpolateHotToCold computes
    in double and is written over [arith] (MathModel.v) so that it can also be read in
    exact arithmetic. *)
From Coq Require Import Reals.
From Flocq Require Import Core BinarySingleNaN.
From Verif Require Import Base UtilityModel Double MathModel MathReal.

Definition single : Type := binary_float 24 128.
#[global] Instance prec24 : Prec_gt_0 24 := eq_refl.
#[global] Instance emax128 : Prec_lt_emax 24 128 := eq_refl.
(** static_cast<float> of an integer, float multiplication, division, comparisons. *)
Definition s_of_Z (z : Z) : single := binary_normalize 24 128 eq_refl eq_refl mode_NE z 0 false.
Definition smul (x y : single) : single := Bmult mode_NE x y.
Definition sdiv (x y : single) : single := Bdiv mode_NE x y.
Definition ssub (x y : single) : single := Bminus mode_NE x y.
Definition slt (x y : single) : bool := Bltb x y.
Definition sle (x y : single) : bool := Bleb x y.
(** static_cast<float>(double). *)
Definition s_of_d (x : double) : single :=
  match x with
  | B754_finite s m e _ => binary_normalize 24 128 eq_refl eq_refl mode_NE (cond_Zopp s (Zpos m)) e s
  | B754_zero s => B754_zero s
  | B754_infinity s => B754_infinity s
  | B754_nan => B754_nan
  end.

(** ColorChannelFromHex, color_builder.hpp:15-18. *)
Definition ColorChannelFromHex (hexval : Z) : single := sdiv (s_of_Z hexval) (s_of_Z 255).
(** TrimColorValue, color_builder.hpp:21-24. *)
Definition TrimColorValue (val : single) : outcome single :=
  ClampValue slt (fun a b => sle b a) val (s_of_Z 0) (s_of_Z 1).
(** std::round: to the nearest integer, halves away from zero. *)
Definition sround (x : single) : Z :=
  match x with
  | B754_finite s m e _ =>
    cond_Zopp s (if (0 <=? e)%Z then Zpos m * 2 ^ e else (Zpos m + 2 ^ (- e - 1)) / 2 ^ (- e))%Z
  | _ => 0%Z
  end.
(** static_cast<uint8_t>(std::round(x)): undefined if the value does not fit. *)
Definition round_to_uint8 (x : single) : outcome Z :=
  if is_finite x then if (0 <=? sround x)%Z && (sround x <=? 255)%Z then Ok (sround x) else UB else UB.
(** ColorChannelToHex, color_builder.hpp:27-30. *)
Definition ColorChannelToHex (colorval : single) : outcome Z :=
  do c <- TrimColorValue colorval; round_to_uint8 (smul c (s_of_Z 255)).

(** RGBAColor, color_builder.hpp:34-107: the four float members. *)
Record color : Type := mkColor { cr : single; cg : single; cb : single; ca : single }.
(** RGBAColor(float, float, float, float), color_builder.hpp:43-46, and
    MakeFromFloatColors, color_builder.hpp:111-121. *)
Definition MakeFromFloatColors (r g b a : single) : outcome color :=
  do r' <- TrimColorValue r; do g' <- TrimColorValue g; do b' <- TrimColorValue b; do a' <- TrimColorValue a;
  Ok (mkColor r' g' b' a').
(** RGBAColor(float, float, float), color_builder.hpp:48-50. *)
Definition RGBAColorF3 (r g b : single) : outcome color :=
  do r' <- TrimColorValue r; do g' <- TrimColorValue g; do b' <- TrimColorValue b; Ok (mkColor r' g' b' (s_of_Z 1)).
(** RGBAColor(uint8_t, uint8_t, uint8_t, uint8_t), color_builder.hpp:52-55. *)
Definition RGBAColorH4 (r g b a : Z) : color :=
  mkColor (ColorChannelFromHex r) (ColorChannelFromHex g) (ColorChannelFromHex b) (ColorChannelFromHex a).
(** RGBAColor(uint8_t, uint8_t, uint8_t, float), color_builder.hpp:57-60. *)
Definition RGBAColorHF (r g b : Z) (a : single) : outcome color :=
  do a' <- TrimColorValue a; Ok (mkColor (ColorChannelFromHex r) (ColorChannelFromHex g) (ColorChannelFromHex b) a').
(** RGBAColor(uint8_t, uint8_t, uint8_t), color_builder.hpp:62-64. *)
Definition RGBAColorH3 (r g b : Z) : color :=
  mkColor (ColorChannelFromHex r) (ColorChannelFromHex g) (ColorChannelFromHex b) (s_of_Z 1).
(** RGBAColor(), color_builder.hpp:66. *)
Definition RGBAColorDefault : color := mkColor (s_of_Z 0) (s_of_Z 0) (s_of_Z 0) (s_of_Z 0).
(** SetR ... SetA, SetRHex ... SetAHex, color_builder.hpp:76-106; [ch] numbers the channel. *)
Definition set_channel (c : color) (ch : nat) (v : single) : color :=
  match ch with
  | 0 => mkColor v (cg c) (cb c) (ca c)
  | 1 => mkColor (cr c) v (cb c) (ca c)
  | 2 => mkColor (cr c) (cg c) v (ca c)
  | _ => mkColor (cr c) (cg c) (cb c) v
  end.
Definition SetChannel (c : color) (ch : nat) (v : single) : outcome color :=
  do v' <- TrimColorValue v; Ok (set_channel c ch v').
Definition SetChannelHex (c : color) (ch : nat) (h : Z) : color := set_channel c ch (ColorChannelFromHex h).
(** GetRHex ... GetAHex, color_builder.hpp:92-98. *)
Definition get_channel (c : color) (ch : nat) : single :=
  match ch with 0 => cr c | 1 => cg c | 2 => cb c | _ => ca c end.
Definition GetChannelHex (c : color) (ch : nat) : outcome Z := ColorChannelToHex (get_channel c ch).
(** MakeFromHexColors, color_builder.hpp:124-132. *)
Definition MakeFromHexColors (r g b a : Z) : outcome color :=
  MakeFromFloatColors (ColorChannelFromHex r) (ColorChannelFromHex g) (ColorChannelFromHex b) (ColorChannelFromHex a).
(** MakeFromMixedColors, color_builder.hpp:137-145. *)
Definition MakeFromMixedColors (r g b : Z) (a : single) : outcome color :=
  do a' <- TrimColorValue a;
  MakeFromFloatColors (ColorChannelFromHex r) (ColorChannelFromHex g) (ColorChannelFromHex b) a'.
(** ConvertColor, color_builder.hpp:189-198. *)
Definition ConvertColor (c : color) : outcome color := MakeFromFloatColors (cr c) (cg c) (cb c) (ca c).
(** ColorsEqual, color_builder.hpp:202-224. *)
Definition ColorsEqual (c1 c2 : color) (tolerance : single) : bool :=
  let far x y := slt tolerance (Babs (ssub x y)) in
  if far (cr c1) (cr c2) then false else if far (cg c1) (cg c2) then false
  else if far (cb c1) (cb c2) then false else if far (ca c1) (ca c2) then false else true.

(** LookupUniqueColor, color_builder.hpp:230-306: the table of codes 1 to 20. *)
Definition unique_table : list (Z * Z * Z) :=
  [(0xff, 0x00, 0xb3); (0x80, 0x75, 0x3e); (0xff, 0x00, 0x68); (0xa6, 0xd7, 0xbd); (0xc1, 0x20, 0x00);
   (0xce, 0x62, 0xa2); (0x81, 0x66, 0x70); (0x00, 0x34, 0x7d); (0xf6, 0x8e, 0x76); (0x00, 0x8a, 0x53);
   (0xff, 0x5c, 0x7a); (0x53, 0x7a, 0x37); (0xff, 0x00, 0x8e); (0xb3, 0x51, 0x28); (0xf4, 0x00, 0xc8);
   (0x7f, 0x0d, 0x18); (0x93, 0x00, 0xaa); (0x59, 0x15, 0x33); (0xf1, 0x13, 0x3a); (0x23, 0x16, 0x2c)]%Z.
Definition LookupUniqueColor (color_code : nat) (alpha : single) : outcome color :=
  match color_code with
  | 0 => MakeFromFloatColors (s_of_Z 1) (s_of_Z 1) (s_of_Z 1) (s_of_Z 0)
  | S k =>
    match nth_error unique_table k with
    | Some (r, g, b) => MakeFromMixedColors r g b alpha
    | None => MakeFromFloatColors (s_of_Z 0) (s_of_Z 0) (s_of_Z 0) alpha
    end
  end.

(** InterpolateHotToCold, color_builder.hpp:149-184: the three channels as doubles. *)
Section HotToCold.
Context {A : Type} (ar : arith A).
Notation "a +' b" := (aadd ar a b) (at level 50, left associativity).
Notation "a -' b" := (asub ar a b) (at level 50, left associativity).
Notation "a *' b" := (amul ar a b) (at level 40, left associativity).
Notation "a /' b" := (adiv ar a b) (at level 40, left associativity).
Notation n0 := (a_of ar 0). Notation n1 := (a_of ar 1). Notation n4 := (a_of ar 4).
(** The literals 0.25, 0.5 and 0.75, which doubles represent exactly. *)
Definition quarters (k : Z) : A := a_of ar k /' a_of ar 4.
Definition hot_to_cold (value min_value max_value : A) : outcome (A * A * A) :=
  do real_value <- ClampValue (altb ar) (fun a b => aleb ar b a) value min_value max_value;
  let range := max_value -' min_value in
  Ok (if altb ar real_value (min_value +' (quarters 1 *' range)) then
        (n0, (n4 *' (real_value -' min_value)) /' range, n1)
      else if altb ar real_value (min_value +' (quarters 2 *' range)) then
        (n0, n1, n1 +' ((n4 *' ((min_value +' (quarters 1 *' range)) -' real_value)) /' range))
      else if altb ar real_value (min_value +' (quarters 3 *' range)) then
        ((n4 *' ((real_value -' min_value) -' (quarters 2 *' range))) /' range, n1, n0)
      else
        (n1, n1 +' ((n4 *' ((min_value +' (quarters 3 *' range)) -' real_value)) /' range), n0)).
End HotToCold.
Definition InterpolateHotToCold (value min_value max_value : double) : outcome color :=
  do rgb <- hot_to_cold double_arith value min_value max_value;
  MakeFromFloatColors (s_of_d (fst (fst rgb))) (s_of_d (snd (fst rgb))) (s_of_d (snd rgb)) (s_of_Z 1).
