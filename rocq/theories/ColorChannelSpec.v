(** Specification vocabulary for C179: where the value of a colour's channel comes from. *)
From Coq Require Import Reals.
From Flocq Require Import Core BinarySingleNaN.
From Verif Require Import Base ColorModel ColorSpec.
Local Open Scope R_scope.

(** The argument a channel was last given: a float, a byte, or a value the library chooses. *)
Inductive source : Type := FromFloat (v : single) | FromByte (h : Z) | Chosen (x : R).
Inductive channel : Type := Red | Green | Blue | Alpha.
Definition channel_number (c : channel) : nat := match c with Red => 0 | Green => 1 | Blue => 2 | Alpha => 3 end.
(** The argument for red, green, blue or alpha in the call that made the colour. The default
    colour is transparent black, and a colour made without alpha is opaque. *)
Definition argument (k : construction) (c : channel) : source :=
  match k, c with
  | CDefault, _ => Chosen 0
  | CFloat4 r g b a, Red => FromFloat r | CFloat4 r g b a, Green => FromFloat g | CFloat4 r g b a, Blue => FromFloat b | CFloat4 r g b a, Alpha => FromFloat a
  | CFloat3 r g b, Red => FromFloat r | CFloat3 r g b, Green => FromFloat g | CFloat3 r g b, Blue => FromFloat b | CFloat3 r g b, Alpha => Chosen 1
  | CHex4 r g b a, Red => FromByte r | CHex4 r g b a, Green => FromByte g | CHex4 r g b a, Blue => FromByte b | CHex4 r g b a, Alpha => FromByte a
  | CMixed r g b a, Red => FromByte r | CMixed r g b a, Green => FromByte g | CMixed r g b a, Blue => FromByte b | CMixed r g b a, Alpha => FromFloat a
  | CHex3 r g b, Red => FromByte r | CHex3 r g b, Green => FromByte g | CHex3 r g b, Blue => FromByte b | CHex3 r g b, Alpha => Chosen 1
  | CMakeHex r g b a, Red => FromByte r | CMakeHex r g b a, Green => FromByte g | CMakeHex r g b a, Blue => FromByte b | CMakeHex r g b a, Alpha => FromByte a
  | CMakeMixed r g b a, Red => FromByte r | CMakeMixed r g b a, Green => FromByte g | CMakeMixed r g b a, Blue => FromByte b | CMakeMixed r g b a, Alpha => FromFloat a
  end.
(** The source of a channel after further operations: the last one that set that channel.
    Conversion to another colour type sets none. *)
Fixpoint latest (s : source) (c : channel) (ops : list color_op) : source :=
  match ops with
  | [] => s
  | OpSet ch v :: r => latest (if Nat.eqb ch (channel_number c) then FromFloat v else s) c r
  | OpSetHex ch h :: r => latest (if Nat.eqb ch (channel_number c) then FromByte h else s) c r
  | OpConvert :: r => latest s c r
  end.
(** Operations name one of the four channels. *)
Definition names_channel (o : color_op) : Prop := match o with OpSet ch _ | OpSetHex ch _ => (ch <= 3)%nat | OpConvert => True end.
(** What a channel holds: its float limited to [0, 1]; its byte, read back as that byte, with
    a float value within 2^-25 of a 255th of it; the chosen value. *)
Definition holds (c : color) (ch : channel) (s : source) : Prop :=
  match s with
  | FromFloat v => B2R (get_channel c (channel_number ch)) = limited v
  | FromByte h => GetChannelHex c (channel_number ch) = Ok h /\ Rabs (B2R (get_channel c (channel_number ch)) - IZR h / 255) <= bpow radix2 (-25)
  | Chosen x => B2R (get_channel c (channel_number ch)) = x
  end.
