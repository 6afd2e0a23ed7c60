(** C179: colour channels end up where they are asked for (color_builder.hpp). *)
From Coq Require Import Reals Lra.
From Flocq Require Import Core BinarySingleNaN.
From Verif Require Import Base UtilityModel Double MathModel ColorModel ColorSpec ColorProof ColorProof2 ColorChannelSpec ColorChannelProof.
Local Open Scope R_scope.

(** However a colour is made and whatever is done to it afterwards, every channel holds what
    it was last given and nothing that was meant for another channel. *)
Theorem C179_channels : forall (k : construction) (ops : list color_op),
  numeric_construction k -> Forall numeric_op ops -> Forall names_channel ops ->
  exists c, run_program k ops = Ok c /\ valid_color c /\ forall ch, holds c ch (latest (argument k ch) ch ops).
Proof. exact program_holds. Qed.
(** Setting one channel leaves the others exactly as they are, whatever the value. *)
Theorem C179_others_kept : forall (c c' : color) (ch other : channel) (v : single), ch <> other ->
  SetChannel c (channel_number ch) v = Ok c' -> get_channel c' (channel_number other) = get_channel c (channel_number other).
Proof.
  intros c c' ch other v D E. unfold SetChannel in E. destruct (TrimColorValue v); [|discriminate E..]. cbn [bind] in E. injection E as <-.
  rewrite set_get by (destruct ch; cbn; auto with arith). destruct ch, other; try congruence; reflexivity.
Qed.
Theorem C179_others_kept_hex : forall (c : color) (ch other : channel) (h : Z), ch <> other ->
  get_channel (SetChannelHex c (channel_number ch) h) (channel_number other) = get_channel c (channel_number other).
Proof.
  intros c ch other h D. unfold SetChannelHex. rewrite set_get by (destruct ch; cbn; auto with arith). destruct ch, other; try congruence; reflexivity.
Qed.
(** Converting a valid colour to another colour type changes nothing. *)
Theorem C179_conversion : forall c : color, valid_color c -> ConvertColor c = Ok c.
Proof. intros c (A & B & C & D). unfold ConvertColor, MakeFromFloatColors. rewrite !trim_same by assumption. destruct c; reflexivity. Qed.
Print Assumptions C179_channels. Print Assumptions C179_others_kept. Print Assumptions C179_others_kept_hex. Print Assumptions C179_conversion.
(** Four different bytes, then one channel set, a conversion, another set: each is where it belongs. *)
Example C179_case : numeric_construction (CMakeHex 1 2 3 4) /\ Forall numeric_op [OpSetHex 2 17; OpConvert; OpSet 0 (s_of_Z 2)] /\
  Forall names_channel [OpSetHex 2 17; OpConvert; OpSet 0 (s_of_Z 2)] /\
  map (fun ch => latest (argument (CMakeHex 1 2 3 4) ch) ch [OpSetHex 2 17; OpConvert; OpSet 0 (s_of_Z 2)]) [Red; Green; Blue; Alpha]
    = [FromFloat (s_of_Z 2); FromByte 2; FromByte 17; FromByte 4] /\
  (do c <- run_program (CMakeHex 1 2 3 4) [OpSetHex 2 17; OpConvert; OpSet 0 (s_of_Z 2)];
   do r <- GetChannelHex c 0; do g <- GetChannelHex c 1; do b <- GetChannelHex c 2; do a <- GetChannelHex c 3; Ok [r; g; b; a]) = Ok [255; 2; 17; 4]%Z.
Proof.
  split; [cbn; repeat split; discriminate|]. split; [repeat constructor; cbn; try lia; reflexivity|]. split; [repeat constructor; cbn; lia|].
  split; [reflexivity|]. vm_compute. reflexivity.
Qed.
