(** Properties C01-C03 (base64).  Statements only; proofs in Base64Proof.v,
    model in Base64Model.v, specification vocabulary in Base64Spec.v. *)
From Verif Require Import Base Base64Model Base64Spec Base64Proof.
Local Open Scope N_scope.

(** C01: decoding an encoding gives the original bytes back, whatever the
    signedness of plain char. *)
Theorem C01_base64_round_trip :
  forall (char_signed : bool) (b : list N), bytes b -> fits b ->
  exists s, Encode b = Ok s /\ Decode char_signed s = Ok b.
Proof. exact base64_round_trip. Qed.
Print Assumptions C01_base64_round_trip.

Example C01_base64_round_trip_nonvacuous :
  bytes [77; 97; 110; 255; 0] /\ fits [77; 97; 110; 255; 0].
Proof. exact sample_bytes_ok. Qed.

(** C02: the encoding is exactly the RFC 4648 text: right length, only alphabet
    characters followed by the right number of '=' characters. *)
Theorem C02_base64_encode_is_rfc4648 :
  forall b : list N, bytes b -> fits b -> Encode b = Ok (rfc4648 b).
Proof. exact Encode_spec. Qed.
Print Assumptions C02_base64_encode_is_rfc4648.

Theorem C02_base64_output_shape :
  forall (b s : list N), bytes b -> fits b -> Encode b = Ok s ->
  length s = (4 * ((length b + 2) / 3))%nat /\
  exists body pad, s = body ++ repeat 61 pad /\ Forall is_alpha body /\
    pad = ((3 - length b mod 3) mod 3)%nat.
Proof. exact base64_shape. Qed.
Print Assumptions C02_base64_output_shape.

Theorem C02_base64_encode_injective :
  forall (b1 b2 s : list N), bytes b1 -> bytes b2 -> fits b1 -> fits b2 ->
  Encode b1 = Ok s -> Encode b2 = Ok s -> b1 = b2.
Proof. exact base64_injective. Qed.
Print Assumptions C02_base64_encode_injective.

(** C03 (full claim): for every std::string, Decode performs no undefined
    behaviour.  False where plain char is signed (x86): a single character with
    the top bit set is a witness, so is any such character inside a block. *)
Theorem C03_base64_decode_memory_safe_refuted :
  exists s : list N, bytes s /\ Decode true s = UB.
Proof. exact decode_signed_ub. Qed.
Print Assumptions C03_base64_decode_memory_safe_refuted.

(** C03, proved part: every 7-bit ASCII string with signed char, every string at
    all with unsigned char, decodes without undefined behaviour or exception to
    bytes, at most three per (started) group of four characters. *)
Theorem C03_base64_decode_memory_safe_partial :
  forall s : list N,
  (ascii s -> exists d, Decode true s = Ok d /\ bytes d /\ (4 * length d <= 3 * (length s + 3))%nat) /\
  (bytes s -> exists d, Decode false s = Ok d /\ bytes d /\ (4 * length d <= 3 * (length s + 3))%nat).
Proof. exact decode_safe_both. Qed.
Print Assumptions C03_base64_decode_memory_safe_partial.

Example C03_nonvacuous : ascii [65; 66; 61; 10; 65] /\ bytes [200; 65].
Proof. exact sample_ascii. Qed.
