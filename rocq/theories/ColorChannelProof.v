(** Proofs for C179. *)
From Coq Require Import Reals Lra Psatz.
From Flocq Require Import Core BinarySingleNaN.
From Verif Require Import Base UtilityModel Double DoubleFacts MathModel MathReal ColorModel ColorSpec ColorProof ColorProof2 ColorChannelSpec.
Local Open Scope R_scope.

(** What one channel value is. *)
Definition value_of (x : single) (s : source) : Prop :=
  match s with
  | FromFloat v => B2R x = limited v
  | FromByte h => x = ColorChannelFromHex h /\ byte_value h
  | Chosen z => B2R x = z
  end.
Lemma rnd32_err1 z : 0 <= z <= 1 -> Rabs (rnd32 z - z) <= bpow radix2 (-25).
Proof.
  intros H. destruct (Req_dec z 1) as [->|Hn].
  - assert (E : rnd32 1 = 1) by (destruct s1_val as [V _]; rewrite <- V; apply rnd32_fix). rewrite E, Rminus_diag_eq, Rabs_R0 by reflexivity. apply bpow_ge_0.
  - pose proof (error_le_half_ulp radix2 fexp32 (fun x => negb (Z.even x)) z) as U.
    eapply Rle_trans; [exact U|]. assert (UL : ulp radix2 fexp32 z <= bpow radix2 (-24)).
    { destruct (Req_dec z 0) as [->|Hz].
      - change fexp32 with (FLT_exp (-149) 24). rewrite ulp_FLT_0 by reflexivity. apply bpow_le. lia.
      - rewrite ulp_neq_0 by exact Hz. apply bpow_le. unfold cexp. change fexp32 with (FLT_exp (-149) 24). unfold FLT_exp.
        assert (mag radix2 z <= 0)%Z; [|lia]. apply mag_le_bpow; [exact Hz|]. change (bpow radix2 0) with 1. rewrite Rabs_pos_eq by lra. lra. }
    replace (bpow radix2 (-25)) with (/ 2 * bpow radix2 (-24)); [lra|]. change (-25)%Z with (-1 + -24)%Z. rewrite bpow_plus. reflexivity.
Qed.
Definition whole (h : Z) : bool := match s_of_Z h with B754_zero false => (h =? 0)%Z | B754_finite s m e _ => match e with Z.neg k => (cond_Zopp s (Zpos m) =? h * 2 ^ Zpos k)%Z | _ => (cond_Zopp s (Zpos m) * 2 ^ e =? h)%Z end | _ => false end.
Lemma all_whole : forallb whole (map Z.of_nat (seq 0 256)) = true. Proof. vm_compute. reflexivity. Qed.
Lemma byte_exact h : byte_value h -> B2R (s_of_Z h) = IZR h /\ is_finite (s_of_Z h) = true.
Proof.
  intros H. pose proof all_whole as A. rewrite forallb_forall in A. specialize (A h).
  assert (I : In h (map Z.of_nat (seq 0 256))).
  { apply in_map_iff. exists (Z.to_nat h). unfold byte_value in H. split; [lia|]. apply in_seq. lia. }
  specialize (A I). unfold whole in A. destruct (s_of_Z h) as [[|]| | |s m e B] eqn:E; try discriminate A.
  - apply Z.eqb_eq in A. subst h. split; reflexivity.
  - split; [|reflexivity]. cbn [B2R]. unfold F2R. cbn [Fnum Fexp]. destruct e as [|k|k]; apply Z.eqb_eq in A.
    + rewrite <- A, mult_IZR. reflexivity.
    + rewrite <- A, mult_IZR; reflexivity.
    + rewrite A, mult_IZR. change 2%Z with (radix_val radix2). rewrite IZR_Zpower by lia. rewrite Rmult_assoc, <- bpow_plus.
      replace (Z.pos k + Z.neg k)%Z with 0%Z by lia. change (bpow radix2 0) with 1. ring.
Qed.
Lemma from_hex_value h : byte_value h -> Rabs (B2R (ColorChannelFromHex h) - IZR h / 255) <= bpow radix2 (-25).
Proof.
  intros H. destruct (byte_exact h H) as [V F]. destruct s255_val as [V2 F2]. unfold ColorChannelFromHex, sdiv.
  pose proof (Bdiv_correct 24 128 eq_refl eq_refl mode_NE (s_of_Z h) (s_of_Z 255)) as C. rewrite V, V2 in C. specialize (C ltac:(lra)).
  change (round_mode mode_NE) with ZnearestE in C. fold fexp32 in C. fold (rnd32 (IZR h / 255)) in C.
  assert (R01 : 0 <= IZR h / 255 <= 1).
  { destruct H as [H1 H2]. apply IZR_le in H1, H2. lra. }
  assert (B : Rabs (rnd32 (IZR h / 255)) < bpow radix2 128).
  { assert (rnd32 0 <= rnd32 (IZR h / 255) <= rnd32 1) by (split; apply rnd32_mono; lra).
    assert (E : rnd32 1 = 1) by (destruct s1_val as [V1 _]; rewrite <- V1; apply rnd32_fix). rewrite rnd32_0, E in *.
    rewrite Rabs_pos_eq by lra. apply Rle_lt_trans with 1; [lra|]. apply (bpow_lt radix2 0 128). lia. }
  rewrite Rlt_bool_true in C by exact B. destruct C as (C & _). assert (C2 : B2R (ColorChannelFromHex h) = rnd32 (IZR h / 255)) by exact C. unfold ColorChannelFromHex, sdiv in C2. rewrite C2. apply rnd32_err1, R01.
Qed.
Lemma trim_float v : number v -> exists y, TrimColorValue v = Ok y /\ in_unit y /\ value_of y (FromFloat v).
Proof. exact (trim_spec v). Qed.
(** A channel that is in range is what it was after limiting again. *)
Lemma build_holds k : numeric_construction k -> exists c, build k = Ok c /\ valid_color c /\
  forall ch, value_of (get_channel c (channel_number ch)) (argument k ch).
Proof.
  intros N. destruct (build_valid k N) as (c & E & V). exists c. split; [exact E|]. split; [exact V|]. clear V.
  destruct s0_val as [Z0 _], s1_val as [Z1 _].
  destruct k as [|r g b a|r g b|r g b a|r g b a|r g b|r g b a|r g b a]; cbn [numeric_construction build] in *.
  - injection E as <-. intros [ | | | ]; exact Z0.
  - destruct N as (Nr & Ng & Nb & Na). destruct (make_float r g b a Nr Ng Nb Na) as (c' & E' & _ & A & B & C & D). rewrite E in E'. injection E' as <-. intros [ | | | ]; assumption.
  - destruct N as (Nr & Ng & Nb). unfold RGBAColorF3 in E.
    destruct (trim_spec r Nr) as (r' & Er & _ & Vr), (trim_spec g Ng) as (g' & Eg & _ & Vg), (trim_spec b Nb) as (b' & Eb & _ & Vb). rewrite Er, Eg, Eb in E. cbn [bind] in E.
    injection E as <-. intros [ | | | ]; assumption.
  - injection E as <-. intros [ | | | ]; (split; [reflexivity|apply N]).
  - destruct N as (Nr & Ng & Nb & Na). unfold RGBAColorHF in E. destruct (trim_spec a Na) as (a' & Ea & _ & Va). rewrite Ea in E. cbn [bind] in E. injection E as <-.
    intros [ | | | ]; [split; [reflexivity|assumption]..|exact Va].
  - injection E as <-. intros [ | | | ]; [split; [reflexivity|apply N]..|exact Z1].
  - destruct N as (Nr & Ng & Nb & Na). unfold MakeFromHexColors, MakeFromFloatColors in E. rewrite !trim_hex in E by assumption. cbn [bind] in E. injection E as <-.
    intros [ | | | ]; (split; [reflexivity|assumption]).
  - destruct N as (Nr & Ng & Nb & Na). unfold MakeFromMixedColors, MakeFromFloatColors in E. destruct (trim_spec a Na) as (a' & Ea & Ua & Va). rewrite Ea in E. cbn [bind] in E.
    rewrite !trim_hex, trim_same in E by assumption. cbn [bind] in E. injection E as <-.
    intros [ | | | ]; [split; [reflexivity|assumption]..|exact Va].
Qed.
Lemma set_get c ch v d : (ch <= 3)%nat -> get_channel (set_channel c ch v) (channel_number d) = if Nat.eqb ch (channel_number d) then v else get_channel c (channel_number d).
Proof. intros H. destruct ch as [|[|[|[|ch]]]]; [..|lia]; destruct d; reflexivity. Qed.
Lemma ops_hold ops : forall c (src : channel -> source), valid_color c -> Forall numeric_op ops -> Forall names_channel ops ->
  (forall ch, value_of (get_channel c (channel_number ch)) (src ch)) ->
  exists c', run_ops c ops = Ok c' /\ valid_color c' /\ forall ch, value_of (get_channel c' (channel_number ch)) (latest (src ch) ch ops).
Proof.
  induction ops as [|o r IH]; intros c src V N W H; cbn [run_ops]; [exists c; auto|].
  inversion N as [|? ? No Nr]; subst. inversion W as [|? ? Wo Wr]; subst.
  destruct (op_valid c o V No) as (c' & E & V'). rewrite E. cbn [bind].
  destruct o as [k v|k h|]; cbn [apply_op numeric_op names_channel] in *.
  - destruct (IH c' (fun d => if Nat.eqb k (channel_number d) then FromFloat v else src d) V' Nr Wr) as (c2 & E2 & V2 & H2).
    + intros d. unfold SetChannel in E. destruct (trim_spec v No) as (y & Ey & _ & Vy). rewrite Ey in E. cbn [bind] in E. injection E as <-.
      rewrite set_get by exact Wo. destruct (Nat.eqb k (channel_number d)); [exact Vy|apply H].
    + exists c2. auto.
  - destruct (IH c' (fun d => if Nat.eqb k (channel_number d) then FromByte h else src d) V' Nr Wr) as (c2 & E2 & V2 & H2).
    + intros d. injection E as <-. unfold SetChannelHex. rewrite set_get by exact Wo. destruct (Nat.eqb k (channel_number d)); [split; [reflexivity|exact No]|apply H].
    + exists c2. auto.
  - destruct (IH c' src V' Nr Wr) as (c2 & E2 & V2 & H2).
    + assert (c' = c); [|subst; exact H]. unfold ConvertColor, MakeFromFloatColors in E. destruct V as (A & B & C & D). rewrite !trim_same in E by assumption. cbn [bind] in E. injection E as <-. destruct c; reflexivity.
    + exists c2. auto.
Qed.
Lemma value_holds c ch s : value_of (get_channel c (channel_number ch)) s -> holds c ch s.
Proof.
  destruct s as [v|h|z]; cbn [value_of holds]; auto. intros [E H]. unfold GetChannelHex. rewrite E. split; [apply hex_round_trip, H|apply from_hex_value, H].
Qed.
Lemma program_holds k ops : numeric_construction k -> Forall numeric_op ops -> Forall names_channel ops ->
  exists c, run_program k ops = Ok c /\ valid_color c /\ forall ch, holds c ch (latest (argument k ch) ch ops).
Proof.
  intros K N W. destruct (build_holds k K) as (c & E & V & H). destruct (ops_hold ops c (argument k) V N W H) as (c' & E' & V' & H').
  exists c'. unfold run_program. rewrite E. cbn [bind]. split; [exact E'|]. split; [exact V'|]. intros ch. apply value_holds, H'.
Qed.
