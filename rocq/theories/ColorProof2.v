(** Proofs about ColorModel.v: histories, the heat scale, the table of colours. *)
From Coq Require Import Reals Lra Psatz.
From Flocq Require Import Core BinarySingleNaN Plus_error.
From Verif Require Import Base UtilityModel Double DoubleFacts MathModel MathReal MathDouble MathDouble2 MathDouble3 ColorModel ColorSpec ColorProof.
Local Open Scope R_scope.

Lemma make_float r g b a : is_nan r = false -> is_nan g = false -> is_nan b = false -> is_nan a = false ->
  exists c, MakeFromFloatColors r g b a = Ok c /\ valid_color c /\ B2R (cr c) = limited r /\ B2R (cg c) = limited g /\ B2R (cb c) = limited b /\ B2R (ca c) = limited a.
Proof.
  intros Nr Ng Nb Na. unfold MakeFromFloatColors.
  destruct (trim_spec r Nr) as (r' & Er & Ur & Vr). destruct (trim_spec g Ng) as (g' & Eg & Ug & Vg).
  destruct (trim_spec b Nb) as (b' & Eb & Ub & Vb). destruct (trim_spec a Na) as (a' & Ea & Ua & Va).
  rewrite Er, Eg, Eb, Ea. cbn [bind]. eexists. split; [reflexivity|]. unfold valid_color. cbn [cr cg cb ca]. tauto.
Qed.
Lemma set_channel_valid c ch v : valid_color c -> in_unit v -> valid_color (set_channel c ch v).
Proof. intros (A & B & C & D) U. unfold valid_color. destruct ch as [|[|[|ch]]]; cbn; tauto. Qed.
Lemma op_valid c o : valid_color c -> numeric_op o -> exists c', apply_op c o = Ok c' /\ valid_color c'.
Proof.
  intros V N. destruct o as [ch v|ch h|]; cbn [apply_op numeric_op] in *.
  - unfold SetChannel. destruct (trim_spec v N) as (y & -> & U & _). cbn [bind]. eexists. split; [reflexivity|]. apply set_channel_valid; assumption.
  - eexists. split; [reflexivity|]. apply set_channel_valid; [exact V|]. apply (hex_round_trip h N).
  - unfold ConvertColor. destruct V as (A & B & C & D). destruct (make_float (cr c) (cg c) (cb c) (ca c)) as (c' & E & V & _); try (apply unit_not_nan; assumption). exists c'. auto.
Qed.
Lemma build_valid k : numeric_construction k -> exists c, build k = Ok c /\ valid_color c.
Proof.
  assert (U0 : in_unit (s_of_Z 0)) by (split; [reflexivity|cbn; lra]).
  assert (U1 : in_unit (s_of_Z 1)) by (destruct s1_val as [V F]; split; [exact F|rewrite V; lra]).
  assert (UH : forall h, byte_value h -> in_unit (ColorChannelFromHex h)) by (intros h H; apply (hex_round_trip h H)).
  destruct k as [|r g b a|r g b|r g b a|r g b a|r g b|r g b a|r g b a]; cbn [numeric_construction build].
  - intros _. eexists. split; [reflexivity|]. repeat split; apply U0.
  - intros (Nr & Ng & Nb & Na). destruct (make_float r g b a Nr Ng Nb Na) as (c & E & V & _). eauto.
  - intros (Nr & Ng & Nb). unfold RGBAColorF3. destruct (trim_spec r Nr) as (r' & -> & Ur & _), (trim_spec g Ng) as (g' & -> & Ug & _), (trim_spec b Nb) as (b' & -> & Ub & _).
    cbn [bind]. eexists. split; [reflexivity|]. unfold valid_color. cbn. tauto.
  - intros (Nr & Ng & Nb & Na). eexists. split; [reflexivity|]. unfold valid_color. cbn. auto.
  - intros (Nr & Ng & Nb & Na). unfold RGBAColorHF. destruct (trim_spec a Na) as (a' & -> & Ua & _). cbn [bind]. eexists. split; [reflexivity|]. unfold valid_color. cbn. auto.
  - intros (Nr & Ng & Nb). eexists. split; [reflexivity|]. unfold valid_color. cbn. auto.
  - intros (Nr & Ng & Nb & Na). unfold MakeFromHexColors. edestruct make_float as (c & E & V & _); [..|exists c; split; [exact E|exact V]]; apply unit_not_nan, UH; assumption.
  - intros (Nr & Ng & Nb & Na). unfold MakeFromMixedColors. destruct (trim_spec a Na) as (a' & -> & Ua & _). cbn [bind].
    edestruct make_float as (c & E & V & _); [..|exists c; split; [exact E|exact V]]; apply unit_not_nan; auto.
Qed.
Lemma ops_valid ops : forall c, valid_color c -> Forall numeric_op ops -> exists c', run_ops c ops = Ok c' /\ valid_color c'.
Proof.
  induction ops as [|o r IH]; intros c V N; cbn [run_ops]; [eauto|]. inversion N as [|? ? No Nr]; subst.
  destruct (op_valid c o V No) as (c' & -> & V'). cbn [bind]. apply IH; assumption.
Qed.
Lemma valid_hex c ch : valid_color c -> exists h, GetChannelHex c ch = Ok h /\ (0 <= h <= 255)%Z.
Proof.
  intros (A & B & C & D). unfold GetChannelHex, get_channel.
  assert (G : forall x, in_unit x -> exists h, ColorChannelToHex x = Ok h /\ (0 <= h <= 255)%Z).
  { intros x U. destruct (to_hex_spec x (unit_not_nan x U)) as (h & E & R & _). eauto. }
  destruct ch as [|[|[|ch]]]; apply G; assumption.
Qed.

(** Accuracy of the conversion to hex. *)
Lemma to_hex_near x : is_nan x = false -> exists h, ColorChannelToHex x = Ok h /\ Rabs (IZR h - 255 * limited x) <= / 2 + bpow radix2 (-17).
Proof.
  intros N. destruct (to_hex_spec x N) as (h & E & R & V). exists h. split; [exact E|].
  pose proof (limited_range x) as L. pose proof (rnd32_err (255 * limited x)) as Q. assert (Q' := Q ltac:(lra)). clear Q.
  pose proof (Zfloor_lb (rnd32 (255 * limited x) + / 2)). pose proof (Zfloor_ub (rnd32 (255 * limited x) + / 2)). rewrite <- V in *.
  apply Rabs_le. apply Rabs_le_inv in Q'. lra.
Qed.
Lemma to_hex_mono x y hx hy : sle x y = true -> ColorChannelToHex x = Ok hx -> ColorChannelToHex y = Ok hy -> (hx <= hy)%Z.
Proof.
  intros L Ex Ey.
  assert (Nx : is_nan x = false) by (destruct x; try reflexivity; discriminate L).
  assert (Ny : is_nan y = false) by (destruct y as [ |[]| | ]; try reflexivity; destruct x as [ |[]| | ]; discriminate L).
  destruct (to_hex_spec x Nx) as (h1 & E1 & _ & V1), (to_hex_spec y Ny) as (h2 & E2 & _ & V2).
  rewrite E1 in Ex. rewrite E2 in Ey. injection Ex as <-. injection Ey as <-. subst h1 h2. apply Zfloor_le.
  apply Rplus_le_compat_r, rnd32_mono. pose proof (limited_mono x y L). lra.
Qed.

(** The heat scale in exact arithmetic. *)
Lemma limit01_low x : x <= 0 -> limit01 x = 0. Proof. intros. unfold limit01. rewrite Rmin_right, Rmax_left by lra. reflexivity. Qed.
Lemma limit01_high x : 1 <= x -> limit01 x = 1. Proof. intros. unfold limit01. rewrite Rmin_left, Rmax_right by lra. reflexivity. Qed.
Lemma limit01_mid x : 0 <= x <= 1 -> limit01 x = x. Proof. intros. unfold limit01. rewrite Rmin_right, Rmax_right by lra. reflexivity. Qed.
Lemma clampR v lo hi : lo <= hi -> ClampValue (altb real_arith) (fun a b => aleb real_arith b a) v lo hi = Ok (Rmax lo (Rmin hi v)).
Proof.
  intros H. unfold ClampValue. cbn [real_arith altb aleb]. rewrite Rle_bool_true by exact H.
  destruct (Rlt_bool_spec v lo); [rewrite Rmin_right, Rmax_left by lra; reflexivity|].
  destruct (Rlt_bool_spec hi v); [rewrite Rmin_left, Rmax_right by lra; reflexivity|]. rewrite Rmin_right, Rmax_right by lra. reflexivity.
Qed.
Lemma hot_exact value lo hi : lo < hi -> hot_to_cold real_arith value lo hi = Ok (heat_color (heat value lo hi)).
Proof.
  intros H. unfold hot_to_cold. rewrite clampR by lra. cbn [bind]. f_equal. unfold quarters.
  unfold heat. set (v := Rmax lo (Rmin hi value)). cbn [real_arith altb a_of aadd asub amul adiv]. cbv zeta.
  assert (B : lo <= v <= hi) by (unfold v; split; [apply Rmax_l|apply Rmax_lub; [lra|apply Rmin_l]]). clearbody v.
  set (t := (v - lo) / (hi - lo)). assert (T : v = lo + t * (hi - lo)) by (unfold t; field; lra).
  assert (T01 : 0 <= t <= 1) by (split; nra). clearbody t. unfold heat_color.
  assert (F : forall x y a b c d : R, x = y -> a = b -> c = d -> (x, a, c) = (y, b, d)) by (intros; subst; reflexivity).
  destruct (Rlt_bool_spec v (lo + 1 / 4 * (hi - lo))) as [D1|D1].
  - assert (t < 1 / 4) by nra. apply F; [rewrite limit01_low by lra; reflexivity| |rewrite limit01_high by lra; reflexivity].
    rewrite Rmin_left, limit01_mid by lra. rewrite T. field. lra.
  - assert (1 / 4 <= t) by nra. destruct (Rlt_bool_spec v (lo + 2 / 4 * (hi - lo))) as [D2|D2].
    + assert (t < 2 / 4) by nra. apply F; [rewrite limit01_low by lra; reflexivity|rewrite limit01_high by (apply Rmin_glb; lra); reflexivity|].
      rewrite limit01_mid by lra. rewrite T. field. lra.
    + assert (2 / 4 <= t) by nra. destruct (Rlt_bool_spec v (lo + 3 / 4 * (hi - lo))) as [D3|D3].
      * assert (t < 3 / 4) by nra. apply F; [|rewrite limit01_high by (apply Rmin_glb; lra); reflexivity|rewrite limit01_low by lra; reflexivity].
        rewrite limit01_mid by lra. rewrite T. field. lra.
      * assert (3 / 4 <= t) by nra. apply F; [rewrite limit01_high by lra; reflexivity| |rewrite limit01_low by lra; reflexivity].
        rewrite Rmin_right, limit01_mid by lra. rewrite T. field. lra.
Qed.
Lemma heat_range value lo hi : lo < hi -> 0 <= heat value lo hi <= 1.
Proof.
  intros H. unfold heat. set (v := Rmax lo (Rmin hi value)).
  assert (B : lo <= v <= hi) by (unfold v; split; [apply Rmax_l|apply Rmax_lub; [lra|apply Rmin_l]]). clearbody v.
  split; [apply Rle_mult_inv_pos; lra|]. apply Rmult_le_reg_r with (hi - lo); [lra|]. unfold Rdiv. rewrite Rmult_assoc, Rinv_l by lra. lra.
Qed.

(** The heat scale in IEEE arithmetic. *)
Lemma s_of_d_nan d : is_nan d = false -> is_nan (s_of_d d) = false.
Proof.
  intros N. destruct d as [s|s| |s m e B]; try discriminate N; try reflexivity. unfold s_of_d.
  pose proof (binary_normalize_correct 24 128 eq_refl eq_refl mode_NE (cond_Zopp s (Zpos m)) e s) as C. cbv zeta in C. change SpecFloat.cond_Zopp with cond_Zopp in C.
  destruct (Rlt_bool _ _).
  - destruct C as (_ & F & _). destruct (binary_normalize _ _ _ _ _ _ _ _); try discriminate F; reflexivity.
  - destruct (binary_normalize 24 128 eq_refl eq_refl mode_NE (cond_Zopp s (Zpos m)) e s); try reflexivity. unfold binary_overflow in C. destruct (overflow_to_inf mode_NE _); discriminate C.
Qed.
Lemma finite_not_nan (x : double) : is_finite x = true -> is_nan x = false. Proof. destruct x; try discriminate; reflexivity. Qed.
Lemma div_not_nan x y : is_finite x = true -> B2R y <> 0 -> is_nan (ddiv x y) = false.
Proof.
  intros F N. pose proof (Bdiv_correct 53 1024 eq_refl eq_refl mode_NE x y N) as C. destruct (Rlt_bool _ _).
  - destruct C as (_ & G & _). apply finite_not_nan. unfold ddiv. rewrite F in G. exact G.
  - apply (overflow_class (ddiv x y) _ C).
Qed.
Lemma add_one_not_nan y : is_nan y = false -> is_nan (dadd (d_of_Z 1) y) = false.
Proof.
  intros N. destruct (is_finite y) eqn:F.
  - destruct d1_val as [V1 F1]. pose proof (Bplus_correct 53 1024 eq_refl eq_refl mode_NE (d_of_Z 1) y F1 F) as C. destruct (Rlt_bool _ _).
    + destruct C as (_ & G & _). apply finite_not_nan. exact G.
    + apply (overflow_class (dadd (d_of_Z 1) y) _ (proj1 C)).
  - destruct (infinite_cases y N F) as (s & ->). destruct s; reflexivity.
Qed.
(** Values of size at most 2^k. *)
Definition sized (k : Z) (x : double) : Prop := is_finite x = true /\ Rabs (B2R x) <= bpow radix2 k.
Lemma rnd_sized k r : (-1074 <= k <= 1023)%Z -> Rabs r <= bpow radix2 k -> Rabs (rnd64 r) <= bpow radix2 k.
Proof.
  intros K H. apply Rabs_le_inv in H. apply Rabs_le. split; [|apply rnd64_le_bpow; [exact K|lra]].
  assert (O : rnd64 (- - r) = - rnd64 (- r)) by (apply round_NE_opp). rewrite Ropp_involutive in O. rewrite O.
  apply Ropp_le_contravar, rnd64_le_bpow; [exact K|lra].
Qed.
Lemma bpow_double k : bpow radix2 (k + 1) = 2 * bpow radix2 k.
Proof. rewrite bpow_plus. change (bpow radix2 1) with 2. ring. Qed.
Lemma add_sized k x y : (0 <= k <= 1022)%Z -> sized k x -> sized k y -> sized (k + 1) (dadd x y).
Proof.
  intros K [Fx Bx] [Fy By]. assert (A : Rabs (B2R x + B2R y) <= bpow radix2 (k + 1)) by (rewrite bpow_double; pose proof (Rabs_triang (B2R x) (B2R y)); lra).
  destruct (dadd_val x y Fx Fy) as [V F]; [eapply Rle_trans; [exact A|apply bpow_le; lia]|]. split; [exact F|]. rewrite V. apply rnd_sized; [lia|exact A].
Qed.
Lemma sub_sized k x y : (0 <= k <= 1022)%Z -> sized k x -> sized k y -> sized (k + 1) (dsub x y).
Proof.
  intros K [Fx Bx] [Fy By]. assert (A : Rabs (B2R x - B2R y) <= bpow radix2 (k + 1)) by (rewrite bpow_double; pose proof (Rabs_triang (B2R x) (- B2R y)) as T; rewrite Rabs_Ropp in T; unfold Rminus; lra).
  destruct (dsub_val x y Fx Fy) as [V F]; [eapply Rle_trans; [exact A|apply bpow_le; lia]|]. split; [exact F|]. rewrite V. apply rnd_sized; [lia|exact A].
Qed.
Lemma mul_sized j k x y : (0 <= j)%Z -> (0 <= k)%Z -> (j + k <= 1023)%Z -> sized j x -> sized k y -> sized (j + k) (dmul x y).
Proof.
  intros J K S [Fx Bx] [Fy By]. assert (A : Rabs (B2R x * B2R y) <= bpow radix2 (j + k)).
  { rewrite Rabs_mult, bpow_plus. apply Rmult_le_compat; auto using Rabs_pos. }
  destruct (dmul_val x y Fx Fy) as [V F]; [eapply Rle_trans; [exact A|apply bpow_le; lia]|]. split; [exact F|]. rewrite V. apply rnd_sized; [lia|exact A].
Qed.
Lemma sized_le j k x : (j <= k)%Z -> sized j x -> sized k x.
Proof. intros L [F B]. split; [exact F|]. eapply Rle_trans; [exact B|]. apply bpow_le, L. Qed.
Lemma quarters_sized k : (0 <= k <= 4)%Z -> sized 0 (quarters double_arith k).
Proof.
  intros K. unfold quarters. cbn [double_arith adiv a_of]. destruct (d_of_Z_exact k ltac:(lia)) as [Vk Fk]. destruct (d_of_Z_exact 4 ltac:(lia)) as [V4 F4].
  assert (A : Rabs (B2R (d_of_Z k) / B2R (d_of_Z 4)) <= bpow radix2 0).
  { rewrite Vk, V4. change (bpow radix2 0) with 1. rewrite Rabs_pos_eq.
    - assert (IZR k <= 4) by (apply (IZR_le k 4); lia). lra.
    - assert (0 <= IZR k) by (apply (IZR_le 0 k); lia). lra. }
  destruct (ddiv_val (d_of_Z k) (d_of_Z 4) Fk) as [V F]; [rewrite V4; lra|eapply Rle_trans; [exact A|apply bpow_le; lia]|].
  split; [exact F|]. rewrite V. apply rnd_sized; [lia|exact A].
Qed.
Lemma four_sized : sized 2 (d_of_Z 4).
Proof. destruct (d_of_Z_exact 4 ltac:(lia)) as [V F]. split; [exact F|]. rewrite V. change (bpow radix2 2) with 4. rewrite Rabs_pos_eq; lra. Qed.
Lemma dsub_nonzero x y : is_finite x = true -> is_finite y = true -> Rabs (B2R x) <= bpow radix2 1000 -> Rabs (B2R y) <= bpow radix2 1000 ->
  B2R x <> B2R y -> B2R (dsub x y) <> 0.
Proof.
  intros Fx Fy Bx By N. destruct (dsub_val x y Fx Fy) as [V _].
  { pose proof (Rabs_triang (B2R x) (- B2R y)) as T; rewrite Rabs_Ropp in T. unfold Rminus. eapply Rle_trans; [exact T|].
    replace 1023%Z with (1022 + 1)%Z by lia. rewrite bpow_double. assert (bpow radix2 1000 <= bpow radix2 1022) by (apply bpow_le; lia). lra. }
  rewrite V. intros Z. apply N. apply Rminus_diag_uniq. unfold rnd64 in Z. revert Z.
  apply (round_plus_eq_0 radix2 fexp64 ZnearestE (B2R x) (- B2R y)).
  - apply (generic_format_B2R 53 1024 x).
  - apply generic_format_opp. apply (generic_format_B2R 53 1024 y).
Qed.
Lemma clampD v lo hi : is_nan v = false -> sized 1000 lo -> sized 1000 hi -> B2R lo <= B2R hi ->
  exists w, ClampValue (altb double_arith) (fun a b => aleb double_arith b a) v lo hi = Ok w /\ sized 1000 w.
Proof.
  intros N Sl Sh L. unfold ClampValue. cbn [double_arith altb aleb]. rewrite (proj2 (dle_R lo hi (proj1 Sl) (proj1 Sh)) L).
  destruct (dlt v lo) eqn:D1; [eauto|]. destruct (dlt hi v) eqn:D2; [eauto|]. exists v. split; [reflexivity|].
  destruct (is_finite v) eqn:F.
  - split; [exact F|]. assert (B2R lo <= B2R v) by (apply Rnot_lt_le; intros C; apply (dlt_R v lo F (proj1 Sl)) in C; congruence).
    assert (B2R v <= B2R hi) by (apply Rnot_lt_le; intros C; apply (dlt_R hi v (proj1 Sh) F) in C; congruence).
    destruct Sl as [_ Bl], Sh as [_ Bh]. apply Rabs_le_inv in Bl. apply Rabs_le_inv in Bh. apply Rabs_le. lra.
  - exfalso. destruct (infinite_cases v N F) as (s & ->). destruct Sl as [Fl _], Sh as [Fh _]. destruct s.
    + destruct lo; try discriminate Fl; discriminate D1.
    + destruct hi; try discriminate Fh; discriminate D2.
Qed.
(** Nothing but 0/0, infinity over infinity and infinity less infinity makes a NaN. *)
Lemma sub_not_nan x y : is_nan x = false -> is_finite y = true -> is_nan (dsub x y) = false.
Proof.
  intros N Fy. destruct (is_finite x) eqn:Fx.
  - pose proof (Bminus_correct 53 1024 eq_refl eq_refl mode_NE x y Fx Fy) as C. destruct (Rlt_bool _ _).
    + destruct C as (_ & G & _). apply finite_not_nan. exact G.
    + apply (overflow_class (dsub x y) _ (proj1 C)).
  - destruct (infinite_cases x N Fx) as (s & ->). destruct y; try discriminate Fy; destruct s; reflexivity.
Qed.
Lemma add_not_nan x y : is_finite x = true -> is_nan y = false -> is_nan (dadd x y) = false.
Proof.
  intros Fx N. destruct (is_finite y) eqn:Fy.
  - pose proof (Bplus_correct 53 1024 eq_refl eq_refl mode_NE x y Fx Fy) as C. destruct (Rlt_bool _ _).
    + destruct C as (_ & G & _). apply finite_not_nan. exact G.
    + apply (overflow_class (dadd x y) _ (proj1 C)).
  - destruct (infinite_cases y N Fy) as (s & ->). destruct x; try discriminate Fx; destruct s; reflexivity.
Qed.
Lemma four_not_nan x : is_nan x = false -> is_nan (dmul (d_of_Z 4) x) = false.
Proof.
  intros N. destruct (is_finite x) eqn:Fx.
  - pose proof (Bmult_correct 53 1024 eq_refl eq_refl mode_NE (d_of_Z 4) x) as C. destruct (Rlt_bool _ _).
    + destruct C as (_ & G & _). apply finite_not_nan. change (Bmult mode_NE (d_of_Z 4) x) with (dmul (d_of_Z 4) x) in G. rewrite G, Fx. reflexivity.
    + apply (overflow_class (dmul (d_of_Z 4) x) _ C).
  - destruct (infinite_cases x N Fx) as (s & ->). destruct s; reflexivity.
Qed.
Lemma over_not_nan x y : is_nan x = false -> is_finite y = true -> B2R y <> 0 -> is_nan (ddiv x y) = false.
Proof.
  intros N Fy Ny. destruct (is_finite x) eqn:Fx; [apply div_not_nan; assumption|].
  destruct (infinite_cases x N Fx) as (s & ->). destruct y; try discriminate Fy; destruct s; reflexivity.
Qed.
Lemma finite_below (y : double) : is_finite y = true -> Rabs (B2R y) < bpow radix2 1024.
Proof. intros _. apply (abs_B2R_lt_emax 53 1024 y). Qed.
Lemma part_finite x y : is_finite x = true -> Rabs (B2R x) <= 1 -> is_finite y = true -> is_finite (dmul x y) = true.
Proof.
  intros Fx Bx Fy. pose proof (Bmult_correct 53 1024 eq_refl eq_refl mode_NE x y) as C. rewrite Rlt_bool_true in C.
  - destruct C as (_ & G & _). change (Bmult mode_NE x y) with (dmul x y) in G. rewrite G, Fx, Fy. reflexivity.
  - apply Rle_lt_trans with (Rabs (B2R y)); [|apply finite_below, Fy].
    apply abs_round_le_generic; [apply FLT_exp_valid; reflexivity|apply valid_rnd_N|apply generic_format_abs, (generic_format_B2R 53 1024 y)|].
    rewrite Rabs_mult. rewrite <- (Rmult_1_l (Rabs (B2R y))) at 2. apply Rmult_le_compat_r; [apply Rabs_pos|exact Bx].
Qed.
Lemma range_nonzero lo hi : is_finite lo = true -> is_finite hi = true -> is_finite (dsub hi lo) = true -> B2R lo < B2R hi -> B2R (dsub hi lo) <> 0.
Proof.
  intros Fl Fh Fr L. pose proof (Bminus_correct 53 1024 eq_refl eq_refl mode_NE hi lo Fh Fl) as C. destruct (Rlt_bool _ _).
  - destruct C as (V & _ & _). change (Bminus mode_NE hi lo) with (dsub hi lo) in V. rewrite V. intros Z. assert (B2R hi = B2R lo); [|lra]. apply Rminus_diag_uniq. revert Z.
    apply (round_plus_eq_0 radix2 fexp64 ZnearestE (B2R hi) (- B2R lo)).
    + apply (generic_format_B2R 53 1024 hi).
    + apply generic_format_opp. apply (generic_format_B2R 53 1024 lo).
  - exfalso. destruct (overflow_class (dsub hi lo) _ (proj1 C)) as (A & B). congruence.
Qed.
Lemma clampF v lo hi : is_nan v = false -> is_finite lo = true -> is_finite hi = true -> B2R lo <= B2R hi ->
  exists w, ClampValue (altb double_arith) (fun a b => aleb double_arith b a) v lo hi = Ok w /\ is_finite w = true.
Proof.
  intros N Fl Fh L. unfold ClampValue. cbn [double_arith altb aleb]. rewrite (proj2 (dle_R lo hi Fl Fh) L).
  destruct (dlt v lo) eqn:D1; [eauto|]. destruct (dlt hi v) eqn:D2; [eauto|]. exists v. split; [reflexivity|].
  destruct (is_finite v) eqn:F; [reflexivity|].
  exfalso. destruct (infinite_cases v N F) as (s & ->). destruct s.
  - destruct lo; try discriminate Fl; discriminate D1.
  - destruct hi; try discriminate Fh; discriminate D2.
Qed.
Lemma interpolate_valid v lo hi : is_nan v = false -> is_finite lo = true -> is_finite hi = true -> is_finite (dsub hi lo) = true -> B2R lo < B2R hi ->
  exists c, InterpolateHotToCold v lo hi = Ok c /\ valid_color c /\ B2R (ca c) = 1.
Proof.
  intros N Fl Fh Fr L.
  destruct (clampF v lo hi N Fl Fh (Rlt_le _ _ L)) as (w & E & Fw). unfold InterpolateHotToCold, hot_to_cold. rewrite E. cbn [bind].
  cbn [double_arith altb a_of aadd asub amul adiv]. cbv zeta.
  pose proof (range_nonzero lo hi Fl Fh Fr L) as Nr.
  set (range := dsub hi lo) in *. clearbody range.
  assert (P : forall k, (0 <= k <= 4)%Z -> is_finite (dmul (quarters double_arith k) range) = true).
  { intros k K. destruct (quarters_sized k K) as [A B]. apply part_finite; assumption. }
  assert (N0 : is_nan (d_of_Z 0) = false) by reflexivity. assert (N1 : is_nan (d_of_Z 1) = false) by reflexivity.
  assert (Chan : forall x, is_nan x = false -> is_nan (ddiv (dmul (d_of_Z 4) x) range) = false).
  { intros x Nx. apply over_not_nan; [apply four_not_nan, Nx|exact Fr|exact Nr]. }
  assert (M : forall r g b : double, is_nan r = false -> is_nan g = false -> is_nan b = false ->
    exists c, MakeFromFloatColors (s_of_d r) (s_of_d g) (s_of_d b) (s_of_Z 1) = Ok c /\ valid_color c /\ B2R (ca c) = 1).
  { intros r g b Hr Hg Hb. destruct (make_float (s_of_d r) (s_of_d g) (s_of_d b) (s_of_Z 1)) as (c & Ec & Vc & _ & _ & _ & Va); try (apply s_of_d_nan; assumption); [reflexivity|].
    exists c. split; [exact Ec|]. split; [exact Vc|]. rewrite Va. destruct s1_val as [Z1 _]. change (limited (s_of_Z 1)) with (Rmax 0 (Rmin 1 (B2R (s_of_Z 1)))). rewrite Z1. rewrite Rmin_right, Rmax_right by lra. reflexivity. }
  assert (Sub : forall k, (0 <= k <= 4)%Z -> is_nan (dsub (dadd lo (dmul (quarters double_arith k) range)) w) = false).
  { intros k K. apply sub_not_nan; [|exact Fw]. apply add_not_nan; [exact Fl|apply finite_not_nan, P, K]. }
  assert (Sv : is_nan (dsub w lo) = false) by (apply sub_not_nan; [apply finite_not_nan, Fw|exact Fl]).
  destruct (dlt w _).
  - cbn [fst snd]. apply M; auto.
  - destruct (dlt w _).
    + cbn [fst snd]. apply M; auto. apply add_one_not_nan, Chan, Sub. lia.
    + destruct (dlt w _).
      * cbn [fst snd]. apply M; auto. apply Chan, sub_not_nan; [exact Sv|apply P; lia].
      * cbn [fst snd]. apply M; auto. apply add_one_not_nan, Chan, Sub. lia.
Qed.

(** The table of colours. *)
Definition table_colors : list (Z * Z * Z) := (255, 255, 255)%Z :: unique_table ++ [(0, 0, 0)%Z].
Definition hex3 (x y : Z * Z * Z) : bool := (fst (fst x) =? fst (fst y))%Z && (snd (fst x) =? snd (fst y))%Z && (snd x =? snd y)%Z.
Definition entry (k : nat) : Z * Z * Z := nth k table_colors (0, 0, 0)%Z.
Lemma entry_bytes k : (0 <= fst (fst (entry k)) <= 255 /\ 0 <= snd (fst (entry k)) <= 255 /\ 0 <= snd (entry k) <= 255)%Z.
Proof.
  unfold entry. destruct (nth_in_or_default k table_colors (0, 0, 0)%Z) as [I| ->]; [|cbn; lia].
  assert (A : forallb (fun x => (0 <=? fst (fst x))%Z && (fst (fst x) <=? 255)%Z && (0 <=? snd (fst x))%Z && (snd (fst x) <=? 255)%Z && (0 <=? snd x)%Z && (snd x <=? 255)%Z) table_colors = true) by (vm_compute; reflexivity).
  rewrite forallb_forall in A. specialize (A _ I). repeat rewrite andb_true_iff in A. lia.
Qed.
Lemma hex_00 : ColorChannelFromHex 0 = s_of_Z 0. Proof. apply B2SF_inj. vm_compute. reflexivity. Qed.
Lemma hex_ff : ColorChannelFromHex 255 = s_of_Z 1. Proof. apply B2SF_inj. vm_compute. reflexivity. Qed.
Lemma trim_hex h : (0 <= h <= 255)%Z -> TrimColorValue (ColorChannelFromHex h) = Ok (ColorChannelFromHex h).
Proof. intros H. apply trim_same, hex_round_trip, H. Qed.
(** What LookupUniqueColor returns, in hex. *)
Lemma lookup_entry code alpha : is_nan alpha = false -> exists c, LookupUniqueColor code alpha = Ok c /\ valid_color c /\
  rgb_of c = (ColorChannelFromHex (fst (fst (entry code))), ColorChannelFromHex (snd (fst (entry code))), ColorChannelFromHex (snd (entry code))) /\
  B2R (ca c) = match code with O => 0 | _ => limited alpha end.
Proof.
  intros N. destruct (trim_spec alpha N) as (a & Ea & Ua & Va).
  assert (M : forall r g b : Z, (0 <= r <= 255)%Z -> (0 <= g <= 255)%Z -> (0 <= b <= 255)%Z -> forall x, in_unit x ->
     MakeFromFloatColors (ColorChannelFromHex r) (ColorChannelFromHex g) (ColorChannelFromHex b) x = Ok (mkColor (ColorChannelFromHex r) (ColorChannelFromHex g) (ColorChannelFromHex b) x) /\
     valid_color (mkColor (ColorChannelFromHex r) (ColorChannelFromHex g) (ColorChannelFromHex b) x)).
  { intros r g b Hr Hg Hb x Ux. unfold MakeFromFloatColors. rewrite !trim_hex by assumption. rewrite trim_same by exact Ux. split; [reflexivity|]. unfold valid_color. cbn. repeat split; try apply hex_round_trip; auto; apply Ux. }
  destruct code as [|k]; unfold LookupUniqueColor.
  - rewrite <- hex_ff. rewrite (proj1 (M 255 255 255 ltac:(lia) ltac:(lia) ltac:(lia) (s_of_Z 0) ltac:(split; [reflexivity|cbn; lra])))%Z.
    eexists. split; [reflexivity|]. split; [apply M; try lia; split; [reflexivity|cbn; lra]|]. split; [reflexivity|]. reflexivity.
  - pose proof (entry_bytes (S k)) as EB. destruct (nth_error unique_table k) as [[[r g] b]|] eqn:NE.
    + assert (En : entry (S k) = (r, g, b)).
      { unfold entry, table_colors. cbn [nth]. rewrite app_nth1 by (apply nth_error_Some; congruence). apply nth_error_nth, NE. }
      rewrite En in *. cbn [fst snd] in *. unfold MakeFromMixedColors. rewrite Ea. cbn [bind]. destruct EB as (H1 & H2 & H3).
      rewrite (proj1 (M r g b H1 H2 H3 a Ua)). eexists. split; [reflexivity|]. split; [apply M; assumption|]. split; [reflexivity|exact Va].
    + assert (En : entry (S k) = (0, 0, 0)%Z).
      { apply nth_error_None in NE. unfold entry, table_colors. cbn [nth]. rewrite app_nth2 by lia. destruct (k - length unique_table)%nat as [|[|]]; reflexivity. }
      rewrite En. cbn [fst snd]. unfold MakeFromFloatColors. rewrite Ea. rewrite <- hex_00. rewrite (trim_hex 0) by lia. cbn [bind]. eexists. split; [reflexivity|].
      split; [unfold valid_color; cbn [cr cg cb ca]; repeat split; try apply (hex_round_trip 0); try lia; apply Ua|]. split; [reflexivity|exact Va].
Qed.
Lemma entries_differ i j : (i < j <= 21)%nat -> entry i <> entry j.
Proof.
  intros H E. assert (A : forallb (fun i => forallb (fun j => negb (hex3 (entry i) (entry j))) (seq (S i) (21 - i))) (seq 0 22) = true) by (vm_compute; reflexivity).
  rewrite forallb_forall in A. specialize (A i ltac:(apply in_seq; lia)). rewrite forallb_forall in A. specialize (A j ltac:(apply in_seq; lia)).
  rewrite E in A. unfold hex3 in A. rewrite !Z.eqb_refl in A. discriminate.
Qed.
Lemma from_hex_inj h k : (0 <= h <= 255)%Z -> (0 <= k <= 255)%Z -> ColorChannelFromHex h = ColorChannelFromHex k -> h = k.
Proof. intros H K E. pose proof (proj1 (hex_round_trip h H)) as A. rewrite E in A. rewrite (proj1 (hex_round_trip k K)) in A. congruence. Qed.
Lemma lookup_differ i j a b ci cj : (i < j <= 21)%nat -> is_nan a = false -> is_nan b = false ->
  LookupUniqueColor i a = Ok ci -> LookupUniqueColor j b = Ok cj -> rgb_of ci <> rgb_of cj.
Proof.
  intros H Na Nb Ei Ej E. destruct (lookup_entry i a Na) as (c & E1 & _ & R1 & _). destruct (lookup_entry j b Nb) as (c' & E2 & _ & R2 & _).
  rewrite E1 in Ei. rewrite E2 in Ej. injection Ei as <-. injection Ej as <-. rewrite R1, R2 in E. injection E as A B C.
  apply (entries_differ i j H). destruct (entry_bytes i) as (P1 & P2 & P3), (entry_bytes j) as (Q1 & Q2 & Q3).
  apply from_hex_inj in A; auto. apply from_hex_inj in B; auto. apply from_hex_inj in C; auto.
  destruct (entry i) as [[? ?] ?], (entry j) as [[? ?] ?]. cbn in *. congruence.
Qed.
Lemma program_valid k ops : numeric_construction k -> Forall numeric_op ops -> exists c, run_program k ops = Ok c /\ valid_color c.
Proof. intros K O. destruct (build_valid k K) as (c & E & V). unfold run_program. rewrite E. cbn [bind]. apply ops_valid; assumption. Qed.
Lemma entry_beyond k : (20 < k)%nat -> entry k = (0, 0, 0)%Z.
Proof.
  intros H. destruct (Nat.eq_dec k 21) as [->|]; [reflexivity|]. unfold entry. apply nth_overflow. change (length table_colors) with 22%nat. lia.
Qed.
Lemma lookup_black code alpha c : (20 < code)%nat -> is_nan alpha = false -> LookupUniqueColor code alpha = Ok c -> rgb_of c = (s_of_Z 0, s_of_Z 0, s_of_Z 0).
Proof.
  intros H N E. destruct (lookup_entry code alpha N) as (c' & E' & _ & R & _). rewrite E in E'. injection E' as <-. rewrite R, entry_beyond by exact H. cbn [fst snd]. rewrite hex_00. reflexivity.
Qed.
Lemma lookup_differ_all i j a b ci cj : (i < j)%nat -> (i <= 20)%nat -> is_nan a = false -> is_nan b = false ->
  LookupUniqueColor i a = Ok ci -> LookupUniqueColor j b = Ok cj -> rgb_of ci <> rgb_of cj.
Proof.
  intros H I Na Nb Ei Ej. destruct (Nat.le_gt_cases j 21) as [J|J]; [apply (lookup_differ i j a b); auto; lia|].
  rewrite (lookup_black j b cj) by (auto; lia). destruct (lookup_entry 21 b Nb) as (c' & E' & _ & _).
  rewrite <- (lookup_black 21 b c' ltac:(lia) Nb E'). apply (lookup_differ i 21 a b); auto; lia.
Qed.
