(** Comparisons with a tolerance in IEEE arithmetic, for every format. *)
From Coq Require Import Reals Lra Psatz.
From Flocq Require Import Core BinarySingleNaN Plus_error Relative.
From Verif Require Import Base.
Local Open Scope R_scope.

Section Gen.
Context (prec emax : Z) {Hp : Prec_gt_0 prec} {Hm : Prec_lt_emax prec emax}.
Notation fl := (binary_float prec emax).
Definition rnd (x : R) : R := round radix2 (SpecFloat.fexp prec emax) ZnearestE x.
Local Instance vexp : Valid_exp (SpecFloat.fexp prec emax) := fexp_correct prec emax Hp.
Lemma rnd_mono x y : x <= y -> rnd x <= rnd y.
Proof. apply round_le; typeclasses eauto. Qed.
Lemma rnd_fix (x : fl) : rnd (B2R x) = B2R x.
Proof. apply round_generic; [typeclasses eauto|]. apply generic_format_B2R. Qed.
Lemma rnd_abs x : rnd (Rabs x) = Rabs (rnd x).
Proof. unfold rnd. apply round_NE_abs. typeclasses eauto. Qed.
Lemma bsub_spec (x y : fl) : is_finite x = true -> is_finite y = true ->
  (B2R (Babs (Bminus mode_NE x y)) = rnd (Rabs (B2R x - B2R y)) /\ is_finite (Bminus mode_NE x y) = true) \/
  (bpow radix2 emax <= rnd (Rabs (B2R x - B2R y)) /\ exists s, Bminus mode_NE x y = B754_infinity s).
Proof.
  intros Fx Fy. pose proof (Bminus_correct prec emax Hp Hm mode_NE x y Fx Fy) as C. change (round_mode mode_NE) with ZnearestE in C.
  change (round radix2 (SpecFloat.fexp prec emax) ZnearestE (B2R x - B2R y)) with (rnd (B2R x - B2R y)) in C. rewrite rnd_abs.
  destruct (Rlt_bool_spec (Rabs (rnd (B2R x - B2R y))) (bpow radix2 emax)) as [L|L].
  - left. destruct C as (V & F & _). rewrite B2R_Babs. split; [f_equal; exact V|exact F].
  - right. split; [exact L|]. destruct C as [C _]. destruct (Bminus mode_NE x y); cbn in C; try discriminate. eexists; reflexivity.
Qed.
Lemma finite_not_nan' (x : fl) : is_finite x = true -> is_nan x = false. Proof. destruct x; try discriminate; reflexivity. Qed.
(** |x - y| does not depend on the order, for any x and y. *)
Lemma abs_sub_sym (x y : fl) : Babs (Bminus mode_NE x y) = Babs (Bminus mode_NE y x).
Proof.
  destruct (is_finite x) eqn:Fx, (is_finite y) eqn:Fy.
  2-4: destruct x as [sx|sx| |sx mx ex Bx], y as [sy|sy| |sy my ey By]; try discriminate; try (destruct sx); try (destruct sy); reflexivity.
  assert (S : Rabs (B2R x - B2R y) = Rabs (B2R y - B2R x)) by apply Rabs_minus_sym.
  destruct (bsub_spec x y Fx Fy) as [[V F]|[L [s E]]], (bsub_spec y x Fy Fx) as [[V' F']|[L' [s' E']]].
  - apply B2R_Bsign_inj; rewrite ?is_finite_Babs; auto; [rewrite V, V', S; reflexivity|]. rewrite !Bsign_Babs by (apply finite_not_nan'; assumption). reflexivity.
  - exfalso. rewrite <- S in L'. rewrite <- V, B2R_Babs in L'. pose proof (abs_B2R_lt_emax prec emax (Bminus mode_NE x y)). lra.
  - exfalso. rewrite S in L. rewrite <- V', B2R_Babs in L. pose proof (abs_B2R_lt_emax prec emax (Bminus mode_NE y x)). lra.
  - rewrite E, E'. reflexivity.
Qed.
(** The test "|x - y| <= t" for a limit that is a finite number. *)
Definition near (x y t : fl) : bool := Bleb (Babs (Bminus mode_NE x y)) t.
Definition far (x y t : fl) : bool := Bltb t (Babs (Bminus mode_NE x y)).
Lemma near_far x y t : is_finite x = true -> is_finite y = true -> is_nan t = false -> near x y t = negb (far x y t).
Proof.
  intros Fx Fy Nt. unfold near, far, Bleb, Bltb, SpecFloat.SFleb, SpecFloat.SFltb. change (SpecFloat.SFcompare (B2SF (Babs (Bminus mode_NE x y))) (B2SF t)) with (Bcompare (Babs (Bminus mode_NE x y)) t).
  change (SpecFloat.SFcompare (B2SF t) (B2SF (Babs (Bminus mode_NE x y)))) with (Bcompare t (Babs (Bminus mode_NE x y))). rewrite (Bcompare_swap _ _ t (Babs (Bminus mode_NE x y))).
  assert (Bcompare t (Babs (Bminus mode_NE x y)) <> None).
  { assert (N : is_nan (Bminus mode_NE x y) = false) by (destruct (bsub_spec x y Fx Fy) as [[_ F]|[_ [s ->]]]; [apply finite_not_nan'; exact F|reflexivity]).
    destruct t as [| | |]; try discriminate; destruct (Bminus mode_NE x y) as [| | |]; try discriminate; cbn; repeat match goal with |- context [match ?b with _ => _ end] => destruct b end; discriminate. }
  destruct (Bcompare t (Babs (Bminus mode_NE x y))) as [[]|]; try reflexivity. congruence.
Qed.
Lemma near_finite x y t : is_finite x = true -> is_finite y = true -> is_finite t = true -> near x y t = true <-> rnd (Rabs (B2R x - B2R y)) <= B2R t.
Proof.
  intros Fx Fy Ft. unfold near. destruct (bsub_spec x y Fx Fy) as [[V F]|[L [s E]]].
  - rewrite Bleb_correct by (rewrite ?is_finite_Babs; assumption). rewrite V. destruct (Rle_bool_spec (rnd (Rabs (B2R x - B2R y))) (B2R t)); split; intros; try lra; try discriminate; reflexivity.
  - rewrite E. split; [destruct t; try discriminate; destruct s; discriminate|]. intros H. pose proof (abs_B2R_lt_emax prec emax t) as A. pose proof (Rle_abs (B2R t)). lra.
Qed.
Lemma near_exact x y t : is_finite x = true -> is_finite y = true -> is_finite t = true -> Rabs (B2R x - B2R y) <= B2R t -> near x y t = true.
Proof. intros Fx Fy Ft H. apply near_finite; try assumption. rewrite <- (rnd_fix t). apply rnd_mono, H. Qed.
Lemma sub_format (x y : fl) : rnd (B2R x - B2R y) = (B2R x - B2R y) \/ exists eps, Rabs eps <= bpow radix2 (- prec) /\ rnd (B2R x - B2R y) = (B2R x - B2R y) * (1 + eps).
Proof.
  set (d := B2R x - B2R y). destruct (Rle_or_lt (Rabs d) (bpow radix2 (prec + (3 - emax - prec)))) as [H|H].
  - left. apply round_generic; [typeclasses eauto|]. unfold d, Rminus. apply (FLT_format_plus_small radix2 (3 - emax - prec) prec); [apply generic_format_B2R|apply generic_format_opp, generic_format_B2R|exact H].
  - right. destruct (relative_error_N_FLT_ex radix2 (3 - emax - prec) prec Hp (fun z => negb (Z.even z)) d) as (eps & B & E).
    + eapply Rle_trans; [|left; exact H]. apply bpow_le. lia.
    + exists eps. split; [|exact E]. eapply Rle_trans; [exact B|]. rewrite bpow_plus. change (bpow radix2 1) with 2. lra.
Qed.
Lemma near_bound x y t : is_finite x = true -> is_finite y = true -> is_finite t = true -> near x y t = true -> Rabs (B2R x - B2R y) * (1 - bpow radix2 (- prec)) <= B2R t.
Proof.
  intros Fx Fy Ft H. apply near_finite in H; try assumption. rewrite rnd_abs in H. pose proof (Rabs_pos (B2R x - B2R y)) as P. pose proof (bpow_gt_0 radix2 (- prec)) as Q.
  destruct (sub_format x y) as [E|(eps & B & E)]; rewrite E in H; [nra|]. rewrite Rabs_mult in H. apply Rabs_le_inv in B.
  assert (1 - bpow radix2 (- prec) <= Rabs (1 + eps)) by (eapply Rle_trans; [|apply Rle_abs]; lra). nra.
Qed.
Lemma near_sym x y t : near x y t = near y x t. Proof. unfold near. rewrite abs_sub_sym. reflexivity. Qed.
Lemma far_sym x y t : far x y t = far y x t. Proof. unfold far. rewrite abs_sub_sym. reflexivity. Qed.
End Gen.
