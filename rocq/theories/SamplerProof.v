(** The distribution of the samples of TruncatedGaussianDistribution. *)
From Coq Require Import Reals Lra Psatz List Bool.
From Flocq Require Import Core.
From Coquelicot Require Import Coquelicot.
From Verif Require Import Base MathModel MathReal GaussianModel GaussianSpec GaussianErf GaussianProof GaussianProof3 SamplerSpec.
Import ListNotations.
Local Open Scope R_scope.

Definition alpha (l : R) : R := (l + sqrt (l ^ 2 + 4)) / 2.
Definition prop (l e : R) : R := l + e / alpha l.
Definition rho (l e : R) : R := exp (- ((alpha l - prop l e) ^ 2) / 2).
Lemma rho_range l e : 0 <= rho l e <= 1.
Proof.
  unfold rho. split; [apply Rlt_le, exp_pos|]. rewrite <- exp_0.
  assert (0 <= (alpha l - prop l e) ^ 2) as Q by apply pow2_ge_0.
  destruct (Req_dec ((alpha l - prop l e) ^ 2) 0) as [->|N]; [replace (- 0 / 2) with 0 by field; lra|]. apply Rlt_le, exp_increasing. lra.
Qed.
Lemma simple_step {G} (src : source G) n l g : SimpleAcceptReject src (S n) l g =
  let '(e, g1) := exponential_draw src g in let '(u, g2) := unit_draw src g1 in
  if Rle_bool u (rho l e) then Ok (prop l e, g2) else SimpleAcceptReject src n l g2.
Proof. reflexivity. Qed.
Lemma simple_noted n l e u g : SimpleAcceptReject noted (S n) l (Exponential e :: Unit u :: g) =
  if Rle_bool u (rho l e) then Ok (prop l e, g) else SimpleAcceptReject noted n l g.
Proof. reflexivity. Qed.

(** The integral of the proposals that are accepted. *)
Lemma normal_int m s a b : 0 < s -> is_RInt normal_density a b (CDF m s (m + s * b) - CDF m s (m + s * a)).
Proof.
  intros H. apply (is_RInt_derive (fun t => CDF m s (m + s * t))).
  - intros t _. evar_last; [apply (is_derive_comp (CDF m s) (fun t => m + s * t)); [apply cdf_derive; exact H|]; instantiate (1 := s); auto_derive; [exact I|ring]|].
    rewrite pdf_eq. unfold scal, normal_density. cbn. unfold mult. cbn. replace ((m + s * t - m) * (m + s * t - m) / (2 * s * s)) with (t * t / 2) by (field; lra).
    field. split; [|lra]. assert (0 < sqrt (2 * PI)) by (apply sqrt_lt_R0; pose proof PI_RGT_0; lra). lra.
  - intros t _. apply (ex_derive_continuous normal_density). unfold normal_density. auto_derive. exact I.
Qed.
Definition factor (l : R) : R := alpha l * sqrt (2 * PI) * exp (alpha l * l - alpha l * alpha l / 2).
Lemma factor_pos l : 0 < factor l.
Proof.
  unfold factor. apply Rmult_lt_0_compat; [|apply exp_pos]. apply Rmult_lt_0_compat; [apply alpha_pos|]. apply sqrt_lt_R0. pose proof PI_RGT_0. lra.
Qed.
Lemma accepted_int m s t l a b : 0 < s -> t = s \/ t = - s ->
  is_RInt (fun e => exponential_density e * rho l e) a b
    (factor l * (s / t) * CDF m s (m + t * prop l b) - factor l * (s / t) * CDF m s (m + t * prop l a)).
Proof.
  intros H T. pose proof (alpha_pos l) as A. fold (alpha l) in A. assert (T0 : t <> 0) by (destruct T; lra). assert (TT : t * t = s * s) by (destruct T; subst; ring).
  assert (SP : 0 < sqrt (2 * PI)) by (apply sqrt_lt_R0; pose proof PI_RGT_0; lra).
  apply (is_RInt_derive (fun e => factor l * (s / t) * CDF m s (m + t * prop l e))).
  - intros e _. evar_last.
    + apply is_derive_scal. apply (is_derive_comp (CDF m s) (fun e => m + t * prop l e)); [apply cdf_derive; exact H|].
      instantiate (1 := t / alpha l). unfold prop. auto_derive; [exact I|]. field. lra.
    + rewrite pdf_eq. unfold scal. cbn. unfold mult. cbn. unfold exponential_density, rho.
      replace ((m + t * prop l e - m) * (m + t * prop l e - m) / (2 * s * s)) with (prop l e * prop l e / 2)
        by (replace ((m + t * prop l e - m) * (m + t * prop l e - m)) with (t * t * (prop l e * prop l e)) by ring; rewrite TT; field; lra).
      rewrite <- exp_plus. replace (- e + - (alpha l - prop l e) ^ 2 / 2) with ((alpha l * l - alpha l * alpha l / 2) + - (prop l e * prop l e / 2))
        by (assert (E : e = alpha l * (prop l e - l)) by (unfold prop; field; lra); set (z := prop l e) in *; clearbody z; rewrite E; field).
      rewrite exp_plus. unfold factor. field. repeat split; lra.
  - intros e _. apply (ex_derive_continuous (fun e => exponential_density e * rho l e)). unfold exponential_density, rho, prop. auto_derive. repeat split; try exact I; lra.
Qed.

(** What one trial does. *)
Lemma trial_normal d t : tg_case d = TYPE_1 ->
  one_trial d [Normal t] = if ext_leb (Fin t) (tg_std_upper d) && ext_leb (tg_std_lower d) (Fin t) then Some (tg_mean d + tg_stddev d * t) else None.
Proof. intros C. unfold one_trial, Sample. rewrite C. simpl. destruct (_ && _); reflexivity. Qed.
Lemma trial_open d l e u : tg_case d = TYPE_2 -> tg_std_lower d = Fin l ->
  one_trial d [Exponential e; Unit u] = if Rle_bool u (rho l e) then Some (tg_mean d + tg_stddev d * prop l e) else None.
Proof. intros C L. unfold one_trial, Sample. rewrite C, L, simple_noted. destruct (Rle_bool u (rho l e)); reflexivity. Qed.
Lemma bounded_unfold {G} (src : source G) n l h g : BoundedAcceptReject src (S n) l h g =
  do r <- SimpleAcceptReject src (S n) l g; if ext_leb (Fin (fst r)) h then Ok r else BoundedAcceptReject src n l h (snd r).
Proof. reflexivity. Qed.
Lemma trial_closed d l e u : tg_case d = TYPE_3 -> tg_std_lower d = Fin l ->
  one_trial d [Exponential e; Unit u] = if Rle_bool u (rho l e) && ext_leb (Fin (prop l e)) (tg_std_upper d) then Some (tg_mean d + tg_stddev d * prop l e) else None.
Proof.
  intros C L. unfold one_trial, Sample. rewrite C, L, bounded_unfold, simple_noted. destruct (Rle_bool u (rho l e)); cbn [andb bind fst snd]; [|reflexivity].
  destruct (ext_leb _ _); reflexivity.
Qed.

(** Trials are looked at one after the other. *)
Lemma naive_trials d : tg_case d = TYPE_1 -> forall ts t x, Forall (is_trial d) ts -> Forall (fun t => one_trial d t = None) ts -> is_trial d t -> one_trial d t = Some x ->
  forall fuel rest, (length ts < fuel)%nat -> Sample noted fuel d (concat ts ++ t ++ rest) = Ok (x, rest).
Proof.
  intros C. induction ts as [|t1 ts IH]; intros t x F N T X fuel rest L; (destruct fuel as [|fuel]; [inversion L|]).
  - destruct T as [t C'|]; [|contradiction]. rewrite trial_normal in X by exact C. unfold Sample. rewrite C. simpl. destruct (_ && _); [|discriminate]. injection X as <-. reflexivity.
  - inversion F as [|? ? T1 F']; subst. inversion N as [|? ? N1 N']; subst. destruct T1 as [s C'|]; [|contradiction].
    rewrite trial_normal in N1 by exact C. specialize (IH t x F' N' T X fuel rest ltac:(simpl in L; lia)). unfold Sample in *. rewrite C in *. cbn [concat app].
    cbn [NaiveAcceptReject noted normal_draw]. destruct (_ && _) eqn:B; [discriminate|]. exact IH.
Qed.
Lemma open_trials d l : tg_case d = TYPE_2 -> tg_std_lower d = Fin l -> forall ts t x, Forall (is_trial d) ts -> Forall (fun t => one_trial d t = None) ts -> is_trial d t -> one_trial d t = Some x ->
  forall fuel rest, (length ts < fuel)%nat -> Sample noted fuel d (concat ts ++ t ++ rest) = Ok (x, rest).
Proof.
  intros C L. induction ts as [|t1 ts IH]; intros t x F N T X fuel rest Le; (destruct fuel as [|fuel]; [inversion Le|]).
  - destruct T as [t C'|e u _]; [congruence|]. rewrite (trial_open d l) in X by assumption. unfold Sample. rewrite C, L. cbn [concat app]. rewrite simple_noted.
    destruct (Rle_bool _ _); [|discriminate]. injection X as <-. reflexivity.
  - inversion F as [|? ? T1 F']; subst. inversion N as [|? ? N1 N']; subst. destruct T1 as [s C'|e u _]; [congruence|].
    rewrite (trial_open d l) in N1 by assumption. specialize (IH t x F' N' T X fuel rest ltac:(simpl in Le; lia)). unfold Sample in *. rewrite C, L in *. cbn [concat app].
    rewrite simple_noted. destruct (Rle_bool _ _); [discriminate|]. exact IH.
Qed.
Lemma closed_trials d l : tg_case d = TYPE_3 -> tg_std_lower d = Fin l -> forall ts t x, Forall (is_trial d) ts -> Forall (fun t => one_trial d t = None) ts -> is_trial d t -> one_trial d t = Some x ->
  forall fuel rest, (length ts < fuel)%nat -> Sample noted fuel d (concat ts ++ t ++ rest) = Ok (x, rest).
Proof.
  intros C L ts t x F N T X fuel rest Le. destruct fuel as [|fuel]; [inversion Le|]. unfold Sample. rewrite C, L, bounded_unfold.
  assert (K : forall ts f1 f2, Forall (is_trial d) ts -> Forall (fun t => one_trial d t = None) ts -> (length ts < f1)%nat -> (length ts <= f2)%nat ->
    exists r, (do r <- SimpleAcceptReject noted f1 l (concat ts ++ t ++ rest); if ext_leb (Fin (fst r)) (tg_std_upper d) then Ok r else BoundedAcceptReject noted f2 l (tg_std_upper d) (snd r))
      = Ok (r, rest) /\ x = tg_mean d + tg_stddev d * r).
  { clear ts fuel F N Le. induction ts as [|t1 ts IH]; intros f1 f2 F N L1 L2; (destruct f1 as [|f1]; [inversion L1|]).
    - destruct T as [t C'|e u _]; [congruence|]. rewrite (trial_closed d l) in X by assumption. cbn [concat app]. rewrite simple_noted.
      destruct (Rle_bool _ _); [|discriminate]. cbn [andb bind fst snd] in *. destruct (ext_leb _ _); [|discriminate]. injection X as <-. eauto.
    - inversion F as [|? ? T1 F']; subst. inversion N as [|? ? N1 N']; subst. destruct T1 as [s C'|e u _]; [congruence|].
      rewrite (trial_closed d l) in N1 by assumption. cbn [concat app]. rewrite simple_noted. simpl in L1, L2.
      destruct (Rle_bool _ _); [|apply IH; auto; lia]. cbn [andb bind fst snd] in *. destruct (ext_leb _ _); [discriminate|].
      destruct f2 as [|f2]; [lia|]. rewrite bounded_unfold. apply IH; auto; lia. }
  destruct (K ts (S fuel) fuel F N Le ltac:(lia)) as (r & -> & ->). reflexivity.
Qed.

(** The probability of a hit. *)
Lemma hits_value (c : bool) d trial v x y : one_trial d trial = (if c then Some v else None) -> hits d trial x y <-> c = true /\ x <= v <= y.
Proof.
  intros E. unfold hits. rewrite E. split.
  - intros (r & Q & B). destruct c; [|discriminate]. injection Q as ->. auto.
  - intros [-> B]. eauto.
Qed.
Lemma between m s z x y : 0 < s -> x <= m + s * z <= y <-> (x - m) / s <= z <= (y - m) / s.
Proof.
  intros H.
  assert (A : forall v, s * ((v - m) / s) = v - m) by (intros; field; lra). pose proof (A x). pose proof (A y).
  split; intros [P Q]; split; nra.
Qed.
Lemma proposals l e a b : a <= prop l e <= b <-> alpha l * (a - l) <= e <= alpha l * (b - l).
Proof.
  pose proof (alpha_pos l) as A. fold (alpha l) in A. unfold prop. assert (E : alpha l * (e / alpha l) = e) by (field; lra). rewrite <- E at 3 4.
  split; intros [P Q]; split; nra.
Qed.
Lemma prop_back l z : prop l (alpha l * (z - l)) = z.
Proof. pose proof (alpha_pos l) as A. fold (alpha l) in A. unfold prop. field. lra. Qed.
Definition hit_factor (d : TruncatedGaussian) : R :=
  match tg_case d, tg_std_lower d with TYPE_1, _ => 1 | _, Fin l => factor l | _, _ => 1 end.
Lemma hit_factor_pos d : 0 < hit_factor d.
Proof. unfold hit_factor. destruct (tg_case d), (tg_std_lower d); try lra; apply factor_pos. Qed.

Lemma decided_hits mean s lo hi d x y : 0 < s -> decided mean s lo hi d -> ~ narrow_tail mean s lo hi -> x <= y -> in_bounds lo hi x -> in_bounds lo hi y ->
  hit_probability d x y (hit_factor d * (CDF mean s y - CDF mean s x)).
Proof.
  intros H D N XY [X1 X2] [Y1 Y2]. unfold hit_factor.
  assert (A : forall v, s * ((v - mean) / s) = v - mean) by (intros; field; lra).
  inversion D as [d' C M T L U|d' l C M T Eh El L|d' h C M T El Eh L|d' l h El Eh O M T L U Rg C]; subst d'.
  - rewrite C, Rmult_1_l. apply by_normal with ((x - mean) / s) ((y - mean) / s).
    + pose proof (A x). pose proof (A y). nra.
    + intros t. rewrite (hits_value _ _ _ _ _ _ (trial_normal d t C)), M, T, between by exact H. rewrite L, U, andb_true_iff, leb_above, leb_below. split; [tauto|]. intros B. split; [|exact B].
      apply (between mean s t x y H) in B. rewrite above_scale, below_scale by exact H. split.
      * destruct hi; cbn in *; auto; lra.
      * destruct lo; cbn in *; auto; lra.
    + pose proof (normal_int mean s ((x - mean) / s) ((y - mean) / s) H) as I. rewrite !A in I.
      replace (mean + (y - mean)) with y in I by ring. replace (mean + (x - mean)) with x in I by ring. exact I.
  - subst lo hi. cbn in X1, Y1. rewrite C, L. set (l' := (l - mean) / s) in *. pose proof (alpha_pos l') as P. fold (alpha l') in P.
    pose proof (A x) as Ax. pose proof (A y) as Ay. pose proof (A l) as Al. fold l' in Al.
    apply by_exponential with (alpha l' * ((x - mean) / s - l')) (alpha l' * ((y - mean) / s - l')) (rho l').
    + split; [apply Rmult_le_pos; [lra|]; nra|]. apply Rmult_le_compat_l; [lra|]. nra.
    + apply rho_range.
    + intros e u _ _. rewrite (hits_value _ _ _ _ _ _ (trial_open d l' e u C L)), M, T, between, proposals by exact H.
      destruct (Rle_bool_spec u (rho l' e)); split; intros [Q1 Q2]; try discriminate; auto. lra.
    + pose proof (accepted_int mean s s l' (alpha l' * ((x - mean) / s - l')) (alpha l' * ((y - mean) / s - l')) H (or_introl eq_refl)) as I.
      rewrite !prop_back, Ax, Ay in I. replace (mean + (y - mean)) with y in I by ring. replace (mean + (x - mean)) with x in I by ring.
      replace (s / s) with 1 in I by (field; lra). rewrite Rmult_1_r, <- Rmult_minus_distr_l in I. exact I.
  - subst lo hi. cbn in X2, Y2. rewrite C, L. set (l' := - ((h - mean) / s)) in *. pose proof (alpha_pos l') as P. fold (alpha l') in P.
    pose proof (A x) as Ax. pose proof (A y) as Ay. pose proof (A h) as Al. assert (Al' : s * l' = mean - h) by (unfold l'; lra).
    apply by_exponential with (alpha l' * (- ((y - mean) / s) - l')) (alpha l' * (- ((x - mean) / s) - l')) (rho l').
    + split; [apply Rmult_le_pos; [lra|]; nra|]. apply Rmult_le_compat_l; [lra|]. nra.
    + apply rho_range.
    + intros e u _ _. rewrite (hits_value _ _ _ _ _ _ (trial_open d l' e u C L)), M, T. replace (mean + - s * prop l' e) with (mean + s * - prop l' e) by ring. rewrite between by exact H.
      rewrite <- proposals. destruct (Rle_bool_spec u (rho l' e)); split; intros [Q1 Q2]; try discriminate; try lra; (split; [reflexivity|lra]) || (split; lra).
    + pose proof (accepted_int mean s (- s) l' (alpha l' * (- ((y - mean) / s) - l')) (alpha l' * (- ((x - mean) / s) - l')) H (or_intror eq_refl)) as I.
      rewrite !prop_back in I. replace (mean + - s * - ((y - mean) / s)) with y in I by lra. replace (mean + - s * - ((x - mean) / s)) with x in I by lra.
      replace (s / - s) with (-1) in I by (field; lra). match goal with |- is_RInt _ _ _ ?v => match type of I with is_RInt _ _ _ ?w => replace v with w by ring end end. exact I.
  - assert (K : CheckSimple ((l - mean) / s) ((h - mean) / s) = true).
    { destruct (CheckSimple ((l - mean) / s) ((h - mean) / s)) eqn:K; [reflexivity|]. exfalso. apply N. exists l, h. split; [exact El|]. split; [exact Eh|]. split; [exact O|]. cbv zeta. unfold CheckSimple in K. cbv zeta in K.
      match type of K with Rlt_bool ?a ?b = false => destruct (Rlt_bool_spec a b) as [Z|Z]; [discriminate|exact Z] end. }
    rewrite K in C. subst lo hi. cbn in X1, Y1, X2, Y2. rewrite C, L. set (l' := (l - mean) / s) in *. pose proof (alpha_pos l') as P. fold (alpha l') in P.
    pose proof (A x) as Ax. pose proof (A y) as Ay. pose proof (A l) as Al. fold l' in Al. pose proof (A h) as Ah.
    apply by_exponential with (alpha l' * ((x - mean) / s - l')) (alpha l' * ((y - mean) / s - l')) (rho l').
    + split; [apply Rmult_le_pos; [lra|]; nra|]. apply Rmult_le_compat_l; [lra|]. nra.
    + apply rho_range.
    + intros e u _ _. rewrite (hits_value _ _ _ _ _ _ (trial_closed d l' e u C L)), M, T, between, proposals, andb_true_iff by exact H. rewrite U, leb_below. cbn [below].
      split; [intros [[Q1 Q3] Q2]|intros [Q1 Q2]].
      * split; [exact Q2|]. destruct (Rle_bool_spec u (rho l' e)); [assumption|discriminate].
      * split; [|exact Q1]. split; [apply Rle_bool_true; exact Q2|]. apply proposals in Q1. nra.
    + pose proof (accepted_int mean s s l' (alpha l' * ((x - mean) / s - l')) (alpha l' * ((y - mean) / s - l')) H (or_introl eq_refl)) as I.
      rewrite !prop_back, Ax, Ay in I. replace (mean + (y - mean)) with y in I by ring. replace (mean + (x - mean)) with x in I by ring.
      replace (s / s) with 1 in I by (field; lra). rewrite Rmult_1_r, <- Rmult_minus_distr_l in I. exact I.
Qed.
Lemma decided_trials mean s lo hi d : decided mean s lo hi d -> ~ narrow_tail mean s lo hi ->
  forall ts t x, Forall (is_trial d) ts -> Forall (fun t => one_trial d t = None) ts -> is_trial d t -> one_trial d t = Some x ->
  forall fuel rest, (length ts < fuel)%nat -> Sample noted fuel d (concat ts ++ t ++ rest) = Ok (x, rest).
Proof.
  intros D N. inversion D as [d' C M T L U|d' l C M T Eh El L|d' h C M T El Eh L|d' l h El Eh O M T L U Rg C]; subst d'.
  - apply naive_trials, C.
  - eapply open_trials; eassumption.
  - eapply open_trials; eassumption.
  - assert (K : CheckSimple ((l - mean) / s) ((h - mean) / s) = true).
    { destruct (CheckSimple ((l - mean) / s) ((h - mean) / s)) eqn:K; [reflexivity|]. exfalso. apply N. exists l, h. split; [exact El|]. split; [exact Eh|]. split; [exact O|]. cbv zeta. unfold CheckSimple in K. cbv zeta in K.
      match type of K with Rlt_bool ?a ?b = false => destruct (Rlt_bool_spec a b) as [Z|Z]; [discriminate|exact Z] end. }
    rewrite K in C. eapply closed_trials; eassumption.
Qed.
