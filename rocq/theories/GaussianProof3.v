(** The samples of the truncated distribution. *)
From Coq Require Import Reals Lra Psatz.
From Flocq Require Import Core.
From Verif Require Import Base GaussianModel GaussianSpec.
Local Open Scope R_scope.

Lemma leb_above x lo : ext_leb lo (Fin x) = true <-> above lo x.
Proof. destruct lo as [|l|]; cbn; [split; auto|destruct (Rle_bool_spec l x); split; intros; try discriminate; auto; lra|split; [discriminate|intros []]]. Qed.
Lemma leb_below x hi : ext_leb (Fin x) hi = true <-> below x hi.
Proof. destruct hi as [|h|]; cbn; [split; [discriminate|intros []]|destruct (Rle_bool_spec x h); split; intros; try discriminate; auto; lra|split; auto]. Qed.
Lemma above_scale lo m s x : 0 < s -> above (ext_div (ext_sub lo m) s) x <-> above lo (m + s * x).
Proof.
  intros H. destruct lo as [|l|]; cbn [ext_sub ext_div]; try (rewrite Rlt_bool_true by exact H; cbn; tauto). cbn. split; intros K.
  - apply Rmult_le_compat_l with (r := s) in K; [|lra]. replace (s * ((l - m) / s)) with (l - m) in K by (field; lra). lra.
  - apply Rmult_le_reg_l with s; [exact H|]. replace (s * ((l - m) / s)) with (l - m) by (field; lra). lra.
Qed.
Lemma below_scale hi m s x : 0 < s -> below x (ext_div (ext_sub hi m) s) <-> below (m + s * x) hi.
Proof.
  intros H. destruct hi as [|h|]; cbn [ext_sub ext_div]; try (rewrite Rlt_bool_true by exact H; cbn; tauto). cbn. split; intros K.
  - apply Rmult_le_compat_l with (r := s) in K; [|lra]. replace (s * ((h - m) / s)) with (h - m) in K by (field; lra). lra.
  - apply Rmult_le_reg_l with s; [exact H|]. replace (s * ((h - m) / s)) with (h - m) by (field; lra). lra.
Qed.
Lemma alpha_pos l : 0 < (l + sqrt (l ^ 2 + 4)) / 2.
Proof.
  assert (0 <= l ^ 2) as P by (cbn; nra). assert (L : sqrt (l ^ 2) < sqrt (l ^ 2 + 4)) by (apply sqrt_lt_1_alt; lra).
  rewrite <- Rsqr_pow2, sqrt_Rsqr_abs, Rsqr_pow2 in L. pose proof (Rle_abs (- l)) as A. rewrite Rabs_Ropp in A. lra.
Qed.
Section S.
Context {G : Type} (src : source G).
Lemma naive_in fuel lo hi g x g' : NaiveAcceptReject src fuel lo hi g = Ok (x, g') -> in_bounds lo hi x.
Proof.
  revert g. induction fuel as [|fuel IH]; intros g H; [discriminate|]. cbn [NaiveAcceptReject] in H. destruct (normal_draw src g) as [d g1].
  destruct (ext_leb (Fin d) hi && ext_leb lo (Fin d))%bool eqn:B; [|eauto]. injection H as <- <-. apply andb_prop in B as [B1 B2].
  split; [apply leb_above, B2|apply leb_below, B1].
Qed.
Lemma naive_terminates lo hi k : forall g, in_bounds lo hi (nth_draw (normal_draw src) k g) -> exists x g', NaiveAcceptReject src (S k) lo hi g = Ok (x, g').
Proof.
  induction k as [|k IH]; intros g H.
  - cbn [NaiveAcceptReject nth_draw] in *. destruct (normal_draw src g) as [d g1]. cbn [fst] in H. destruct H as [H1 H2]. apply leb_above in H1. apply leb_below in H2. rewrite H1, H2. eexists. eexists. reflexivity.
  - cbn [nth_draw] in H. remember (S k) as n eqn:En. cbn [NaiveAcceptReject]. subst n. destruct (normal_draw src g) as [d g1]. cbn [snd] in H. destruct (ext_leb (Fin d) hi && ext_leb lo (Fin d))%bool; [eexists; eexists; reflexivity|apply IH, H].
Qed.
Hypothesis exp_ok : forall g, 0 <= fst (exponential_draw src g).
Lemma simple_above fuel l g x g' : SimpleAcceptReject src fuel l g = Ok (x, g') -> l <= x.
Proof.
  revert g. induction fuel as [|fuel IH]; intros g H; [discriminate|]. cbn [SimpleAcceptReject] in H. pose proof (exp_ok g) as E. destruct (exponential_draw src g) as [e g1]. cbn [fst] in E.
  destruct (unit_draw src g1) as [u g2]. destruct (Rle_bool u _); [|eauto]. injection H as <- <-.
  pose proof (alpha_pos l) as P. assert (0 <= e / ((l + sqrt (l ^ 2 + 4)) / 2)) by (apply Rmult_le_pos; [exact E|apply Rlt_le, Rinv_0_lt_compat, P]). 
  match goal with |- _ <= _ + ?y => assert (0 <= y) by assumption end. lra.
Qed.
Lemma bounded_in fuel l hi g x g' : BoundedAcceptReject src fuel l hi g = Ok (x, g') -> l <= x /\ below x hi.
Proof.
  revert g. induction fuel as [|fuel IH]; intros g H; [discriminate|]. remember (S fuel) as n eqn:En. unfold BoundedAcceptReject in H. destruct n as [|n]; [discriminate|]. injection En as ->. fold (BoundedAcceptReject src) in H.
  destruct (SimpleAcceptReject src (S fuel) l g) as [[y g1]| | |] eqn:E; try discriminate. cbn [bind fst snd] in H. destruct (ext_leb (Fin y) hi) eqn:B; [|eauto]. injection H as <- <-.
  split; [eapply simple_above; exact E|apply leb_below, B].
Qed.
End S.

Definition is_type4 (d : TruncatedGaussian) : Prop := tg_case d = TYPE_4.
(** What the constructor decides. *)
Inductive decided (mean s : R) (lo hi : ext) : TruncatedGaussian -> Prop :=
| Inside : forall d, tg_case d = TYPE_1 -> tg_mean d = mean -> tg_stddev d = s ->
    tg_std_lower d = ext_div (ext_sub lo mean) s -> tg_std_upper d = ext_div (ext_sub hi mean) s -> decided mean s lo hi d
| UpperTail : forall d l, tg_case d = TYPE_2 -> tg_mean d = mean -> tg_stddev d = s -> hi = PosInf -> lo = Fin l ->
    tg_std_lower d = Fin ((l - mean) / s) -> decided mean s lo hi d
| LowerTail : forall d h, tg_case d = TYPE_2 -> tg_mean d = mean -> tg_stddev d = - s -> lo = NegInf -> hi = Fin h ->
    tg_std_lower d = Fin (- ((h - mean) / s)) -> decided mean s lo hi d
| Tail : forall d l h, lo = Fin l -> hi = Fin h -> mean < l \/ h < mean -> tg_mean d = mean -> tg_stddev d = s ->
    tg_std_lower d = Fin ((l - mean) / s) -> tg_std_upper d = Fin ((h - mean) / s) -> tg_range d = (lo, hi) ->
    tg_case d = (if CheckSimple ((l - mean) / s) ((h - mean) / s) then TYPE_3 else TYPE_4) -> decided mean s lo hi d.
Lemma div_pos_iff a s : 0 < s -> (0 < a / s <-> 0 < a).
Proof. intros H. split; intros K; [|apply Rdiv_lt_0_compat; assumption]. apply Rmult_lt_reg_r with (/ s); [apply Rinv_0_lt_compat, H|]. rewrite Rmult_0_l. exact K. Qed.
Lemma div_neg_iff a s : 0 < s -> (a / s < 0 <-> a < 0).
Proof. intros H. pose proof (div_pos_iff (- a) s H) as D. unfold Rdiv in *. rewrite Ropp_mult_distr_l_reverse in D. lra. Qed.
Ltac red_ext := cbn [ext_leb is_pos_inf is_neg_inf andb orb negb]; rewrite ?Bool.andb_false_r; cbn [andb orb negb].
Ltac inside := apply Inside; try reflexivity; cbn [tg_std_lower tg_std_upper ext_sub ext_div]; rewrite ?Rlt_bool_true by assumption; reflexivity.
Lemma constructor_decides mean s lo hi : 0 < s -> proper lo hi ->
  exists d, MakeTruncatedGaussian mean s lo hi = Ok d /\ decided mean s lo hi d.
Proof.
  intros H (x & P1 & P2). unfold MakeTruncatedGaussian. rewrite Req_bool_false by lra. cbv zeta.
  destruct lo as [|l|]; [|..|destruct P1]; (destruct hi as [|h|]; [destruct P2|..]); cbn [ext_sub ext_div above below] in *; rewrite ?Rlt_bool_true by exact H; cbn [ext_leb ext_ltb ext_opp is_pos_inf is_neg_inf andb orb negb]; unfold ext_ltb; cbn [ext_leb].
  - (* (-inf, h) *)
    destruct (Rle_bool_spec 0 ((h - mean) / s)) as [K|K]; cbn [andb orb negb].
    + rewrite ?(Rle_bool_true _ _ K). red_ext. eexists. split; [reflexivity|]. inside.
    + rewrite ?(Rle_bool_false _ _ K). red_ext. eexists. split; [reflexivity|]. eapply LowerTail; reflexivity.
  - red_ext. eexists. split; [reflexivity|]. inside.
  - destruct (Rle_bool_spec ((l - mean) / s) 0) as [K|K]; destruct (Rle_bool_spec 0 ((h - mean) / s)) as [K2|K2]; cbn [andb orb negb];
      unfold ext_ltb; cbn [ext_leb]; rewrite ?(Rle_bool_true _ _ K), ?(Rle_bool_true _ _ K2), ?(Rle_bool_false _ _ K), ?(Rle_bool_false _ _ K2); red_ext; (eexists; split; [reflexivity|]).
    + inside.
    + apply div_neg_iff in K2; [|exact H]. eapply Tail; try reflexivity. lra.
    + apply div_pos_iff in K; [|exact H]. eapply Tail; try reflexivity. lra.
    + apply div_pos_iff in K; [|exact H]. eapply Tail; try reflexivity. lra.
  - destruct (Rle_bool_spec ((l - mean) / s) 0) as [K|K]; cbn [andb orb negb]; unfold ext_ltb; cbn [ext_leb]; rewrite ?(Rle_bool_true _ _ K), ?(Rle_bool_false _ _ K); red_ext; (eexists; split; [reflexivity|]).
    + inside.
    + eapply UpperTail; reflexivity.
Qed.
Lemma sample_in {G} (src : source G) mean s lo hi d fuel g x g' : 0 < s -> (forall g, 0 <= fst (exponential_draw src g)) ->
  decided mean s lo hi d -> ~ narrow_tail mean s lo hi -> Sample src fuel d g = Ok (x, g') -> in_bounds lo hi x.
Proof.
  intros H E D N S. unfold Sample in S. inversion D as [d' C M T L U|d' l C M T Eh El L|d' h C M T El Eh L|d' l h El Eh O M T L U Rg C]; subst d'; rewrite C in S.
  - destruct (NaiveAcceptReject src fuel (tg_std_lower d) (tg_std_upper d) g) as [[y g1]| | |] eqn:Q; try discriminate. cbn [bind fst snd] in S. injection S as <- <-. apply naive_in in Q. rewrite L, U in Q. rewrite M, T.
    destruct Q as [Q1 Q2]. split; [apply above_scale|apply below_scale]; assumption.
  - rewrite L in S. destruct (SimpleAcceptReject src fuel ((l - mean) / s) g) as [[y g1]| | |] eqn:Q; try discriminate. cbn [bind fst snd] in S. injection S as <- <-. apply simple_above in Q; [|exact E]. rewrite M, T.
    split; [|subst hi; exact I]. subst lo. apply (above_scale (Fin l) mean s y H). exact Q.
  - rewrite L in S. destruct (SimpleAcceptReject src fuel (- ((h - mean) / s)) g) as [[y g1]| | |] eqn:Q; try discriminate. cbn [bind fst snd] in S. injection S as <- <-. apply simple_above in Q; [|exact E]. rewrite M, T.
    split; [subst lo; exact I|]. subst hi. replace (mean + - s * y) with (mean + s * (- y)) by ring. apply (below_scale (Fin h) mean s (- y) H). cbn. lra.
  - destruct (CheckSimple ((l - mean) / s) ((h - mean) / s)) eqn:K.
    + rewrite L in S. destruct (BoundedAcceptReject src fuel ((l - mean) / s) (tg_std_upper d) g) as [[y g1]| | |] eqn:Q; try discriminate. cbn [bind fst snd] in S. injection S as <- <-. apply bounded_in in Q; [|exact E]. rewrite M, T. rewrite U in Q. destruct Q as [Q1 Q2].
      subst lo hi. split; [apply (above_scale (Fin l) mean s y H); exact Q1|apply (below_scale (Fin h) mean s y H); exact Q2].
    + exfalso. apply N. exists l, h. split; [exact El|]. split; [exact Eh|]. split; [exact O|]. cbv zeta. unfold CheckSimple in K. cbv zeta in K.
      match type of K with Rlt_bool ?a ?b = false => destruct (Rlt_bool_spec a b) as [Z|Z]; [discriminate|exact Z] end.
Qed.
Lemma samples_in {G} (src : source G) mean s lo hi d n fuel : 0 < s -> (forall g, 0 <= fst (exponential_draw src g)) ->
  decided mean s lo hi d -> ~ narrow_tail mean s lo hi -> forall g xs g', SampleMany src n fuel d g = Ok (xs, g') -> length xs = n /\ Forall (in_bounds lo hi) xs.
Proof.
  intros H E D N. induction n as [|n IH]; intros g xs g' S; cbn [SampleMany] in S; [injection S as <- <-; split; [reflexivity|constructor]|].
  destruct (Sample src fuel d g) as [[x g1]| | |] eqn:Q; try discriminate. cbn [bind fst snd] in S.
  destruct (SampleMany src n fuel d g1) as [[ys g2]| | |] eqn:Q2; try discriminate. cbn [bind fst snd] in S. injection S as <- <-.
  destruct (IH _ _ _ Q2) as [L F]. split; [cbn; congruence|]. constructor; [|exact F]. eapply sample_in; eassumption.
Qed.

(** The narrow tail. *)
Lemma complex_range {G} (src : source G) a b fuel l h g x g' : (forall g, a <= fst (range_draw src (Fin a) (Fin b) g) <= b) ->
  ComplexAcceptReject src fuel (Fin a, Fin b) l h g = Ok (x, g') -> a <= x <= b.
Proof.
  intros R. revert g. induction fuel as [|fuel IH]; intros g H; [discriminate|]. cbn [ComplexAcceptReject fst snd] in H. pose proof (R g) as E. destruct (range_draw src (Fin a) (Fin b) g) as [z g1]. cbn [fst] in E.
  destruct (unit_draw src g1) as [u g2]. match type of H with (if ?c then _ else _) = _ => destruct c end; [|eauto]. injection H as <- <-. exact E.
Qed.
Definition narrow_d : TruncatedGaussian := mkTG 10 1 (Fin ((12 - 10) / 1)) (Fin ((121 / 10 - 10) / 1)) TYPE_4 (Fin 12, Fin (121 / 10)).
Lemma narrow_check : CheckSimple ((12 - 10) / 1) ((121 / 10 - 10) / 1) = false.
Proof.
  unfold CheckSimple. cbv zeta. replace ((12 - 10) / 1) with 2 by lra. replace ((121 / 10 - 10) / 1) with (21 / 10) by lra.
  apply Rlt_bool_false. replace (2 ^ 2 + 4) with 8 by (cbn; lra).
  assert (S8 : 2 <= sqrt 8 <= 3).
  { split; [rewrite <- (sqrt_Rsqr 2) at 1 by lra|rewrite <- (sqrt_Rsqr 3) by lra]; apply sqrt_le_1_alt; unfold Rsqr; lra. }
  assert (E1 : 1 <= sqrt (exp 1)).
  { rewrite <- sqrt_1 at 1. apply sqrt_le_1_alt. pose proof (exp_ineq1_le 1). lra. }
  assert (V1 : 2 / 5 <= 2 * sqrt (exp 1) / (2 + sqrt 8)).
  { apply Rmult_le_reg_r with (2 + sqrt 8); [lra|]. unfold Rdiv at 2. rewrite Rmult_assoc, Rinv_l by lra. lra. }
  assert (V2 : 1 / 2 <= exp ((2 ^ 2 - 2 * sqrt 8) / 4)).
  { pose proof (exp_ineq1_le ((2 ^ 2 - 2 * sqrt 8) / 4)) as X. cbn [pow] in *. lra. }
  assert (W : 2 / 5 * (1 / 2) <= 2 * sqrt (exp 1) / (2 + sqrt 8) * exp ((2 ^ 2 - 2 * sqrt 8) / 4)) by (apply Rmult_le_compat; lra). lra.
Qed.
Lemma narrow_made : MakeTruncatedGaussian 10 1 (Fin 12) (Fin (121 / 10)) = Ok narrow_d.
Proof.
  unfold MakeTruncatedGaussian. rewrite Req_bool_false by lra. cbv zeta. cbn [ext_sub ext_div ext_leb is_pos_inf is_neg_inf]. unfold ext_ltb. cbn [ext_leb].
  rewrite (Rle_bool_true 0 ((121 / 10 - 10) / 1)) by lra. rewrite (Rle_bool_false ((12 - 10) / 1) 0) by lra. cbn [andb orb negb ext_leb is_pos_inf is_neg_inf].
  rewrite (Rle_bool_true 0 ((121 / 10 - 10) / 1)) by lra. rewrite (Rle_bool_false ((12 - 10) / 1) 0) by lra. cbn [andb orb negb]. rewrite narrow_check. reflexivity.
Qed.
Lemma narrow_far {G} (src : source G) fuel g x g' : source_ok src -> Sample src fuel narrow_d g = Ok (x, g') -> 22 <= x.
Proof.
  intros (_ & _ & R) S. unfold Sample in S. cbn [tg_case narrow_d tg_std_lower tg_std_upper tg_range tg_mean tg_stddev] in S.
  destruct (ComplexAcceptReject src fuel _ _ _ g) as [[y g1]| | |] eqn:Q; try discriminate. cbn [bind fst snd] in S. injection S as <- <-.
  apply (complex_range src 12 (121 / 10)) in Q; [lra|]. intros g0. apply R. lra.
Qed.
(** A source that always proposes the lower end and accepts. *)
Definition eager : source unit := {| normal_draw := fun g => (0, g); exponential_draw := fun g => (0, g); unit_draw := fun g => (0, g);
  range_draw := fun a _ g => (match a with Fin r => r | _ => 0 end, g) |}.
Lemma eager_ok : source_ok eager.
Proof. split; [intros; cbn [eager exponential_draw fst]; lra|]. split; [intros; cbn [eager unit_draw fst]; lra|]. intros a b g H. cbn [eager range_draw fst]. lra. Qed.
Lemma narrow_sample : exists x, Sample eager 1 narrow_d tt = Ok (x, tt).
Proof.
  unfold Sample. cbn [tg_case narrow_d tg_std_lower tg_std_upper tg_range tg_mean tg_stddev ComplexAcceptReject fst snd range_draw unit_draw eager].
  rewrite (Rlt_bool_true 0 ((12 - 10) / 1)) by lra. rewrite Rle_bool_true by (apply Rlt_le, exp_pos). eexists. reflexivity.
Qed.
