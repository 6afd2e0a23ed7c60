(** Sampled positions and velocities. *)
From Coq Require Import Reals Lra Psatz List Bool Lia.
From Coquelicot Require Import Coquelicot.
From Flocq Require Import Core.
From Verif Require Import Base MathModel MathReal MathLinModel MathVec MathLinProof TotpModel TotpSpec TotpProof TotpQuery TotpScalar TotpRealSpec TotpReal TotpLimits TotpArc TotpPathSpec TotpPath TotpBlend TotpChain TotpPoly TotpGeometry TotpMotionSpec.
Local Open Scope R_scope.

Lemma xle_trans a b c : xleb a b = true -> xleb b c = true -> xleb a c = true.
Proof.
  unfold xleb. destruct a as [x|[]|], b as [y|[]|], c as [z|[]|]; cbn; try discriminate; auto.
  intros H K. fold (xleb (XFin x) (XFin y)) in *. 
  destruct (Rlt_bool_spec x y), (Rlt_bool_spec y z), (Req_bool_spec x y), (Req_bool_spec y z), (Rlt_bool_spec x z), (Req_bool_spec x z); cbn in *; try discriminate; auto; lra.
Qed.
Lemma xle_total a b : xleb a a = true -> xleb b b = true -> xltb a b = false -> xleb b a = true.
Proof.
  unfold xleb. destruct a as [x|[]|], b as [y|[]|]; cbn; try discriminate; auto.
  intros _ _ H. destruct (Rlt_bool_spec x y), (Rlt_bool_spec y x), (Req_bool_spec y x); cbn; try discriminate; auto; lra.
Qed.
Lemma xle_num a b : xleb a b = true -> xleb b b = true.
Proof.
  unfold xleb. destruct a as [x|[]|], b as [y|[]|]; cbn; try discriminate; auto; intros _; rewrite Req_bool_true, orb_true_r; reflexivity.
Qed.
Lemma xlt_not a : xleb (XFin 0) a = true -> xltb a (XFin 0) = false.
Proof.
  destruct a as [x|[]|]; cbn; try discriminate; auto. intros H. apply xleb_le in H. apply Rlt_bool_false. lra.
Qed.
Lemma xle01 : aleb xa (a_of xa 0) (a_of xa 1) = true. Proof. apply xleb_le. lra. Qed.
Lemma ordinary_fin t : 0 <= t < big -> ordinary xa xextras (XFin t).
Proof. intros (H & K). split; [now apply xleb_le|now apply xltb_lt]. Qed.

Lemma xfirst tr t : built xa tr -> ordinary xa xextras t -> first_answer xa xextras tr t = spec_answer xa xextras tr t.
Proof. intros B O. now apply (first_answer_spec xa xextras xle01 xle_trans xle_total xle_num xlt_not). Qed.

Section Sample.
Variables (n : nat) (p : @path xr) (cs : list curve).
Hypothesis T : traces p cs.
Hypothesis N : cs <> [].
Hypothesis G : Forall (good n) cs.

Definition timed_of (a b c : R) : @timed xr := mkTimed (XFin a) (XFin b) (XFin c).
Lemma sample_leg g t : l_t0 g <> l_t1 g -> 0 <= leg_position g t <= total cs ->
  sample_between xa xextras p (timed_of (l_p0 g) (l_v0 g) (l_t0 g)) (timed_of (l_p1 g) (l_v1 g) (l_t1 g)) (XFin t) =
  Ok (fin (eval cu_q cs (leg_position g t)), fin (vscale (leg_velocity g t) (eval cu_t cs (leg_position g t)))).
Proof.
  intros L S. unfold sample_between, timed_of, lit_half. cbn [t_pos t_vel t_time xa asub aadd amul adiv a_of xsub xadd xopp xmul].
  rewrite !xdiv_fin by (try lra; apply Rmult_integral_contrapositive; split; lra). cbn [xsub xadd xopp xmul].
  match goal with |- context [GetConfig xa xextras p (XFin ?s)] => replace s with (leg_position g t) end.
  2: { unfold leg_position, leg_acceleration. unfold Rminus, Rdiv. rewrite Rmult_1_l. reflexivity. }
  destruct T as (_ & TR). destruct (TR _ S) as (-> & -> & _). cbn [bind]. f_equal. f_equal.
  etransitivity; [apply fin_scale|]. f_equal.
Qed.
End Sample.

Lemma position_exact tr g before after t : in_order tr ->
  tr_steps tr = before ++ timed_of (l_p0 g) (l_v0 g) (l_t0 g) :: timed_of (l_p1 g) (l_v1 g) (l_t1 g) :: after ->
  l_t0 g <= t < l_t1 g -> place xa tr (XFin t) = S (length before).
Proof.
  intros O E H. unfold place. destruct (rev (tr_steps tr)) as [|back rest] eqn:R.
  { apply (f_equal (@rev _)) in R. rewrite rev_involutive in R. rewrite R in E. destruct before; discriminate. }
  assert (LB : nth_error (tr_steps tr) (length (tr_steps tr) - 1) = Some back).
  { rewrite <- (rev_involutive (tr_steps tr)), R. cbn [rev]. rewrite app_length. cbn [length]. replace (_ + 1 - 1)%nat with (length (rev rest)) by lia.
    rewrite nth_error_app2 by lia. now rewrite Nat.sub_diag. }
  assert (L1 : nth_error (tr_steps tr) (S (length before)) = Some (timed_of (l_p1 g) (l_v1 g) (l_t1 g))).
  { rewrite E, nth_error_app2 by lia. replace (S (length before) - length before)%nat with 1%nat by lia. reflexivity. }
  assert (L0 : nth_error (tr_steps tr) (length before) = Some (timed_of (l_p0 g) (l_v0 g) (l_t0 g))).
  { rewrite E, nth_error_app2, Nat.sub_diag by lia. reflexivity. }
  destruct (aleb xa (t_time back) (XFin t)) eqn:B.
  - exfalso. assert (LE : xleb (XFin (l_t1 g)) (t_time back) = true).
    { apply (O (S (length before)) (length (tr_steps tr) - 1)%nat _ _) with (2 := L1) (3 := LB). rewrite E, app_length. cbn. lia. }
    pose proof (xle_trans _ _ _ LE B) as C. apply xleb_le in C. lra.
  - assert (P : forall l x r, (forall y, In y l -> xleb (t_time y) (XFin t) = true) -> xleb (t_time x) (XFin t) = false ->
      position xa (l ++ x :: r) (XFin t) = length l).
    { induction l as [|y l IH]; intros x r HL Hx; cbn [app position length].
      - change (aleb xa) with xleb. now rewrite Hx.
      - change (aleb xa) with xleb. rewrite HL by now left. f_equal. apply IH; auto. intros z Hz. apply HL. now right. }
    rewrite E. change (before ++ ?a :: ?b :: after) with (before ++ [a] ++ b :: after). rewrite app_assoc, P.
    + rewrite app_length. cbn. lia.
    + intros y Hy. apply in_app_or in Hy. destruct Hy as [Hy|[<-|[]]].
      * apply In_nth_error in Hy as (k & K). assert (KL : (k < length before)%nat) by (apply nth_error_Some; congruence).
        eapply xle_trans; [apply (O k (length before) y _) with (3 := L0); [lia|rewrite E, nth_error_app1 by exact KL; exact K]|].
        apply xleb_le. lra.
      * apply xleb_le. lra.
    + apply xleb_gt. lra.
Qed.

Lemma leg_bounds tr g : built xa tr -> in_order tr -> has_leg tr g -> 0 <= l_t0 g.
Proof.
  intros [_ F _] O (L & before & after & E).
  destruct (tr_steps tr) as [|x r] eqn:ES; [discriminate|]. injection F as ->.
  assert (H : xleb (XFin 0) (XFin (l_t0 g)) = true).
  { apply (O 0%nat (length before) (mkTimed (XFin 0) (XFin 0) (XFin 0)) (timed_of (l_p0 g) (l_v0 g) (l_t0 g))); [lia|now rewrite ES|].
    rewrite ES, E, nth_error_app2, Nat.sub_diag by lia. reflexivity. }
  now apply xleb_le in H.
Qed.

(** Between two steps. *)
Lemma answer_leg n tr cs g t : built xa tr -> in_order tr -> has_leg tr g -> traces (tr_path tr) cs -> cs <> [] -> Forall (good n) cs ->
  l_t0 g <= t < l_t1 g -> t < big -> 0 <= leg_position g t <= total cs ->
  sampled tr t (eval cu_q cs (leg_position g t)) (vscale (leg_velocity g t) (eval cu_t cs (leg_position g t))).
Proof.
  intros B O HL TR N G H HB S. pose proof (leg_bounds tr g B O HL) as P0. destruct HL as (L & before & after & E).
  unfold sampled. change xarith with xa. rewrite xfirst by (auto; apply ordinary_fin; lra).
  unfold spec_answer. rewrite (position_exact tr g before after t O E H). unfold raw_get.
  rewrite E at 1. rewrite nth_error_app2 by lia. replace (Datatypes.S (length before) - length before)%nat with 1%nat by lia. cbn [nth_error bind].
  rewrite E at 1. rewrite nth_error_app2, Nat.sub_diag by lia. cbn [nth_error bind].
  fold (timed_of (l_p0 g) (l_v0 g) (l_t0 g)). fold (timed_of (l_p1 g) (l_v1 g) (l_t1 g)).
  rewrite (sample_leg (tr_path tr) cs TR g t ltac:(lra) S). reflexivity.
Qed.
Lemma fin_inj u v : fin u = fin v -> u = v.
Proof. revert v. induction u as [|x u IH]; intros [|y v] H; try discriminate; auto. injection H as -> H. f_equal. now apply IH. Qed.
Lemma sampled_fun tr t q v q' v' : sampled tr t q v -> sampled tr t q' v' -> q = q' /\ v = v'.
Proof. unfold sampled. intros -> H. injection H as H K. apply fin_inj in H, K. auto. Qed.

Lemma leg_lim g t : derivable_pt_lim (leg_position g) t (leg_velocity g t).
Proof.
  unfold leg_position, leg_velocity. set (a := leg_acceleration g). apply is_derive_Reals. auto_derive; [trivial|]. field.
Qed.
Lemma leg_derivative n tr cs g t Q V : built xa tr -> in_order tr -> has_leg tr g -> traces (tr_path tr) cs -> cs <> [] -> Forall (good n) cs ->
  l_t0 g < t < l_t1 g -> t < big -> 0 < leg_position g t < total cs ->
  (forall k, (k < length cs)%nat -> leg_position g t <> total (firstn k cs)) ->
  (forall u, l_t0 g < u < l_t1 g -> 0 <= leg_position g u <= total cs -> sampled tr u (Q u) (V u)) ->
  forall i, derivable_pt_lim (fun u => nth i (Q u) 0) t (nth i (V t) 0).
Proof.
  intros B O HL TR N G H HB S J HQ i.
  assert (ED : derivable_pt_lim (fun s => nth i (eval cu_q cs s) 0) (leg_position g t) (nth i (eval cu_t cs (leg_position g t)) 0)).
  { apply (eval_derivative n); auto. eapply Forall_impl; [|exact G]. intros c (_ & _ & _ & _ & D & _). exact D. }
  pose proof (derivable_pt_lim_comp _ _ _ _ _ (leg_lim g t) ED) as C.
  assert (VT : nth i (V t) 0 = nth i (eval cu_t cs (leg_position g t)) 0 * leg_velocity g t).
  { destruct (sampled_fun tr t _ _ _ _ (HQ t H ltac:(lra)) (answer_leg n tr cs g t B O HL TR N G ltac:(lra) HB ltac:(lra))) as (_ & ->).
    rewrite nth_vscale. ring. }
  rewrite VT.
  assert (CT : exists d, 0 < d /\ forall u, Rabs (u - t) < d -> 0 <= leg_position g u <= total cs).
  { assert (CO : continuity_pt (leg_position g) t) by (apply derivable_continuous_pt; eexists; apply leg_lim).
    destruct (CO (Rmin (leg_position g t) (total cs - leg_position g t))) as (d & Hd & HD); [apply Rmin_glb_lt; lra|].
    exists d. split; [exact Hd|]. intros u Hu. destruct (Req_dec t u) as [<-|NE]; [lra|].
    assert (K : Rabs (leg_position g u - leg_position g t) < Rmin (leg_position g t) (total cs - leg_position g t)).
    { apply HD. split; [split; [exact I|exact NE]|exact Hu]. }
    pose proof (Rmin_l (leg_position g t) (total cs - leg_position g t)). pose proof (Rmin_r (leg_position g t) (total cs - leg_position g t)).
    apply Rabs_def2 in K. lra. }
  destruct CT as (d & Hd & CT).
  set (d' := Rmin d (Rmin (t - l_t0 g) (Rmin (l_t1 g - t) (big - t)))).
  assert (D' : 0 < d') by (unfold d'; repeat apply Rmin_glb_lt; lra).
  apply (lim_local (fun u => nth i (eval cu_q cs (leg_position g u)) 0) _ t _ d' D'); [|exact C].
  intros u Hu. assert (M : Rabs (u - t) < d /\ Rabs (u - t) < t - l_t0 g /\ Rabs (u - t) < l_t1 g - t /\ Rabs (u - t) < big - t).
  { unfold d' in Hu. repeat (apply Rmin_Rgt_l in Hu as (? & Hu)). repeat split; lra. }
  destruct M as (M1 & M2 & M3 & M4). specialize (CT u M1). apply Rabs_def2 in M2, M3, M4.
  destruct (sampled_fun tr u _ _ _ _ (HQ u ltac:(lra) CT) (answer_leg n tr cs g u B O HL TR N G ltac:(lra) ltac:(lra) CT)) as (-> & _). reflexivity.
Qed.

(** The ends of the motion. *)
Lemma timing_consecutive {A} (ar : arith A) : forall l x before a b after, x :: timing ar x l = before ++ a :: b :: after ->
  t_time b = aadd ar (t_time a) (adiv ar (asub ar (t_pos b) (t_pos a)) (adiv ar (aadd ar (t_vel b) (t_vel a)) (a_of ar 2))).
Proof.
  induction l as [|[q v] l IH]; intros x before a b after E; cbn [timing] in E.
  - destruct before as [|? [|? ?]]; discriminate.
  - destruct before as [|y before]; cbn [app] in E.
    + injection E as <- <- _. reflexivity.
    + injection E as _ E. eapply IH. exact E.
Qed.
Lemma parametrize_times {A} (ar : arith A) ex fuel ws vm am d dt tr : ParametrizePathTOTP ar ex fuel ws vm am d dt = Ok tr ->
  forall before a b after, tr_steps tr = before ++ a :: b :: after ->
  t_time b = aadd ar (t_time a) (adiv ar (asub ar (t_pos b) (t_pos a)) (adiv ar (aadd ar (t_vel b) (t_vel a)) (a_of ar 2))).
Proof.
  unfold ParametrizePathTOTP. intros H. binds H.
  repeat match type of H with (if ?c then _ else _) = Ok _ => destruct c; [discriminate|] end. binds H. injection H as <-.
  intros before a b after E'. cbn [tr_steps] in E'. unfold add_times in E'. destruct (rev r3) as [|[q v] l]; [destruct before; discriminate|].
  eapply timing_consecutive. exact E'.
Qed.
Lemma first_sample n dev ws tr cs g p : built xa tr -> in_order tr -> first_leg tr g ->
  tr_path tr = p -> traces p cs -> cs <> [] -> Forall (good n) cs -> eval cu_q cs 0 = hd [] ws -> (forall s, length (eval cu_t cs s) = n) ->
  well_posed n dev ws -> sampled tr 0 (hd [] ws) (repeat 0 n).
Proof.
  intros B O (L & after & E) EP TR N G E0 LT W. pose proof B as [_ F _]. rewrite E in F. injection F as P0 V0 T0.
  assert (P0' : l_p0 g = 0) by exact P0. assert (V0' : l_v0 g = 0) by exact V0. assert (T0' : l_t0 g = 0) by exact T0.
  assert (HL : has_leg tr g) by (split; [exact L|exists [], after; exact E]).
  assert (PS : leg_position g 0 = 0) by (unfold leg_position; rewrite P0', V0', T0'; ring).
  assert (VS : leg_velocity g 0 = 0) by (unfold leg_velocity; rewrite V0', T0'; ring).
  pose proof (total_nonneg n cs G). subst p.
  pose proof (answer_leg n tr cs g 0 B O HL TR N G ltac:(lra)) as A. rewrite PS, VS, E0 in A.
  replace (repeat 0 n) with (vscale 0 (eval cu_t cs 0)).
  - apply A; [unfold big; apply IZR_lt; reflexivity|lra].
  - clear A. assert (LS := LT 0). unfold vscale. rewrite <- LS. generalize (eval cu_t cs 0). induction l; cbn; [reflexivity|]. f_equal; [ring|assumption].
Qed.
Lemma last_sample fuel vm am dv dt (ws : list (list xr)) tr n cs g w : ParametrizePathTOTP xa xextras fuel ws vm am dv dt = Ok tr ->
  built xa tr -> last_two tr g -> traces (tr_path tr) cs -> cs <> [] -> Forall (good n) cs -> eval cu_q cs (total cs) = w ->
  (forall s, length (eval cu_t cs s) = n) ->
  0 <= l_t1 g < big -> Duration tr = Ok (XFin (l_t1 g)) /\ sampled tr (l_t1 g) w (repeat 0 n).
Proof.
  intros P B (L & before & E) TR N G EW LT HB. set (a := timed_of (l_p0 g) (l_v0 g) (l_t0 g)) in *. set (b := timed_of (l_p1 g) (l_v1 g) (l_t1 g)) in *.
  assert (RV : rev (tr_steps tr) = b :: a :: rev before) by (rewrite E, rev_app_distr; reflexivity).
  split; [unfold Duration; rewrite RV; reflexivity|].
  pose proof B as [_ _ (l & x & HL & _ & XP & XV)].
  assert (XB : x = b). { rewrite HL, rev_app_distr in RV. injection RV as -> _. reflexivity. } subst x.
  destruct TR as (LEN & TR). rewrite LEN in XP. injection XP as XP. cbn in XV. injection XV as XV.
  pose proof (parametrize_times _ _ _ _ _ _ _ _ _ P before a b [] E) as TM. cbn [a b timed_of t_time t_pos t_vel xa aadd adiv asub a_of xadd xsub xopp] in TM.
  rewrite xdiv_fin in TM by lra. assert (VN : l_v0 g <> 0).
  { intros Z. rewrite XV, Z in TM. replace ((0 + 0) / 2) with 0 in TM by field. unfold xdiv in TM. rewrite (Req_bool_true 0 0) in TM by reflexivity.
    destruct (Req_bool (l_p1 g + - l_p0 g) 0); cbn in TM; discriminate. }
  rewrite XV in TM. rewrite xdiv_fin in TM by lra. injection TM as TM.
  assert (TT : l_t1 g - l_t0 g = 2 * (l_p1 g - l_p0 g) / l_v0 g) by (rewrite TM; field; exact VN).
  assert (D0 : l_p1 g - l_p0 g <> 0). { intros Z. rewrite Z in TT. unfold Rdiv in TT. rewrite Rmult_0_r, Rmult_0_l in TT. lra. }
  assert (PS : leg_position g (l_t1 g) = l_p1 g) by (unfold leg_position, leg_acceleration; field; lra).
  assert (VS : leg_velocity g (l_t1 g) = 0).
  { unfold leg_velocity, leg_acceleration. rewrite TT. field. split; assumption. }
  unfold sampled. change xarith with xa. rewrite xfirst by (auto; apply ordinary_fin; lra).
  unfold spec_answer, place. rewrite RV. cbn [b timed_of t_time]. change (aleb xa (XFin (l_t1 g)) (XFin (l_t1 g))) with (xleb (XFin (l_t1 g)) (XFin (l_t1 g))).
  rewrite (proj2 (xleb_le _ _)) by lra. replace (length (tr_steps tr) - 1)%nat with (S (length before)) by (rewrite E, app_length; cbn; lia).
  unfold raw_get. rewrite E at 1. rewrite nth_error_app2 by lia. replace (Datatypes.S (length before) - length before)%nat with 1%nat by lia. cbn [nth_error bind].
  rewrite E at 1. rewrite nth_error_app2, Nat.sub_diag by lia. cbn [nth_error bind].
  pose proof (total_nonneg n cs G). unfold a, b. fold (timed_of (l_p0 g) (l_v0 g) (l_t0 g)). fold (timed_of (l_p1 g) (l_v1 g) (l_t1 g)). rewrite (sample_leg (tr_path tr) cs (conj LEN TR) g (l_t1 g) ltac:(lra)) by lra. cbn [bind fst snd].
  rewrite PS, VS, XP, EW. repeat f_equal.
  assert (LS := LT (total cs)). unfold vscale. rewrite <- LS. generalize (eval cu_t cs (total cs)). induction l0; cbn; [reflexivity|]. f_equal; [ring|assumption].
Qed.
Lemma eval_t_dim n cs s : cs <> [] -> Forall (good n) cs -> length (eval cu_t cs s) = n.
Proof.
  intros N G. revert s. induction cs as [|c [|c' r] IH]; intros s; [congruence| |]; inversion_clear G as [|? ? (_ & D & _) G2].
  - apply D.
  - rewrite eval_cons2. destruct (Rlt_dec s (cu_len c)); [apply D|]. apply IH; auto. discriminate.
Qed.
