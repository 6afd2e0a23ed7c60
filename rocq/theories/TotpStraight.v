(** Trajectories on a straight path: the limits are the same everywhere, the forward
    integration runs into the end, and the backward integration from the end meets it. *)
From Coq Require Import Reals Lra Psatz List Bool Lia.
From Flocq Require Import Core.
From Verif Require Import Base MathModel MathReal MathLinModel MathVec TotpModel TotpProof TotpScalar TotpRealSpec TotpReal.
Local Open Scope R_scope.

Definition xs (s : R * R) : xr * xr := (XFin (fst s), XFin (snd s)).
(** Back first: positions increase strictly, velocities never decrease, and it starts at rest at 0. *)
Fixpoint mono (l : list (R * R)) : Prop :=
  match l with
  | (p2, v2) :: r =>
    match r with
    | (p1, v1) :: _ => p1 < p2 /\ v1 <= v2 /\ 0 < v2 /\ mono r
    | [] => p2 = 0 /\ v2 = 0
    end
  | [] => False
  end.
Lemma mono_cons a b r : mono (a :: b :: r) -> fst b < fst a /\ snd b <= snd a /\ 0 < snd a /\ mono (b :: r).
Proof. destruct a, b. cbn. auto. Qed.
Lemma mono_nonneg l : mono l -> Forall (fun s => 0 <= fst s /\ 0 <= snd s) l.
Proof.
  induction l as [|[p v] [|[p1 v1] r] IH]; intros M; [destruct M|destruct M as (-> & ->); repeat constructor; cbn; lra|].
  destruct M as (H1 & H2 & H3 & M). specialize (IH M). constructor; [|exact IH]. inversion_clear IH as [|? ? (I1 & I2) _]. cbn in *. lra.
Qed.
Lemma mono_top l p v : mono ((p, v) :: l) -> Forall (fun s => snd s <= v) ((p, v) :: l).
Proof.
  revert p v. induction l as [|[p1 v1] r IH]; intros p v M; [repeat constructor; cbn; lra|].
  destruct M as (H1 & H2 & H3 & M). specialize (IH _ _ M). constructor; [cbn; lra|]. eapply Forall_impl; [|exact IH]. cbn. intros; lra.
Qed.

Section Straight.
Variables (su : @setup xr) (V A L dt : R).
Hypothesis PV : 0 < V. Hypothesis PA : 0 < A. Hypothesis PL : 0 < L. Hypothesis PD : 0 < dt.
Hypothesis LEN : path_length (su_path su) = XFin L.
Hypothesis STEP : su_time_step su = XFin dt.
Hypothesis VMAX : forall s, GetVelocityMaxPathVelocity xa xextras su (XFin s) = Ok (XFin V).
Hypothesis AMAX : forall s v b, GetMinMaxPathAcceleration xa xextras su (XFin s) (XFin v) b = Ok (XFin (if b then A else - A)).
Hypothesis ACURVE : forall s, GetAccelerationMaxPathVelocity xa xextras su (XFin s) = Ok (XInf false).
Hypothesis VDERIV : forall s, GetVelocityMaxPathVelocityDeriv xa xextras su (XFin s) = Ok (XFin 0).

Definition quantum : R := dt * dt * A / 2.
Lemma quantum_pos : 0 < quantum. Proof. unfold quantum. assert (0 < dt * dt) by nra. assert (0 < dt * dt * A) by nra. lra. Qed.

Lemma follow_line f p v : 0 <= v -> follow xa xextras su (XFin f) (XFin p) (XFin v) = Ok (XFin (Rmin v V)).
Proof.
  intros H. unfold follow. rewrite VMAX. cbn [bind xa altb xltb]. destruct (Rlt_bool_spec V v) as [C|C]; [|now rewrite Rmin_left].
  unfold can_follow, limit_slopes. rewrite VMAX. cbn [bind]. unfold GetMinMaxPhaseSlope. rewrite AMAX. cbn [bind]. rewrite VDERIV. cbn [bind xa adiv].
  rewrite xdiv_fin by lra. cbn [fst snd aleb]. rewrite (proj2 (xleb_le _ _)).
  - cbn [bind]. now rewrite Rmin_right by lra.
  - assert (0 < A / V) by now apply Rdiv_lt_0_compat. replace (- A / V) with (- (A / V)) by (field; lra). lra.
Qed.
Lemma not_over p v : v <= V -> over_limit xa xextras su (XFin p) (XFin v) = Ok false.
Proof. intros H. unfold over_limit. rewrite ACURVE. cbn [bind xa altb xltb]. rewrite VMAX. cbn [bind xa altb xltb]. now rewrite Rlt_bool_false. Qed.

Lemma forward_step f0 f l p v : 0 <= v ->
  IntegrateForward_loop xa xextras f0 (S f) su [] l (XFin p) (XFin v) (XFin A) =
  let nv := v + dt * A in let np := p + dt * (1 / 2) * (v + nv) in
  if Rlt_bool L np then Ok (true, (XFin np, XFin nv) :: l)
  else IntegrateForward_loop xa xextras f0 f su [] ((XFin np, XFin (Rmin nv V)) :: l) (XFin np) (XFin (Rmin nv V)) (XFin A).
Proof.
  intros H. cbn [IntegrateForward_loop skip_discontinuities]. rewrite STEP, LEN. unfold lit_half. cbn [xa aadd amul adiv a_of]. rewrite xdiv_fin by lra.
  cbn [xadd xmul altb xltb xa]. cbv zeta. destruct (Rlt_bool L (p + dt * (1 / 2) * (v + (v + dt * A)))); [reflexivity|].
  assert (0 < dt * A) by nra. rewrite Rlt_bool_false by lra. rewrite follow_line by lra. cbn [bind]. rewrite AMAX. cbn [bind].
  rewrite not_over by apply Rmin_r. reflexivity.
Qed.
Lemma forward_line f0 : forall f l p v, mono ((p, v) :: l) -> v <= V -> p <= L -> L - p < INR f * quantum -> quantum * INR (length l) <= p ->
  exists pe ve p1 v1 r, IntegrateForward_loop xa xextras f0 f su [] (map xs ((p, v) :: l)) (XFin p) (XFin v) (XFin A) = Ok (true, map xs ((pe, ve) :: (p1, v1) :: r)) /\
    mono ((pe, ve) :: (p1, v1) :: r) /\ L < pe /\ p1 <= L /\ ve <= V + A * dt /\ quantum * INR (length r) <= p1.
Proof.
  pose proof quantum_pos as QP.
  induction f as [|f IH]; intros l p v M HV HP HF HQ; [cbn in HF; lra|]. pose proof (mono_nonneg _ M) as NN. inversion_clear NN as [|? ? (P0 & V0) _]. cbn in P0, V0.
  rewrite forward_step by exact V0. cbv zeta. assert (DA : 0 < dt * A) by nra. set (nv := v + dt * A). set (np := p + dt * (1 / 2) * (v + nv)).
  assert (GR : p + quantum <= np). { unfold np, nv, quantum. nra. }
  destruct (Rlt_bool_spec L np) as [C|C].
  - exists np, nv, p, v, l. split; [reflexivity|]. split; [|unfold nv in *; lra]. cbn [mono]. unfold nv in *. repeat split; try lra. exact M.
  - change ((XFin np, XFin (Rmin nv V)) :: map xs ((p, v) :: l)) with (map xs ((np, Rmin nv V) :: (p, v) :: l)).
    apply IH; [|apply Rmin_r|exact C|rewrite S_INR in HF; lra|cbn [length]; rewrite S_INR; lra].
    cbn [mono]. split; [lra|]. split; [apply Rmin_glb; unfold nv; lra|]. split; [apply Rmin_glb_lt; unfold nv; lra|exact M].
Qed.

(** With a time step of zero the forward integration never gets anywhere. *)
Lemma stuck f0 : dt = 0 -> forall f l, IntegrateForward_loop xa xextras f0 f su [] l (XFin 0) (XFin 0) (XFin A) = Diverge.
Proof.
  intros Z. induction f as [|f IH]; intros l; [reflexivity|]. cbn [IntegrateForward_loop skip_discontinuities]. rewrite STEP, LEN, Z.
  unfold lit_half. cbn [xa aadd amul adiv a_of]. rewrite xdiv_fin by lra. cbn [xadd xmul altb xltb xa].
  replace (0 + 0 * (1 / 2) * (0 + (0 + 0 * A))) with 0 by ring. replace (0 + 0 * A) with 0 by ring.
  rewrite (Rlt_bool_false L 0) by lra. rewrite (Rlt_bool_false 0 0) by lra. rewrite follow_line by lra. rewrite Rmin_left by lra. cbn [bind]. rewrite AMAX. cbn [bind].
  rewrite not_over by lra. apply IH.
Qed.

(** Going back. *)
Variable top : R.
Definition Fl (s1 s2 : R * R) (x : R) : R := snd s1 + (snd s2 - snd s1) / (fst s2 - fst s1) * (x - fst s1).
Definition Bl (pos vel slope x : R) : R := vel + slope * (x - pos).
Definition okv (s : R * R) : Prop := 0 <= fst s < L /\ 0 < snd s <= top.
(** Positions increase. *)
Fixpoint rising (l : list (R * R)) : Prop := match l with a :: ((b :: _) as r) => fst a < fst b /\ rising r | _ => True end.
Definition back_ok (back : list (R * R)) : Prop := exists b, back = b ++ [(L, 0)] /\ Forall okv b /\ rising back.

(** One intersection test. *)
Lemma test_line s1 s2 pos vel qf wf xr0 :
  fst s1 < fst s2 -> snd s1 <= snd s2 -> pos < qf -> 0 <= wf -> wf < vel ->
  let slope := (wf - vel) / (qf - pos) in let ss := (snd s2 - snd s1) / (fst s2 - fst s1) in
  let ip := (snd s1 - vel + slope * pos - ss * fst s1) / (slope - ss) in
  xr0 = Rmin (fst s2) qf -> Bl pos vel slope xr0 < Fl s1 s2 xr0 -> Rmax (fst s1) pos <= xr0 ->
  slope < 0 /\ 0 <= ss /\ Fl s1 s2 ip = Bl pos vel slope ip /\ ip < xr0 /\
  (Fl s1 s2 (Rmax (fst s1) pos) <= Bl pos vel slope (Rmax (fst s1) pos) -> Rmax (fst s1) pos <= ip) /\
  0 < Fl s1 s2 ip <= snd s2.
Proof.
  intros H1 H2 H3 H4 H5 slope ss ip HX HB HM.
  assert (SL : slope < 0).
  { unfold slope. assert (0 < (vel - wf) / (qf - pos)) by (apply Rdiv_lt_0_compat; lra). replace ((wf - vel) / (qf - pos)) with (- ((vel - wf) / (qf - pos))) by (field; lra). lra. }
  assert (SS : 0 <= ss) by (unfold ss, Rdiv; apply Rmult_le_pos; [lra|]; apply Rlt_le, Rinv_0_lt_compat; lra).
  assert (EQ : Fl s1 s2 ip = Bl pos vel slope ip). { unfold Fl, Bl. fold ss. unfold ip. field. lra. }
  assert (LT : forall x, Bl pos vel slope x - Fl s1 s2 x = (slope - ss) * (x - ip)).
  { intros x. transitivity (Bl pos vel slope x - Fl s1 s2 x - (Bl pos vel slope ip - Fl s1 s2 ip)); [rewrite EQ; ring|]. unfold Bl, Fl. fold ss. ring. }
  assert (IL : ip < xr0). { specialize (LT xr0). nra. }
  split; [exact SL|]. split; [exact SS|]. split; [exact EQ|]. split; [exact IL|]. split.
  { intros C. specialize (LT (Rmax (fst s1) pos)). nra. }
  pose proof (Rmin_l (fst s2) qf) as ML. pose proof (Rmin_r (fst s2) qf) as MR. split.
  - rewrite EQ. unfold Bl. assert (WF : wf = vel + slope * (qf - pos)) by (unfold slope; field; lra).
    assert (wf < vel + slope * (ip - pos)); [rewrite WF at 1; nra|lra].
  - assert (E2 : snd s2 = Fl s1 s2 (fst s2)) by (unfold Fl; field; lra). rewrite E2. unfold Fl. fold ss. assert (ip <= fst s2) by lra. nra.
Qed.


(** The second half of an iteration of IntegrateBackward. *)
Definition back_test (f : nat) (start2 start1 : xr * xr) (earlier back : list (xr * xr)) (pos vel acceleration slope : xr) : outcome (list (xr * xr)) :=
  let start_slope := adiv xa (asub xa (snd start2) (snd start1)) (asub xa (fst start2) (fst start1)) in
  let ip := adiv xa (asub xa (aadd xa (asub xa (snd start1) vel) (amul xa slope pos)) (amul xa start_slope (fst start1))) (asub xa slope start_slope) in
  do hit <- (if aleb xa (asub xa (std_max xa (fst start1) pos) (lit_eps xa)) ip then
               match back with
               | [] => UB
               | front :: _ => Ok (aleb xa ip (aadd xa (lit_eps xa) (std_min xa (fst start2) (fst front))))
               end
             else Ok false);
  if hit then Ok (rev_append back ((ip, aadd xa (snd start1) (amul xa start_slope (asub xa ip (fst start1)))) :: start1 :: earlier))
  else IntegrateBackward_loop xa xextras f su start2 start1 earlier back pos vel acceleration slope.
Lemma back_unfold f start2 start1 earlier back pos vel acceleration slope :
  IntegrateBackward_loop xa xextras (S f) su start2 start1 earlier back pos vel acceleration slope =
  if negb (match earlier with [] => true | _ => false end) || aleb xa (a_of xa 0) pos then
    if aleb xa (fst start1) pos then
      let new_vel := asub xa vel (amul xa (su_time_step su) acceleration) in
      let new_pos := asub xa pos (amul xa (amul xa (su_time_step su) (lit_half xa)) (aadd xa new_vel vel)) in
      do na <- GetMinMaxPathAcceleration xa xextras su new_pos new_vel false;
      if altb xa new_vel (a_of xa 0) then Throw RuntimeError
      else back_test f start2 start1 earlier ((pos, vel) :: back) new_pos new_vel na (adiv xa (asub xa vel new_vel) (asub xa pos new_pos))
    else match earlier with [] => UB | e :: r => back_test f start1 e r back pos vel acceleration slope end
  else Throw RuntimeError.
Proof.
  cbn [IntegrateBackward_loop]. destruct (negb _ || _); [|reflexivity]. destruct (aleb xa (fst start1) pos).
  - cbv zeta. match goal with |- (do s <- (do na <- ?G; _); _) = _ => destruct G end; cbn [bind]; try reflexivity.
    match goal with |- context [altb xa ?a ?b] => destruct (altb xa a b) end; reflexivity.
  - destruct earlier; reflexivity.
Qed.

Definition result_ok (R : list (xr * xr)) : Prop :=
  exists b x v r, R = map xs ((L, 0) :: b ++ (x, v) :: r) /\ Forall okv b /\ 0 < v <= top /\ x < L /\ mono r /\ Forall (fun s => snd s <= top) r /\
    exists qf wf rest p1 v1 r', rev b ++ [(L, 0)] = (qf, wf) :: rest /\ rising ((qf, wf) :: rest) /\ x < qf /\ 0 <= wf < v /\
      r = (p1, v1) :: r' /\ (p1 <= x \/ x < p1 <= qf /\ v <= v1) /\ (x = p1 -> v = v1).

Definition sweeping (s2 s1 : R * R) (back : list (R * R)) (pos vel slope : R) : Prop :=
  exists qf wf back', back = (qf, wf) :: back' /\ back_ok back /\ pos < qf <= L /\ 0 <= wf /\ vel = wf + dt * A /\ slope = (wf - vel) / (qf - pos) /\
     Rmax (fst s1) pos <= Rmin (fst s2) qf /\ Bl pos vel slope (Rmax (fst s1) pos) < Fl s1 s2 (Rmax (fst s1) pos).

Lemma test_next (f : nat) s2 s1 earlier back qf wf back' pos vel slope :
  mono (s2 :: s1 :: earlier) -> snd s2 <= top ->
  back = (qf, wf) :: back' -> back_ok back -> pos < qf <= L -> 0 <= wf -> vel = wf + dt * A -> slope = (wf - vel) / (qf - pos) ->
  Rmax (fst s1) pos <= Rmin (fst s2) qf -> Bl pos vel slope (Rmin (fst s2) qf) < Fl s1 s2 (Rmin (fst s2) qf) ->
  (sweeping s2 s1 back pos vel slope ->
    exists R, IntegrateBackward_loop xa xextras f su (xs s2) (xs s1) (map xs earlier) (map xs back) (XFin pos) (XFin vel) (XFin (- A)) (XFin slope) = Ok R /\ result_ok R) ->
  exists R, back_test f (xs s2) (xs s1) (map xs earlier) (map xs back) (XFin pos) (XFin vel) (XFin (- A)) (XFin slope) = Ok R /\ result_ok R.
Proof.
  intros M HT EB BO HP HW EV ES HM HB NEXT. destruct (mono_cons _ _ _ M) as (M1 & M2 & M3 & M4). assert (DA : 0 < dt * A) by nra.
  pose proof (test_line s1 s2 pos vel qf wf (Rmin (fst s2) qf) M1 M2 ltac:(lra) HW ltac:(lra)) as TL. cbv zeta in TL. rewrite <- ES in TL.
  destruct (TL eq_refl HB HM) as (SL & SS & EQ & IL & HIT & IV). clear TL.
  unfold back_test. cbn [xs fst snd]. cbn [xa adiv asub amul aadd aleb a_of]. rewrite !xsub_fin, xdiv_fin by lra.
  cbn [xmul xadd]. rewrite ?xsub_fin. cbn [xmul xadd xsub xopp]. unfold lit_eps. cbn [xa adiv a_of]. rewrite !xdiv_fin by lra.
  rewrite smax_fin. subst back. cbn [map xs fst snd]. rewrite smin_fin. cbn [xadd xsub xopp].
  match goal with |- context [XFin (?n / ?d)] => match n with context [slope * pos] => set (ip := n / d) end end.
  assert (EI : ip = (snd s1 - vel + slope * pos - (snd s2 - snd s1) / (fst s2 - fst s1) * fst s1) / (slope - (snd s2 - snd s1) / (fst s2 - fst s1))) by reflexivity.
  rewrite <- EI in *. clearbody ip. clear EI.
  assert (FI : snd s1 + (snd s2 - snd s1) / (fst s2 - fst s1) * (ip + - fst s1) = Fl s1 s2 ip) by reflexivity.
  assert (NX : (Bl pos vel slope (Rmax (fst s1) pos) < Fl s1 s2 (Rmax (fst s1) pos)) -> sweeping s2 s1 ((qf, wf) :: back') pos vel slope).
  { intros C. exists qf, wf, back'. repeat (split; [first [assumption|reflexivity|lra]|]). exact C. }
  assert (TINY : 0 < 1 / 1000000) by lra.
  destruct (xleb (XFin (Rmax (fst s1) pos + - (1 / 1000000))) (XFin ip)) eqn:C1; cbn [bind].
  - rewrite (proj2 (xleb_le _ _)) by lra. eexists. split; [reflexivity|]. destruct BO as (b & EB & FB & RB). unfold result_ok.
    exists (rev b), ip, (Fl s1 s2 ip), (s1 :: earlier). rewrite FI. split.
    + change (xs (qf, wf) :: map xs back') with (map xs ((qf, wf) :: back')). rewrite EB, rev_append_rev.
      rewrite <- map_rev, rev_app_distr. cbn [rev app]. rewrite !map_cons, map_app. reflexivity.
    + split; [now apply Forall_rev|]. split; [lra|]. pose proof (Rmin_r (fst s2) qf). split; [lra|]. split; [exact M4|].
      destruct s1 as [p1 v1]. split; [eapply Forall_impl; [|exact (mono_top _ _ _ M4)]; cbn in M2 |- *; intros; lra|].
      exists qf, wf, back', p1, v1, earlier. rewrite rev_involutive, <- EB. split; [reflexivity|]. split; [exact RB|]. split; [lra|]. split.
      { assert (WF : wf = vel + slope * (qf - pos)) by (rewrite ES; field; lra). split; [exact HW|]. rewrite EQ. unfold Bl. rewrite WF. nra. }
      split; [reflexivity|]. split; [|intros ->; unfold Fl; cbn [fst snd]; ring]. destruct (Rle_or_lt p1 ip) as [C2|C2]; [now left|right]. cbn [fst snd] in *. pose proof (Rmax_l p1 pos). pose proof (Rmin_r (fst s2) qf).
      split; [lra|]. unfold Fl. cbn [fst snd]. nra.
  - apply NEXT, NX. apply xleb_gt in C1. destruct (Rlt_or_le (Bl pos vel slope (Rmax (fst s1) pos)) (Fl s1 s2 (Rmax (fst s1) pos))) as [C|C]; [exact C|].
    specialize (HIT C). lra.
Qed.

Lemma backward_line : forall f s2 s1 earlier back pos vel slope,
  mono (s2 :: s1 :: earlier) -> snd s2 <= top ->
  (back = [] /\ pos = L /\ vel = 0 /\ fst s1 <= L < fst s2) \/ sweeping s2 s1 back pos vel slope ->
  Rmax pos (- quantum) + quantum * (INR (length earlier) + 1) < INR f * quantum ->
  exists R, IntegrateBackward_loop xa xextras f su (xs s2) (xs s1) (map xs earlier) (map xs back) (XFin pos) (XFin vel) (XFin (- A)) (XFin slope) = Ok R /\ result_ok R.
Proof.
  pose proof quantum_pos as QP. assert (DA : 0 < dt * A) by nra.
  induction f as [|f IH]; intros s2 s1 earlier back pos vel slope M HT ST HF.
  { exfalso. pose proof (pos_INR (length earlier)). cbn in HF. pose proof (Rmax_r pos (- quantum)). nra. }
  destruct (mono_cons _ _ _ M) as (M1 & M2 & M3 & M4). pose proof (mono_nonneg _ M4) as NN. inversion_clear NN as [|? ? (N1 & N2) NE].
  assert (POS : pos <= L /\ 0 <= vel /\ (fst s1 <= pos -> pos <= fst s2 /\ vel < Fl s1 s2 pos)).
  { destruct ST as [(_ & -> & -> & P)|(qf & wf & b & _ & _ & P & W & EV & ES & X & BF)].
    - repeat split; try lra. unfold Fl. destruct (Rle_lt_or_eq_dec _ _ N2) as [D|D].
      + assert (0 <= (snd s2 - snd s1) / (fst s2 - fst s1)) by (unfold Rdiv; apply Rmult_le_pos; [lra|]; apply Rlt_le, Rinv_0_lt_compat; lra). nra.
      + assert (E0 : fst s1 = 0).
        { destruct earlier as [|e r]; [destruct s1; cbn in M4 |- *; lra|]. destruct (mono_cons _ _ _ M4) as (_ & _ & ? & _). lra. }
        assert (0 < (snd s2 - snd s1) / (fst s2 - fst s1)) by (apply Rdiv_lt_0_compat; lra). nra.
    - pose proof (Rmin_l (fst s2) qf). pose proof (Rmin_r (fst s2) qf). repeat split; try lra.
      + pose proof (Rmax_r (fst s1) pos). lra.
      + rewrite Rmax_right in BF by assumption. unfold Bl in BF. lra. }
  destruct POS as (PL1 & V0 & HS).
  rewrite back_unfold, STEP. cbn [xa aleb a_of xs fst].
  assert (GUARD : negb (match map xs earlier with [] => true | _ => false end) || xleb (XFin 0) (XFin pos) = true).
  { destruct earlier as [|e r]; [|reflexivity]. cbn [map negb orb]. apply xleb_le. destruct (Rle_or_lt 0 pos) as [|C]; [assumption|exfalso].
    destruct s1 as [p1 v1]. cbn in M4. destruct M4 as (-> & ->). cbn [fst snd] in *.
    destruct ST as [(_ & -> & _)|(qf & wf & b & _ & _ & P & W & EV & ES & X & BF)]; [lra|].
    cbn [fst] in X, BF. rewrite Rmax_left in BF, X by lra. pose proof (Rmin_r (fst s2) qf). unfold Bl, Fl in BF. cbn [fst snd] in BF.
    assert (WF : wf = vel + slope * (qf - pos)) by (rewrite ES; field; lra).
    assert (SL : slope < 0).
    { rewrite ES. assert (0 < (vel - wf) / (qf - pos)) by (apply Rdiv_lt_0_compat; lra). replace ((wf - vel) / (qf - pos)) with (- ((vel - wf) / (qf - pos))) by (field; lra). lra. }
    nra. }
  rewrite GUARD. destruct (xleb (XFin (fst s1)) (XFin pos)) eqn:C.
  - apply xleb_le in C. destruct (HS C) as (P2 & VF). unfold lit_half. cbn [xa adiv a_of]. rewrite xdiv_fin by lra. cbn [xa asub amul aadd xsub xmul xopp xadd]. cbv zeta.
    set (nv := vel + - (dt * - A)). set (np := pos + - (dt * (1 / 2) * (nv + vel))). rewrite AMAX. cbn [bind xa altb xltb a_of].
    assert (ENV : nv = vel + dt * A) by (unfold nv; ring). rewrite Rlt_bool_false by lra.
    assert (DROP : np <= pos - quantum). { unfold np, quantum. rewrite ENV. nra. }
    rewrite xdiv_fin by lra.
    change ((XFin pos, XFin vel) :: map xs back) with (map xs ((pos, vel) :: back)).
    apply (test_next f s2 s1 earlier ((pos, vel) :: back) pos vel back np nv).
    + exact M.
    + exact HT.
    + reflexivity.
    + destruct ST as [(-> & -> & -> & P)|(qf & wf & b & EB & (b0 & E0 & F0 & R0) & P & W & EV & ES & X & BF)].
      * exists []. split; [reflexivity|split; [constructor|exact I]].
      * exists ((pos, vel) :: b0). split; [cbn; now rewrite <- E0|]. split; [|cbn [rising]; rewrite EB; split; [cbn; lra|rewrite <- EB; exact R0]]. constructor; [|exact F0]. unfold okv. cbn [fst snd]. split; [lra|].
        split; [lra|]. assert (Fl s1 s2 pos <= snd s2); [|lra].
        assert (E2 : snd s2 = Fl s1 s2 (fst s2)) by (unfold Fl; field; lra). rewrite E2. unfold Fl.
        assert (0 <= (snd s2 - snd s1) / (fst s2 - fst s1)) by (unfold Rdiv; apply Rmult_le_pos; [lra|]; apply Rlt_le, Rinv_0_lt_compat; lra). nra.
    + lra.
    + exact V0.
    + exact ENV.
    + reflexivity.
    + rewrite Rmin_right by lra. apply Rmax_lub; lra.
    + rewrite Rmin_right by lra. unfold Bl. replace (nv + (vel + - nv) / (pos + - np) * (pos - np)) with vel by (field; lra). exact VF.
    + intros SW. apply IH; [exact M|exact HT|right; exact SW|].
      assert (MX : Rmax np (- quantum) <= Rmax pos (- quantum) - quantum).
      { rewrite (Rmax_left pos) by lra. apply Rmax_lub; lra. }
      rewrite S_INR in HF. lra.
  - apply xleb_gt in C. destruct ST as [(_ & -> & _ & P)|SW]; [lra|].
    destruct earlier as [|e r].
    { exfalso. destruct s1 as [p1 v1]. cbn in M4. destruct M4 as (-> & ->). cbn [map negb orb fst] in *. apply xleb_le in GUARD. lra. }
    cbn [map]. destruct SW as (qf & wf & b & EB & BO & P & W & EV & ES & X & BF). destruct (mono_cons _ _ _ M4) as (K1 & K2 & K3 & K4).
    rewrite Rmax_left in X, BF by lra. pose proof (Rmin_r (fst s2) qf). pose proof (Rmin_l (fst s2) qf).
    assert (MM : Rmin (fst s1) qf = fst s1) by (apply Rmin_left; lra).
    apply (test_next f s1 e r back qf wf b pos vel slope); auto; [lra| | |].
    + rewrite MM. apply Rmax_lub; lra.
    + rewrite MM. unfold Fl at 1. replace (snd e + (snd s1 - snd e) / (fst s1 - fst e) * (fst s1 - fst e)) with (snd s1) by (field; lra).
      unfold Fl in BF. replace (fst s1 - fst s1) with 0 in BF by ring. lra.
    + intros SW. apply IH; [exact M4|lra|right; exact SW|]. cbn [length] in HF. rewrite !S_INR in HF. lra.
Qed.
End Straight.
