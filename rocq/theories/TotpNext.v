(** The switching points of a time-optimal profile (C189). *)
From Coq Require Import Reals Lra List Bool Lia.
From Flocq Require Import Core.
From Verif Require Import Base MathModel MathLinModel TotpModel TotpScalar TotpRealSpec TotpReal TotpPathSpec TotpBlend TotpSwitchSpec TotpSwitch TotpNextSpec.
Import ListNotations.
Local Open Scope R_scope.
Notation xa := xarith.

Lemma lit_1e3_fin : lit_1e3 xa = XFin (/ 1000). Proof. unfold lit_1e3. cbn [adiv xarith a_of]. rewrite xdiv_fin by lra. f_equal. lra. Qed.
Lemma past_end len y : altb xa (asub xa (XFin len) (lit_eps xa)) (XFin y) = true <-> len - tiny < y.
Proof. rewrite tiny_lit. cbn. destruct (Rlt_bool_spec (len + - tiny) y); split; intros; try lra; try reflexivity; discriminate. Qed.
Lemma minus_tiny y : asub xa (XFin y) (lit_eps xa) = XFin (y - tiny). Proof. rewrite tiny_lit. reflexivity. Qed.
Lemma plus_tiny y : aadd xa (XFin y) (lit_eps xa) = XFin (y + tiny). Proof. rewrite tiny_lit. reflexivity. Qed.
Lemma minus_2tiny y : asub xa (XFin y) (amul xa (a_of xa 2) (lit_eps xa)) = XFin (y - 2 * tiny). Proof. rewrite tiny_lit. reflexivity. Qed.
Lemma plus_2tiny y : aadd xa (XFin y) (amul xa (a_of xa 2) (lit_eps xa)) = XFin (y + 2 * tiny). Proof. rewrite tiny_lit. reflexivity. Qed.

Ltac step E x := let Ex := fresh "E" x in match type of E with bind ?m _ = _ => destruct m as [x|?| |] eqn:Ex; cbn [bind] in E; try discriminate E end.

Section Next.
Variables (n : nat) (dev : R) (ws : list (list R)) (p : @path xr) (len : R) (pts : list (R * bool)) (su : @setup xr).
Hypothesis W : well_posed n dev ws.
Hypothesis MP : MakePath xa xextras (map fin ws) (XFin dev) = Ok p.
Hypothesis PL : path_length p = XFin len.
Hypothesis SW : switches_at p pts.
Hypothesis SP : su_path su = p.
Notation beyond := (beyond pts len).

Lemma next_is s : exists x f, PathNextSwitchingPoint xa (su_path su) (XFin s) = (XFin x, f) /\
  (x <= len - tiny -> beyond s x f) /\ (forall y g, beyond s y g -> x <= y /\ (y = x -> g = f)).
Proof.
  rewrite SP. destruct (path_next n dev ws p len pts W MP PL SW s) as (x & f & E & A & B). exists x, f. split; [exact E|].
  assert (T : 0 < tiny) by (unfold tiny; lra). split.
  - intros L. destruct A as [[A1 A2]|[A1 _]]; [|lra]. split; [exact A1|]. split; [lra|]. intros H. destruct (B x true H A2) as [_ C]. auto.
  - intros y g (Y1 & Y2 & Y3). destruct (B y g Y1 ltac:(lra)) as [C D]. split; [exact C|]. intros ->.
    destruct g, f; auto; exfalso.
    + specialize (D eq_refl eq_refl). discriminate.
    + destruct A as [[A1 A2]|[A1 _]]; [|lra]. specialize (Y3 A1). discriminate.
Qed.

Lemma next_acceleration : forall fuel s r, GetNextAccelerationSwitchingPoint xa xextras fuel su (XFin s) = Ok r ->
  match r with
  | Some q => exists y f, beyond s y f /\ acceleration_minimum su y f q /\ forall z g, beyond s z g -> z < y -> forall q', ~ acceleration_minimum su z g q'
  | None => forall z g, beyond s z g -> forall q', ~ acceleration_minimum su z g q'
  end.
Proof.
  induction fuel as [|fuel IH]; intros s r E; [discriminate|]. cbn [GetNextAccelerationSwitchingPoint] in E.
  destruct (next_is s) as (x & f & EN & BX & NX). rewrite EN in E. cbn iota beta in E. rewrite SP, PL in E.
  destruct (altb xa (asub xa (XFin len) (lit_eps xa)) (XFin x)) eqn:EP.
  { injection E as <-. apply past_end in EP. intros z g B q'. destruct (NX z g B) as [C _]. destruct B as (_ & D & _). lra. }
  assert (EP' : x <= len - tiny). { destruct (Rle_or_lt x (len - tiny)) as [H|H]; [exact H|]. apply past_end in H. congruence. }
  specialize (BX EP').
  (* what is left after a point that does not qualify *)
  assert (SKIP : (forall q, ~ acceleration_minimum su x f q) -> GetNextAccelerationSwitchingPoint xa xextras fuel su (XFin x) = Ok r ->
    match r with
    | Some q => exists y f, beyond s y f /\ acceleration_minimum su y f q /\ forall z g, beyond s z g -> z < y -> forall q', ~ acceleration_minimum su z g q'
    | None => forall z g, beyond s z g -> forall q', ~ acceleration_minimum su z g q'
    end).
  { intros NQ E'. specialize (IH x r E').
    assert (UP : forall z g, beyond s z g -> x < z -> beyond x z g) by (intros z g (A & B & C) L; split; [exact A|split; [lra|exact C]]).
    assert (AT : forall z g, beyond s z g -> ~ x < z -> forall q', ~ acceleration_minimum su z g q').
    { intros z g B L q'. destruct (NX z g B) as [C D]. assert (z = x) as -> by lra. rewrite (D eq_refl). apply NQ. }
    destruct r as [q|].
    - destruct IH as (y & f' & By & My & Ny). exists y, f'. destruct BX as (X1 & X2 & X3). destruct By as (Y1 & Y2 & Y3).
      split; [split; [exact Y1|split; [lra|exact Y3]]|]. split; [exact My|]. intros z g B L. destruct (Rlt_or_le x z) as [H|H]; [now apply Ny; [apply UP|]|apply AT; [exact B|lra]].
    - intros z g B. destruct (Rlt_or_le x z) as [H|H]; [now apply (IH z g), UP|apply AT; [exact B|lra]]. }
  assert (FOUND : forall q, r = Some q -> acceleration_minimum su x f q -> 
    match r with
    | Some q => exists y f, beyond s y f /\ acceleration_minimum su y f q /\ forall z g, beyond s z g -> z < y -> forall q', ~ acceleration_minimum su z g q'
    | None => forall z g, beyond s z g -> forall q', ~ acceleration_minimum su z g q'
    end).
  { intros q -> M. exists x, f. split; [exact BX|]. split; [exact M|]. intros z g B L. destruct (NX z g B) as [C _]. lra. }
  destruct f.
  - rewrite minus_tiny, plus_tiny, minus_2tiny, plus_2tiny in E.
    step E vb. step E va. cbv zeta in E. step E before. step E after.
    set (v := std_min xa vb va) in *.
    assert (Ev : v = (if xltb va vb then va else vb)) by reflexivity.
    step E lhs. step E rhs.
    destruct rhs.
    + injection E as <-. eapply FOUND; [reflexivity|]. apply (at_discontinuity su x vb va v before after Evb Eva Ev Ebefore Eafter).
      * destruct lhs; cbn [negb] in Erhs; [|discriminate Erhs]. change (altb xa) with xltb in Elhs. destruct (xltb va vb) eqn:C; [now left|right].
        step Elhs sl. step Elhs d. injection Elhs as Elhs. exists sl, d. auto.
      * destruct lhs; cbn [negb] in Erhs; [|discriminate Erhs]. change (altb xa) with xltb in Erhs. destruct (xltb vb va) eqn:C; [now left|right].
        step Erhs sl. step Erhs d. injection Erhs as Erhs. exists sl, d. auto.
    + apply SKIP; [|exact E]. intros q M. remember true as f0 eqn:Ef. destruct M as [vb0 va0 v0 b0 a0 A1 A2 A3 A4 A5 A6 A7|]; [|discriminate Ef].
      unfold accel_limit in A1, A2. rewrite Evb in A1. injection A1 as <-. rewrite Eva in A2. injection A2 as <-. rewrite <- Ev in A3. subst v0.
      destruct lhs; cbn [negb] in Erhs.
      * change (altb xa) with xltb in Erhs. destruct (xltb vb va) eqn:C; [discriminate Erhs|]. step Erhs sl. step Erhs d. injection Erhs as Erhs.
        destruct A7 as [A7|(sl' & d' & B1 & B2 & B3)]; [congruence|]. unfold steepest_ascent, accel_limit_slope in B1, B2. congruence.
      * change (altb xa) with xltb in Elhs. destruct (xltb va vb) eqn:C; [discriminate Elhs|]. step Elhs sl. step Elhs d. injection Elhs as Elhs.
        destruct A6 as [A6|(sl' & d' & B1 & B2 & B3)]; [congruence|]. unfold steepest_descent, accel_limit_slope in B1, B2. congruence.
  - rewrite minus_tiny, plus_tiny in E. step E v. step E lhs. step Elhs db. injection Elhs as Elhs. step E rhs.
    destruct rhs.
    + injection E as <-. destruct lhs; cbn [negb] in Erhs; [|discriminate Erhs]. step Erhs da. injection Erhs as Erhs.
      eapply FOUND; [reflexivity|]. exact (at_zero su x v db da Ev Edb Eda Elhs Erhs).
    + apply SKIP; [|exact E]. intros q M. remember false as f0 eqn:Ef. destruct M as [|v0 db0 da0 A1 A2 A3 A4 A5]; [discriminate Ef|].
      unfold accel_limit_slope in A2, A3. rewrite Edb in A2. injection A2 as <-. change (altb xa) with xltb in *. change (a_of xa 0) with (XFin 0) in *. destruct lhs; cbn [negb] in Erhs; [|congruence].
      step Erhs da. injection Erhs as Erhs. change (xltb (XFin 0) da = false) in Erhs. injection A3 as <-. congruence.
Qed.

Lemma minimum_position y f q : acceleration_minimum su y f q -> fst (fst (fst q)) = XFin y.
Proof. intros []; reflexivity. Qed.
Lemma minimum_once y f q q' : acceleration_minimum su y f q -> acceleration_minimum su y f q' -> q = q'.
Proof.
  intros M M'. destruct M as [vb va v b a A1 A2 A3 A4 A5 _ _|v db da A1 _ _ _ _].
  - remember true as f0 eqn:Ef. destruct M' as [vb0 va0 v0 b0 a0 B1 B2 B3 B4 B5 _ _|]; [|discriminate Ef].
    unfold accel_limit, least_acceleration, largest_acceleration in *. rewrite A1 in B1. injection B1 as <-. rewrite A2 in B2. injection B2 as <-. rewrite <- A3 in B3. subst v0.
    rewrite A4 in B4. rewrite A5 in B5. congruence.
  - remember false as f0 eqn:Ef. destruct M' as [|v0 db0 da0 B1 _ _ _ _]; [discriminate Ef|]. unfold accel_limit in *. congruence.
Qed.

Lemma candidates : forall fuel0 fuel cur s ended r, fst (fst (fst cur)) = XFin s ->
  acceleration_candidates xa xextras fuel0 fuel su cur = Ok (ended, r) ->
  (exists s', fst (fst (fst r)) = XFin s' /\ s <= s') /\
  (if ended then forall z g, beyond s z g -> forall q, ~ usable_minimum su z g q
   else exists y f, beyond s y f /\ usable_minimum su y f r /\ forall z g, beyond s z g -> z < y -> forall q', ~ usable_minimum su z g q').
Proof.
  intros fuel0. induction fuel as [|fuel IH]; intros cur s ended r Ec E; [discriminate|]. cbn [acceleration_candidates] in E. rewrite Ec in E.
  destruct (GetNextAccelerationSwitchingPoint xa xextras fuel0 su (XFin s)) as [o|e| |] eqn:EN; cbn [bind] in E; try discriminate E.
  pose proof (next_acceleration _ _ _ EN) as N. destruct o as [q|].
  - destruct N as (y & f & By & My & Ny). pose proof (minimum_position y f q My) as Ey. rewrite Ey in E.
    destruct (GetVelocityMaxPathVelocity xa xextras su (XFin y)) as [vmax|e| |] eqn:EV; cbn [bind] in E; try discriminate E.
    change (altb xa) with xltb in E. destruct (xltb vmax (snd (fst (fst q)))) eqn:C.
    + destruct (IH q y ended r Ey E) as [(s' & Es' & Ls') R]. split; [exists s'; split; [exact Es'|]; destruct By as (_ & By & _); lra|].
      assert (UP : forall z g, beyond s z g -> y < z -> beyond y z g) by (intros z g (A & B & D) L; split; [exact A|split; [lra|exact D]]).
      assert (NO : forall z g, beyond s z g -> ~ y < z -> forall q', ~ usable_minimum su z g q').
      { intros z g B L q' [M (vm & V & NV)]. destruct (Req_dec z y) as [->|D]; [|apply (Ny z g B ltac:(lra) q' M)].
        assert (g = f) as ->. { destruct g, f; auto; destruct B as (B1 & _ & B2), By as (Y1 & _ & Y2); [specialize (Y2 B1)|specialize (B2 Y1)]; discriminate. }
        rewrite (minimum_once y f q q' My M) in C. unfold speed_limit in V. rewrite EV in V. injection V as <-. contradiction. }
      destruct ended.
      * intros z g B. destruct (Rlt_or_le y z) as [H|H]; [apply R, UP; assumption|apply NO; [exact B|lra]].
      * destruct R as (y' & f' & B' & M' & N'). exists y', f'. destruct By as (_ & By & _).
        split; [destruct B' as (A & B & D); split; [exact A|split; [lra|exact D]]|]. split; [exact M'|]. intros z g B L.
        destruct (Rlt_or_le y z) as [H|H]; [apply N'; [apply UP; assumption|exact L]|apply NO; [exact B|lra]].
    + injection E as <- <-. split; [exists y; split; [exact Ey|]; destruct By as (_ & By & _); lra|]. exists y, f. split; [exact By|].
      split; [split; [exact My|]; exists vmax; split; [exact EV|congruence]|]. intros z g B L q' [M _]. exact (Ny z g B L q' M).
  - injection E as <- <-. split; [exists s; split; [exact Ec|lra]|]. intros z g B q [M _]. exact (N z g B q M).
Qed.

(** ** The speed limit curve *)
Lemma slopes s sl d : limit_slopes xa xextras su (XFin s) = Ok (sl, d) -> exists v, speed_limit su s v /\ steepest_descent su s v sl /\ speed_limit_slope su s d.
Proof.
  unfold limit_slopes. intros E. step E v. step E sl0. step E d0. injection E as <- <-. exists v. auto.
Qed.
Lemma scan : forall fuel start s r, (start = true -> rising su s) -> velocity_scan xa xextras fuel su start (XFin s) = Ok r ->
  exists y, r = XFin y /\ s < y /\ (y < len -> not_rising su y /\ (rising su (y - / 1000) \/ tangent su y)).
Proof.
  induction fuel as [|fuel IH]; intros start s r H E; [discriminate|]. cbn [velocity_scan] in E. rewrite lit_1e3_fin in E. cbn [aadd xarith xadd] in E.
  destruct (limit_slopes xa xextras su (XFin (s + / 1000))) as [[sl d]|e| |] eqn:ES; cbn [bind] in E; try discriminate E. cbn [snd fst] in E.
  destruct (slopes _ _ _ ES) as (v & V1 & V2 & V3). rewrite SP, PL in E. change (altb xa) with xltb in E. change (aleb xa) with xleb in E.
  set (start' := start || xleb d sl) in E.
  assert (X : exists again : bool, E = E /\ (if negb start' then Ok true else Ok (xltb d sl)) = Ok again /\
     (if again && xltb (XFin (s + / 1000)) (XFin len) then velocity_scan xa xextras fuel su start' (XFin (s + / 1000)) else Ok (XFin (s + / 1000))) = Ok r).
  { destruct start'; cbn [negb bind] in *; eexists; (split; [reflexivity|]); (split; [reflexivity|exact E]). }
  destruct X as (again & _ & EA & E'). clear E. destruct again; cbn [andb] in E'.
  - destruct (xltb (XFin (s + / 1000)) (XFin len)) eqn:EL.
    + destruct (IH start' (s + / 1000) r) as (y & -> & Ly & Hy); [|exact E'|exists y; split; [reflexivity|split; [lra|exact Hy]]].
      intros HS. rewrite HS in EA. cbn [negb] in EA. injection EA as EA. exists v, sl, d. auto.
    + injection E' as <-. exists (s + / 1000). split; [reflexivity|]. split; [lra|]. intros L. cbn in EL. destruct (Rlt_bool_spec (s + / 1000) len); [discriminate|lra].
  - injection E' as <-. exists (s + / 1000). split; [reflexivity|]. split; [lra|]. intros _.
    destruct start' eqn:HS; cbn [negb] in EA; [|discriminate]. injection EA as EA.
    split; [exists v, sl, d; repeat split; auto; congruence|].
    destruct start.
    + left. replace (s + / 1000 - / 1000) with s by lra. now apply H.
    + right. exists v, sl, d. unfold start' in HS. cbn [orb] in HS. repeat split; auto; congruence.
Qed.
Lemma bisect (P : R -> Prop) : forall fuel b a r, b <= a -> not_rising su a -> (rising su b \/ P b) ->
  velocity_bisect xa xextras fuel su (XFin b) (XFin a) = Ok r ->
  exists b' a', r = (XFin b', XFin a') /\ b <= b' /\ b' <= a' <= b' + tiny /\ a' <= a /\ not_rising su a' /\ (rising su b' \/ P b').
Proof.
  induction fuel as [|fuel IH]; intros b a r L N H E; [discriminate|]. cbn [velocity_bisect] in E. rewrite tiny_lit in E. cbn [asub aadd adiv altb a_of xarith xsub xopp xadd xltb] in E.
  destruct (Rlt_bool_spec tiny (a + - b)) as [T|T].
  - rewrite xdiv_fin in E by lra.
    destruct (limit_slopes xa xextras su (XFin ((b + a) / 2))) as [[sl d]|e| |] eqn:ES; cbn [bind] in E; try discriminate E. cbn [snd fst] in E.
    destruct (slopes _ _ _ ES) as (v & V1 & V2 & V3). change (altb xa) with xltb in E. destruct (xltb d sl) eqn:C.
    + destruct (IH ((b + a) / 2) a r) as (b' & a' & Er & A & B & D & F & G); [lra|exact N|left; exists v, sl, d; auto|exact E|].
      exists b', a'. repeat split; auto; lra.
    + destruct (IH b ((b + a) / 2) r) as (b' & a' & Er & A & B & D & F & G); [lra|exists v, sl, d; repeat split; auto; congruence|exact H|exact E|].
      exists b', a'. repeat split; auto; lra.
  - injection E as <-. exists b, a. split; [reflexivity|]. split; [lra|]. split; [lra|]. split; [lra|]. auto.
Qed.
Lemma next_velocity fuel s r : GetNextVelocitySwitchingPoint xa xextras fuel su (XFin s) = Ok r ->
  match r with Some q => exists y, fst (fst (fst q)) = XFin y /\ s - 2 / 1000 <= y /\ speed_switch su len q | None => True end.
Proof.
  unfold GetNextVelocitySwitchingPoint. rewrite lit_1e3_fin. cbn [asub xarith xsub xopp xadd]. intros E.
  destruct (velocity_scan xa xextras fuel su false (XFin (s + - / 1000))) as [o|e| |] eqn:EV; cbn [bind] in E; try discriminate E.
  apply scan in EV; [|discriminate]. destruct EV as (y & -> & Ly & Hy). rewrite SP, PL in E.
  change (aleb xa) with xleb in E. destruct (xleb (XFin len) (XFin y)) eqn:C; [injection E as <-; exact I|].
  assert (L : y < len). { unfold xleb in C. cbn in C. apply orb_false_iff in C as [C1 C2]. destruct (Rlt_bool_spec len y); [discriminate|]. destruct (Req_bool_spec len y); [discriminate|lra]. }
  destruct (Hy L) as [N K]. cbn [asub xarith xsub xopp xadd] in E.
  destruct (velocity_bisect xa xextras fuel su (XFin (y + - / 1000)) (XFin y)) as [ba|e| |] eqn:EB; cbn [bind] in E; try discriminate E.
  apply (bisect (fun b => tangent su (b + / 1000))) in EB; [|lra|exact N|].
  2:{ destruct K as [K|K]; [left; replace (y + - / 1000) with (y - / 1000) by lra; exact K|right; replace (y + - / 1000 + / 1000) with y by lra; exact K]. }
  destruct EB as (b & a & -> & A1 & A2 & A3 & A4 & A5). cbn [fst snd] in E.
  step E vb. step E before. step E va. step E after. injection E as <-. exists a. split; [reflexivity|]. split; [lra|].
  exists b, a, vb, va, before, after. split; [reflexivity|]. split; [exact A2|]. split; [lra|]. split; [exact A4|]. split; [exact A5|]. auto.
Qed.
Lemma velocity_candidate : forall fuel0 fuel z cur s ended r, fst (fst (fst cur)) = XFin s ->
  velocity_candidates xa xextras fuel0 fuel su (XFin z) cur = Ok (ended, r) -> ended = false ->
  speed_switch su len r /\ exists a, fst (fst (fst r)) = XFin a /\ (a <= z -> within_accel_limit su r).
Proof.
  intros fuel0. induction fuel as [|fuel IH]; intros z cur s ended r Ec E NE; [discriminate|]. cbn [velocity_candidates] in E. rewrite Ec in E.
  destruct (GetNextVelocitySwitchingPoint xa xextras fuel0 su (XFin s)) as [o|e| |] eqn:EN; cbn [bind] in E; try discriminate E.
  pose proof (next_velocity _ _ _ EN) as N. destruct o as [q|]; [|injection E as <- _; discriminate].
  destruct N as (y & Ey & Ly & S). destruct q as [[[pos vel] before] after]. cbn [fst snd] in *. subst pos. rewrite minus_tiny, plus_tiny in E.
  destruct (aleb xa (XFin y) (XFin z)) eqn:C.
  - step E again. destruct again; [eapply (IH z); [|exact E|exact NE]; reflexivity|]. injection E as _ <-.
    change (altb xa) with xltb in Eagain. step Eagain va. destruct (xltb va vel) eqn:C1; [discriminate Eagain|]. step Eagain vb. injection Eagain as C2. change (xltb vb vel = false) in C2.
    split; [exact S|]. exists y. split; [reflexivity|]. intros _. exists y, vel, va, vb. cbn [fst snd].
    split; [reflexivity|]. split; [exact Eva|]. split; [exact Evb|]. split; congruence.
  - cbn [bind] in E. injection E as _ <-. split; [exact S|]. exists y. split; [reflexivity|]. intros L. change (aleb xa) with xleb in C. unfold xleb in C. cbn in C. apply orb_false_iff in C as [C1 C2].
    destruct (Rlt_bool_spec y z); [discriminate|]. destruct (Req_bool_spec y z); [discriminate|lra].
Qed.

Lemma next_point_spec fuel s r : GetNextSwitchingPoint xa xextras fuel su (XFin s) = Ok r ->
  match r with
  | None => forall z g, beyond s z g -> forall q, ~ usable_minimum su z g q
  | Some q =>
    (exists y f, beyond s y f /\ usable_minimum su y f q /\ forall z g, beyond s z g -> z < y -> forall q', ~ usable_minimum su z g q') \/
    (speed_switch su len q /\ exists a, fst (fst (fst q)) = XFin a /\ forall z g, beyond s z g -> (exists q', usable_minimum su z g q') -> a < z /\ within_accel_limit su q)
  end.
Proof.
  unfold GetNextSwitchingPoint. intros E.
  destruct (acceleration_candidates xa xextras fuel fuel su (XFin s, a_of xa 0, a_of xa 0, a_of xa 0)) as [[ended ap]|e| |] eqn:EA; cbn [bind] in E; try discriminate E.
  set (cur := (XFin s, a_of xa 0, a_of xa 0, a_of xa 0)) in *.
  destruct (candidates fuel fuel cur s ended ap eq_refl EA) as [(s' & Es' & Ls') CA].
  destruct (velocity_candidates xa xextras fuel fuel su (fst (fst (fst ap))) cur) as [[vended vp]|e| |] eqn:EV; cbn [bind] in E; try discriminate E.
  rewrite Es' in EV. destruct (ended && vended) eqn:C0.
  { injection E as <-. apply andb_true_iff in C0 as [-> _]. exact CA. }
  destruct (negb ended && _) eqn:C1.
  - injection E as <-. apply andb_true_iff in C1 as [C1 _]. destruct ended; [discriminate C1|]. left. exact CA.
  - injection E as <-. right. assert (vended = false) as NV.
    { destruct vended; [|reflexivity]. destruct ended; cbn in *; discriminate. }
    destruct (velocity_candidate fuel fuel s' cur s vended vp eq_refl EV NV) as [S (a & Ea & Ha)]. split; [exact S|]. exists a. split; [exact Ea|].
    intros z g B [q' M]. subst vended. destruct ended; [exfalso; exact (CA z g B q' M)|].
    destruct CA as (y & f & By & My & Ny). pose proof (minimum_position y f ap (proj1 My)) as Ey. rewrite Es' in Ey. injection Ey as ->.
    cbn [negb andb orb] in C1. rewrite Es', Ea in C1. change (aleb xa) with xleb in C1. unfold xleb in C1. cbn in C1. apply orb_false_iff in C1 as [C2 C3].
    destruct (Rlt_bool_spec y a); [discriminate|]. destruct (Req_bool_spec y a); [discriminate|].
    assert (L : a < y) by lra. split; [|apply Ha; lra]. destruct (Rlt_or_le z y) as [LZ|LZ]; [exfalso; exact (Ny z g B LZ q' M)|lra].
Qed.
End Next.

(** ** Where integrating forward crosses a limit curve *)
Lemma over_limit_is su s v o : over_limit xa xextras su (XFin s) v = Ok o -> if o then above_limit su s v else within_limits su s v.
Proof.
  unfold over_limit. intros E. step E a. change (altb xa) with xltb in E. destruct (xltb a v) eqn:C.
  - injection E as <-. left. exists a. auto.
  - step E l. injection E as <-. change (altb xa) with xltb. destruct (xltb l v) eqn:D.
    + right. exists l. auto.
    + split; [exists a|exists l]; auto.
Qed.
Lemma crossing su : forall fuel b bv a av r, b <= a -> above_limit su a av ->
  forward_bisect xa xextras fuel su (XFin b) bv (XFin a) av = Ok r ->
  exists b' bv' a', r = (XFin b', bv', XFin a') /\ b <= b' /\ b' <= a' <= b' + tiny /\ a' <= a /\
    (exists av', above_limit su a' av') /\ (b' = b /\ bv' = bv \/ within_limits su b' bv').
Proof.
  induction fuel as [|fuel IH]; intros b bv a av r L H E; [discriminate|]. cbn [forward_bisect] in E. rewrite tiny_lit in E.
  unfold lit_half in E. cbn [asub aadd adiv amul altb a_of xarith xsub xopp xadd xltb] in E.
  destruct (Rlt_bool_spec tiny (a + - b)) as [T|T].
  - rewrite !xdiv_fin in E by lra. cbn [xmul] in E.
    step E vel. step E over. apply over_limit_is in Eover. destruct over.
    + destruct (IH b bv (1 / 2 * (b + a)) vel r) as (b' & bv' & a' & Er & A & B & D & F & G); [lra|exact Eover|exact E|].
      exists b', bv', a'. repeat split; auto; lra.
    + destruct (IH (1 / 2 * (b + a)) vel a av r) as (b' & bv' & a' & Er & A & B & D & F & G); [lra|exact H|exact E|].
      exists b', bv', a'. split; [exact Er|]. split; [lra|]. split; [lra|]. split; [lra|]. split; [exact F|]. right.
      destruct G as [[-> ->]|G]; assumption.
  - injection E as <-. exists b, bv, a. split; [reflexivity|]. split; [lra|]. split; [lra|]. split; [lra|]. split; [exists av; exact H|]. left. auto.
Qed.
