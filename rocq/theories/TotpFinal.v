(** The theorems about trajectories, put together. *)
From Coq Require Import Reals Lra Psatz List Bool Lia.
From Flocq Require Import Core BinarySingleNaN.
From Verif Require Import Base Double DoubleFacts MathModel MathReal MathLinModel MathVec MathLinProof TotpModel TotpSpec TotpProof TotpQuery
  TotpScalar TotpDouble TotpRealSpec TotpReal TotpLimits TotpArc TotpPathSpec TotpPath TotpChain TotpPoly TotpGeometry TotpMotionSpec TotpSample TotpDerive TotpLine TotpExample TotpRefute.
Local Open Scope R_scope.

(** ** Doubles *)
Section D.
Variable m : trig.
Notation DX := (dextras m).
Notation da := double_arith.
Lemma d01 : aleb da (a_of da 0) (a_of da 1) = true. Proof. vm_compute. reflexivity. Qed.
Lemma double_built fuel ws vm am dev dt tr : ParametrizePathTOTP da DX fuel ws vm am dev dt = Ok tr -> built da tr.
Proof. apply parametrize_built. exact d01. Qed.
Lemma double_history fuel ws vm am dev dt tr ops h :
  ParametrizePathTOTP da DX fuel ws vm am dev dt = Ok tr -> legal da DX [0%nat] ops -> existsb drops ops = false ->
  run_ops da DX (only DX tr) ops = Ok h ->
  forall id t, In id (alive [0%nat] ops) -> ordinary da DX t -> answer da DX h id t = first_answer da DX tr t.
Proof.
  intros P LG ND RN id t I O. apply double_built in P.
  destruct (run_shared da DX d01 dle_trans dle_total dle_num dle_not tr P ops [0%nat] (only DX tr) (only_ok _ _ _ _) LG ND) as (h' & E & HO).
  rewrite RN in E. injection E as <-.
  apply (answers da DX d01 dle_trans dle_total dle_num dle_not tr P _ _ _ HO); auto.
Qed.
Lemma double_answered fuel ws vm am dev dt tr t :
  ParametrizePathTOTP da DX fuel ws vm am dev dt = Ok tr -> ordinary da DX t -> exists q v, first_answer da DX tr t = Ok (q, v, t).
Proof.
  intros P O. apply double_built in P. rewrite (first_answer_spec da DX d01 dle_trans dle_total dle_num dle_not tr P t O).
  now apply spec_answer_ok; [exact d01| |].
Qed.
Lemma double_clones fuel ws vm am dev dt tr ops :
  ParametrizePathTOTP da DX fuel ws vm am dev dt = Ok tr -> legal da DX [0%nat] ops -> clones_unsampled [] ops ->
  exists h, run_ops da DX (only DX tr) ops = Ok h /\
  forall id t, In id (alive [0%nat] ops) -> ordinary da DX t -> answer da DX h id t = first_answer da DX tr t.
Proof.
  intros P LG CL. apply double_built in P.
  destruct (run_own da DX d01 dle_trans dle_total dle_num dle_not tr P ops [0%nat] [] (only DX tr) (only_ok _ _ _ _)) as (h & E & HO); auto.
  { intros id [<-|[]] _. eexists. split; reflexivity. }
  exists h. split; [exact E|]. intros id t I O.
  apply (answers da DX d01 dle_trans dle_total dle_num dle_not tr P _ _ _ HO); auto. intros i o Hi <-. exact Hi.
Qed.
Lemma dlt_dle a b : dlt a b = true -> dle b a = false.
Proof.
  destruct (is_finite a) eqn:Fa, (is_finite b) eqn:Fb.
  1: { intros H. destruct (dle b a) eqn:E; [|reflexivity]. apply dlt_R in H; auto. apply dle_R in E; auto. lra. }
  all: destruct a as [[]|[]| |[]], b as [[]|[]| |[]]; try discriminate; cbn; auto.
Qed.
Lemma double_negative fuel ws vm am dev dt tr t d :
  ParametrizePathTOTP da DX fuel ws vm am dev dt = Ok tr -> Duration tr = Ok d -> dlt t d = true -> dlt t d0 = true ->
  is_finite t = true -> first_answer da DX tr t = UB.
Proof.
  intros P D L N F. apply double_built in P. unfold first_answer, answer.
  rewrite (negative_undefined da DX tr P (only DX tr) 0 (fresh_object DX tr) t); auto.
  - intros back rest R. unfold Duration in D. rewrite R in D. injection D as <-. now apply dlt_dle.
  - change (dlt t dmax = true). apply dlt_R; auto.
    apply dlt_R in N; auto. assert (dle d0 dmax = true) by (vm_compute; reflexivity). apply dle_R in H; [|reflexivity|vm_compute; reflexivity]. lra.
  - change (dle d0 t = false). now apply dlt_dle.
Qed.
Lemma refused fuel ws vm am dev dt :
  ((length ws < 2)%nat \/ is_finite dev = false -> ParametrizePathTOTP da DX fuel ws vm am dev dt = Throw InvalidArgument) /\
  (forall p, MakePath da DX ws dev = Ok p ->
    (exists x, In x vm /\ is_finite x = false) \/ (exists x, In x am /\ is_finite x = false) \/ is_finite dt = false ->
    ParametrizePathTOTP da DX fuel ws vm am dev dt = Throw InvalidArgument).
Proof.
  assert (NF : forall l, (exists x, In x l /\ is_finite x = false) -> forallb (e_finite DX) l = false).
  { intros l (x & I & F). apply not_true_iff_false. rewrite forallb_forall. intros H. specialize (H x I). cbn in H. unfold double in *. congruence. }
  split.
  - intros H. unfold ParametrizePathTOTP, MakePath. destruct ws as [|a [|b r]]; [reflexivity..|].
    destruct H as [H|H]; [cbn in H; lia|]. cbn [e_finite dextras]. unfold double in *. rewrite H. reflexivity.
  - intros p E H. unfold ParametrizePathTOTP. rewrite E. cbn [bind].
    destruct (forallb (e_finite DX) vm) eqn:E1; [|reflexivity]. destruct (forallb (e_finite DX) am) eqn:E2; [|reflexivity]. cbn [negb].
    destruct H as [H|[H|H]]; [apply NF in H; congruence|apply NF in H; congruence|]. cbn [e_finite dextras]. unfold double in *. rewrite H. reflexivity.
Qed.

(** *** What was computed *)
Lemma deq_num x y : deq x y = true -> is_finite y = true -> is_finite x = true /\ B2R x = B2R y.
Proof.
  intros H F. assert (Fx : is_finite x = true) by (destruct x as [[]|[]| |[]], y as [[]|[]| |[]]; try discriminate; reflexivity).
  split; [exact Fx|]. unfold deq in H. rewrite Beqb_correct in H by assumption. now apply Req_bool_true_iff || (destruct (Req_bool_spec (B2R x) (B2R y)); [assumption|discriminate]).
Qed.
Lemma deq_diff x y a b : deq x a = true -> deq y b = true -> is_finite a = true -> is_finite b = true -> deq a b = false -> x <> y.
Proof.
  intros H K Fa Fb N ->. destruct (deq_num _ _ H Fa) as (_ & H1). destruct (deq_num _ _ K Fb) as (_ & K1).
  unfold deq in N. rewrite Beqb_correct in N by assumption. rewrite <- H1, <- K1 in N. now rewrite Req_bool_true in N.
Qed.
Lemma ord_half : ordinary da DX dhalf. Proof. split; vm_compute; reflexivity. Qed.
Lemma ord_three_halves : ordinary da DX three_halves. Proof. split; vm_compute; reflexivity. Qed.
Lemma ord_3 : ordinary da DX (d_of_Z 3). Proof. split; vm_compute; reflexivity. Qed.
Lemma answer_time h id t p w t' : answer da DX h id t = Ok (p, w, t') -> t' = t.
Proof.
  intros E. unfold answer in E. destruct (GetPositionVelocityTimePoint da DX h id t) as [[r h']| | |] eqn:G; try discriminate. cbn in E. injection E as ->.
  unfold GetPositionVelocityTimePoint in G. destruct (h id); [|discriminate]. binds G. destruct r as [[l k] c]. destruct k; [discriminate|]. binds G.
  repeat match type of G with (if ?c then _ else _) = Ok _ => destruct c; [discriminate|] end. injection G as _ _ <- _. reflexivity.
Qed.
Lemma shows_inv h id t q v : shows (answer da DX h id t) q v = true ->
  exists q' v', answer da DX h id t = Ok ([q'], [v'], t) /\ deq q' q = true /\ deq v' v = true.
Proof.
  unfold shows. destruct (answer da DX h id t) as [[[p w] t']| | |] eqn:E; try discriminate. intros H. apply andb_true_iff in H as (H1 & H2).
  unfold one_is in *. destruct p as [|q' [|? ?]]; try discriminate. destruct w as [|v' [|? ?]]; try discriminate.
  rewrite (answer_time _ _ _ _ _ _ E). eauto 6.
Qed.
Lemma history_refuted : exists tr h t1 t2 t q v q' v',
  simple m = Ok tr /\ run_ops da DX (only DX tr) [Sample 0 t1; Sample 0 t2] = Ok h /\ ordinary da DX t /\
  answer da DX h 0 t = Ok ([q], [v], t) /\ first_answer da DX tr t = Ok ([q'], [v'], t) /\ q <> q' /\ v <> v'.
Proof.
  pose proof (history_true m) as H. unfold probe_history in H. destruct (simple m) as [tr| | |]; try discriminate.
  destruct (run_ops da DX (only DX tr) [Sample 0 three_halves; Sample 0 dnan]) as [h| | |] eqn:E; try discriminate.
  apply andb_true_iff in H as (H1 & H2). apply shows_inv in H1 as (q & v & A1 & Q1 & V1). apply shows_inv in H2 as (q' & v' & A2 & Q2 & V2).
  exists tr, h, three_halves, dnan, dhalf, q, v, q', v'. repeat (split; [first [reflexivity|exact E|exact ord_half|exact A1|exact A2]|]). split.
  - eapply deq_diff; [exact Q1|exact Q2|vm_compute; reflexivity..].
  - eapply deq_diff; [exact V1|exact V2|vm_compute; reflexivity..].
Qed.
Lemma nan_refuted : exists tr, simple m = Ok tr /\ first_answer da DX tr dnan = UB.
Proof.
  pose proof (nan_true m) as H. unfold probe_nan in H. destruct (simple m) as [tr| | |]; try discriminate. exists tr. split; [reflexivity|].
  destruct (first_answer _ _ _ _); try discriminate. reflexivity.
Qed.
Lemma clone_refuted : exists tr h t1 t r, simple m = Ok tr /\ ordinary da DX t1 /\ ordinary da DX t /\
  run_ops da DX (only DX tr) [Sample 0 t1; Copy 0 1; Drop 0] = Ok h /\ answer da DX h 1 t = UB /\ first_answer da DX tr t = Ok r.
Proof.
  pose proof (clone_true m) as H. unfold probe_clone in H. destruct (simple m) as [tr| | |]; try discriminate.
  destruct (run_ops da DX (only DX tr) [Sample 0 dhalf; Copy 0 1; Drop 0]) as [h| | |] eqn:E; try discriminate.
  apply andb_true_iff in H as (H1 & H2). destruct (answer da DX h 1 three_halves) eqn:A; try discriminate. destruct (first_answer da DX tr three_halves) as [r| | |] eqn:B; try discriminate.
  exists tr, h, dhalf, three_halves, r. split; [reflexivity|]. split; [exact ord_half|]. split; [exact ord_three_halves|]. auto.
Qed.
Lemma histories_exist : (exists tr, simple m = Ok tr) /\
  legal da DX [0%nat] [Sample 0 three_halves; Copy 0 1; Sample 1 dhalf] /\
  legal da DX [0%nat] [Copy 0 1; Sample 1 dhalf; Drop 0; Sample 1 three_halves] /\
  clones_unsampled (A := double) [] [Copy 0 1; Sample 1 dhalf; Drop 0; Sample 1 three_halves].
Proof.
  split; [|split; [|split]].
  - destruct nan_refuted as (tr & E & _). eauto.
  - pose proof ord_half. pose proof ord_three_halves. cbn [legal In]. intuition lia.
  - pose proof ord_half. pose proof ord_three_halves. cbn [legal In remove]. destruct (Nat.eq_dec 0 1); [lia|]. destruct (Nat.eq_dec 0 0); [|lia]. cbn [In]. intuition lia.
  - cbn. intuition.
Qed.
Lemma is_ub o : is_undefined o = true -> o = UB.
Proof. destruct o; try discriminate. reflexivity. Qed.
Lemma crooked_inv (o : outcome (@trajectory double)) : is_crooked m o = true ->
  exists tr q v w t, o = Ok tr /\ first_answer da DX tr (d_of_Z 2) = Ok (q, [v; w], t) /\ dlt (d_of_Z 1) w = true.
Proof.
  unfold is_crooked. destruct o as [tr| | |]; try discriminate. intros H.
  destruct (first_answer da DX tr (d_of_Z 2)) as [[[q l] t]| | |] eqn:A; try discriminate. destruct l as [|v [|w [|? ?]]]; try discriminate.
  apply andb_true_iff in H as (_ & H). exists tr, q, v, w, t. auto.
Qed.
Lemma sizes_refuted : let z := d_of_Z in
  ParametrizePathTOTP da DX 10 [[z 0%Z; z 0%Z]; [z 1%Z; z 1%Z]] [z 1%Z; z 1%Z] [z 1%Z] (z 0%Z) (z 1%Z) = UB /\
  ParametrizePathTOTP da DX 10 [[z 0%Z]; [z 1%Z]] [z 1%Z; z 1%Z] [z 1%Z; z 1%Z] (z 0%Z) (z 1%Z) = UB /\
  exists tr q v w t, ParametrizePathTOTP da DX 10 [[z 0%Z; z 0%Z]; [z 3%Z; z 4%Z]] [z 1%Z] [z 1%Z] (z 0%Z) (z 1%Z) = Ok tr /\
    first_answer da DX tr (z 2%Z) = Ok (q, [v; w], t) /\ dlt (z 1%Z) w = true.
Proof.
  cbv zeta. pose proof (sizes_true m) as H. unfold probe_sizes in H. apply andb_true_iff in H as (H & H3). apply andb_true_iff in H as (H1 & H2).
  split; [exact (is_ub _ H1)|]. split; [exact (is_ub _ H2)|]. exact (crooked_inv _ H3).
Qed.
Lemma lt_of_deq x a y : deq x a = true -> is_finite a = true -> is_finite y = true -> dlt a y = true -> dlt x y = true.
Proof. intros H Fa Fy L. destruct (deq_num _ _ H Fa) as (Fx & E). apply dlt_R in L; auto. apply dlt_R; auto. lra. Qed.
Lemma after_refuted : exists tr d q v t, simple m = Ok tr /\ Duration tr = Ok d /\ dlt d t = true /\ ordinary da DX t /\
  first_answer da DX tr t = Ok ([q], [v], t) /\ dlt q (d_of_Z 1) = true /\ dlt v d0 = true.
Proof.
  pose proof (after_true m) as H. unfold probe_after in H. destruct (simple m) as [tr| | |]; try discriminate. apply andb_true_iff in H as (H1 & H2).
  destruct (Duration tr) as [d| | |] eqn:D; try discriminate. apply shows_inv in H2 as (q & v & A & Q & V).
  exists tr, d, q, v, (d_of_Z 3). split; [reflexivity|]. split; [exact D|]. split; [eapply lt_of_deq; [exact H1|vm_compute; reflexivity..]|]. split; [exact ord_3|]. split; [exact A|].
  split; [eapply lt_of_deq; [exact Q|vm_compute; reflexivity..]|eapply lt_of_deq; [exact V|vm_compute; reflexivity..]].
Qed.
Lemma fast_inv (o : outcome (@trajectory double)) x : is_fast m o x = true ->
  exists tr d t q v, o = Ok tr /\ Duration tr = Ok d /\ dlt t d = true /\ first_answer da DX tr t = Ok (q, [v], t) /\ dlt (dmul (d_of_Z 4) tenth) v = true.
Proof.
  unfold is_fast. destruct o as [tr| | |]; try discriminate. intros H. apply andb_true_iff in H as (H1 & H2). destruct (Duration tr) as [d| | |] eqn:D; try discriminate.
  destruct (first_answer da DX tr x) as [[[q l] t]| | |] eqn:A; try discriminate. destruct l as [|v [|? ?]]; try discriminate.
  pose proof (answer_time _ _ _ _ _ _ A). subst t. exists tr, d, x, q, v. auto.
Qed.
Lemma fast_refuted : exists tr d t q v,
  ParametrizePathTOTP da DX 10 [[d_of_Z 0]; [thousandth]] [tenth] [d_of_Z 1000] (d_of_Z 0) thousandth = Ok tr /\
  Duration tr = Ok d /\ dlt t d = true /\ first_answer da DX tr t = Ok (q, [v], t) /\ dlt (dmul (d_of_Z 4) tenth) v = true.
Proof. exact (fast_inv _ _ (fast_true m)). Qed.
End D.

(** ** Exact arithmetic *)
Lemma traces_describes p cs : traces p cs <-> describes p (total cs) (eval cu_q cs) (eval cu_t cs) (eval cu_k cs).
Proof. reflexivity. Qed.
Lemma total_pos n cs : cs <> [] -> Forall (good n) cs -> 0 < total cs.
Proof. intros N G. destruct G as [|c r (P & _) F]; [congruence|]. pose proof (total_nonneg n r F). cbn. lra. Qed.

Lemma vertex_at n : forall ws, Forall (fun w => length w = n) ws -> forall w, In w ws -> (2 <= length ws)%nat ->
  exists s, 0 <= s <= polyline_length ws /\ polyline_at ws s = w.
Proof.
  induction ws as [|p [|q rest] IH]; intros D w I L; [cbn in L; lia..|]. inversion_clear D as [|? ? Lp D'].
  assert (Lq : length q = n) by (inversion D'; assumption). pose proof (norm_nonneg (vsub p q)) as DN. fold (dist p q) in DN.
  assert (PN : forall ws : list (list R), 0 <= polyline_length ws).
  { induction ws as [|x [|y r] IHr]; [cbn; lra..|]. change (polyline_length (x :: y :: r)) with (norm (vsub x y) + polyline_length (y :: r)). pose proof (norm_nonneg (vsub x y)). lra. }
  assert (TAIL : In w (q :: rest) -> exists s, 0 <= s <= polyline_length (p :: q :: rest) /\ polyline_at (p :: q :: rest) s = w).
  { intros IT. destruct rest as [|r rest].
    - destruct IT as [<-|[]]. exists (dist p q). cbn [polyline_length polyline_at]. split; [lra|]. destruct (Rlt_dec (dist p q) (dist p q)); [lra|reflexivity].
    - destruct (IH D' w IT ltac:(cbn; lia)) as (s & S & E). exists (dist p q + s). split; [cbn [polyline_length] in *; lra|].
      change (polyline_at (p :: q :: r :: rest) (dist p q + s)) with (if Rlt_dec (dist p q + s) (dist p q) then between p q ((dist p q + s) / dist p q) else polyline_at (q :: r :: rest) (dist p q + s - dist p q)).
      destruct (Rlt_dec (dist p q + s) (dist p q)); [lra|]. replace (dist p q + s - dist p q) with s by ring. exact E. }
  destruct I as [<-|I]; [|now apply TAIL]. destruct (Rle_lt_or_eq_dec _ _ DN) as [P|Z].
  - exists 0. split; [split; [lra|apply PN]|]. cbn [polyline_at]. destruct (Rlt_dec 0 (dist p q)); [|lra]. replace (0 / dist p q) with 0 by (unfold Rdiv; ring). unfold between. veq n; ring.
  - replace p with q in *; [apply TAIL; now left|]. symmetry in Z. clear -Z Lp Lq. now rewrite (dist_0_eq n p q).
Qed.
Lemma eval_near cs n dev w : Forall (good n) cs -> on_curves dev cs w -> exists s, 0 <= s <= total cs /\ dist (eval cu_q cs s) w <= dev.
Proof.
  intros G H. unfold on_curves in H. apply Exists_exists in H as (c & I & s & S & E).
  destruct (eval_found n cu_q (cu_q c s) cs G) as (s' & S' & E'). { apply Exists_exists. exists c. split; [exact I|]. exists s. auto. }
  exists s'. split; [exact S'|]. now rewrite E'.
Qed.
Lemma path_near n dev ws : well_posed n dev ws ->
  exists p len q q' q'', MakePath xarith xextras (map fin ws) (XFin dev) = Ok p /\ describes p len q q' q'' /\ 0 < len /\
    q 0 = hd [] ws /\ q len = last ws [] /\
    (forall s, 0 <= s <= len -> near_polyline (Rmax 0 dev) ws (q s)) /\
    (forall w, In w ws -> exists s, 0 <= s <= len /\ dist (q s) w <= Rmax 0 dev).
Proof.
  intros W. destruct (path_geometry n dev ws W) as (p & cs & e & MP & TR & PD & NZ & NE & G & HE & CH & E0 & NR & _ & PO & BL & SMO).
  exists p, (total cs), (eval cu_q cs), (eval cu_t cs), (eval cu_k cs). pose proof (total_pos n cs NE G) as TP.
  repeat (split; [first [exact MP|exact TR|exact TP|exact E0|eapply eval_total; eassumption|exact NR]|]).
  destruct W as (L2 & D & _). intros w I. destruct (Rlt_dec 0 dev) as [P|P].
  - rewrite Rmax_right by lra. specialize (BL P).
    assert (DW : length w = n) by (rewrite Forall_forall in D; now apply D).
    assert (CASES : w = hd [] ws \/ w = last ws [] \/ In w (removelast (tl ws))).
    { destruct ws as [|a r]; [destruct I|]. destruct I as [<-|I]; [now left|right]. cbn [tl]. destruct r as [|b r]; [destruct I|].
      rewrite (app_removelast_last [] (l := b :: r)) in I by discriminate. apply in_app_iff in I as [I|[<-|[]]]; [now right|left; reflexivity]. }
    destruct CASES as [->|[->|I']].
    + exists 0. split; [lra|]. rewrite E0, (dist_refl n) by exact DW. lra.
    + exists (total cs). split; [lra|]. rewrite (eval_total n e cs _ _ NE G CH), (dist_refl n) by exact DW. lra.
    + rewrite Forall_forall in BL. destruct (eval_near cs n dev w G (BL w I')) as (s & S & H). exists s. auto.
  - rewrite Rmax_left by lra. destruct (PO ltac:(lra)) as (TL & EV). destruct (vertex_at n ws D w I L2) as (s & S & E). exists s. rewrite TL. split; [exact S|].
    rewrite EV by (rewrite TL; exact S). rewrite E, (dist_refl n); [lra|]. rewrite Forall_forall in D. now apply D.
Qed.
Lemma path_polyline n dev ws : dev <= 0 -> well_posed n dev ws ->
  exists p q' q'', MakePath xarith xextras (map fin ws) (XFin dev) = Ok p /\ describes p (polyline_length ws) (polyline_at ws) q' q''.
Proof.
  intros P W. destruct (path_geometry n dev ws W) as (p & cs & e & MP & (TL & TR) & PD & NZ & NE & G & HE & CH & E0 & NR & _ & PO & BL & SMO).
  destruct (PO P) as (EL & EV). exists p, (eval cu_t cs), (eval cu_k cs). split; [exact MP|]. split; [now rewrite <- EL|]. rewrite <- EL. intros s S.
  rewrite <- EV by exact S. now apply TR.
Qed.
Lemma path_derivatives n dev ws : well_posed n dev ws ->
  exists p len q q' q'' junctions, MakePath xarith xextras (map fin ws) (XFin dev) = Ok p /\ describes p len q q' q'' /\
    (forall s, 0 < s < len -> ~ In s junctions -> forall i,
       derivable_pt_lim (fun s => nth i (q s) 0) s (nth i (q' s) 0) /\
       derivable_pt_lim (fun s => nth i (q' s) 0) s (nth i (q'' s) 0)) /\
    (forall s, 0 <= s <= len -> norm (q' s) = 1) /\
    (forall s, 0 <= s <= len -> exists delta, 0 < delta /\ forall s', 0 <= s' <= len -> Rabs (s' - s) < delta ->
       dist (q s') (q s) <= Rabs (s' - s) + (if Rlt_dec 0 dev then tiny else 0)).
Proof.
  intros W. destruct (path_geometry n dev ws W) as (p & cs & e & MP & TR & PD & NZ & NE & G & HE & CH & E0 & NR & _ & PO & BL & SMO).
  exists p, (total cs), (eval cu_q cs), (eval cu_t cs), (eval cu_k cs), (map (fun k => total (firstn k cs)) (seq 0 (length cs))).
  split; [exact MP|]. split; [exact TR|]. split; [|split].
  - intros s S J i. assert (J' : forall k, (k < length cs)%nat -> s <> total (firstn k cs)).
    { intros k K E. apply J. apply in_map_iff. exists k. split; [auto|]. apply in_seq. lia. }
    split; (apply (eval_derivative n); auto; eapply Forall_impl; [|exact G]; intros c (_ & _ & _ & _ & D1 & D2); assumption).
  - intros s S. apply (eval_forall n (fun v => norm v = 1) cu_t cs NE G); [|exact S]. eapply Forall_impl; [|exact G]. intros c (_ & _ & _ & U & _) u _. apply U.
  - intros s S. destruct W as (L2 & D & _). destruct ws as [|w ws]; [cbn in L2; lia|].
    destruct (eval_continuous n e cs _ ltac:(lra) _ NE G ltac:(inversion D; eassumption) CH s S) as (d & Hd & H). exists d. split; [exact Hd|].
    intros s' S' B. specialize (H s' S' B). lra.
Qed.
Lemma sampled_derivative n dev ws fuel vm am dt tr l : well_posed n dev ws ->
  ParametrizePathTOTP xarith xextras fuel (map fin ws) vm am (XFin dev) dt = Ok tr -> steps_are tr l ->
  exists len junctions, path_length (tr_path tr) = XFin len /\
  forall t, 0 < t < big -> ~ In t (map step_time l) -> exists g, leg_at l t g /\
  (l_t0 g <> l_t1 g -> 0 < leg_position g t < len -> ~ In (leg_position g t) junctions ->
   exists d, 0 < d /\ (forall u, Rabs (u - t) < d -> exists q v, sampled tr u q v) /\
   forall Q V, (forall u, Rabs (u - t) < d -> sampled tr u (Q u) (V u)) ->
   forall i, derivable_pt_lim (fun u => nth i (Q u) 0) t (nth i (V t) 0)).
Proof.
  intros W P ES. destruct (path_geometry n dev ws W) as (p & cs & e & MP & TR & PD & NZ & NE & G & HE & CH & E0 & NR & _ & PO & BL & SMO).
  pose proof (parametrize_path _ _ _ _ _ _ _ _ _ P) as MP'. rewrite MP in MP'. injection MP' as ->. pose proof (parametrize_built _ _ xle01 _ _ _ _ _ _ _ P) as B.
  exists (total cs), (map (fun k => total (firstn k cs)) (seq 0 (length cs))). split; [apply TR|].
  intros t HT NS. destruct (leg_exists l t) as (g & HL).
  - pose proof B as [_ _ (r & x & HS & NR' & _)]. unfold steps_are in ES. assert (LL : length (tr_steps tr) = length l) by (rewrite ES; apply map_length).
    rewrite HS, app_length in LL. destruct r; [congruence|]. cbn in LL. lia.
  - pose proof B as [_ F _]. unfold steps_are in ES. rewrite ES in F. destruct l as [|[[x1 x2] x3] l]; [discriminate|]. cbn in F. injection F as _ _ F. cbn. rewrite F. lra.
  - exists g. split; [exact HL|]. intros L HP J. apply (derivative_at n tr l cs g t); auto.
    intros k K E. apply J. apply in_map_iff. exists k. split; [auto|]. apply in_seq. lia.
Qed.
Lemma sampled_acceleration n dev ws fuel vm am dt tr l : well_posed n dev ws ->
  ParametrizePathTOTP xarith xextras fuel (map fin ws) vm am (XFin dev) dt = Ok tr -> steps_are tr l ->
  exists len junctions, path_length (tr_path tr) = XFin len /\
  forall t, 0 < t < big -> ~ In t (map step_time l) -> exists g, leg_at l t g /\
  (l_t0 g <> l_t1 g -> 0 < leg_position g t < len -> ~ In (leg_position g t) junctions ->
   exists d q1 q2, 0 < d /\ GetTangent xarith xextras (tr_path tr) (XFin (leg_position g t)) = Ok (fin q1) /\
   GetCurvature xarith xextras (tr_path tr) (XFin (leg_position g t)) = Ok (fin q2) /\
   (forall u, Rabs (u - t) < d -> exists q v, sampled tr u q v) /\
   forall Q V, (forall u, Rabs (u - t) < d -> sampled tr u (Q u) (V u)) ->
   forall i, (i < n)%nat -> derivable_pt_lim (fun u => nth i (V u) 0) t (nth i (joint_acceleration q1 q2 (leg_velocity g t) (leg_acceleration g)) 0)).
Proof.
  intros W P ES. destruct (path_geometry n dev ws W) as (p & cs & e & MP & TR & PD & NZ & NE & G & HE & CH & E0 & NR & _ & PO & BL & SMO).
  pose proof (parametrize_path _ _ _ _ _ _ _ _ _ P) as MP'. rewrite MP in MP'. injection MP' as ->. pose proof (parametrize_built _ _ xle01 _ _ _ _ _ _ _ P) as B.
  exists (total cs), (map (fun k => total (firstn k cs)) (seq 0 (length cs))). split; [apply TR|].
  intros t HT NS. destruct (leg_exists l t) as (g & HL).
  - pose proof B as [_ _ (r & x & HS & NR' & _)]. unfold steps_are in ES. assert (LL : length (tr_steps tr) = length l) by (rewrite ES; apply map_length).
    rewrite HS, app_length in LL. destruct r; [congruence|]. cbn in LL. lia.
  - pose proof B as [_ F _]. unfold steps_are in ES. rewrite ES in F. destruct l as [|[[x1 x2] x3] l]; [discriminate|]. cbn in F. injection F as _ _ F. cbn. rewrite F. lra.
  - exists g. split; [exact HL|]. intros L HP J. apply (acceleration_at n tr l cs g t); auto.
    intros k K E. apply J. apply in_map_iff. exists k. split; [auto|]. apply in_seq. lia.
Qed.
Lemma ends_at_rest n dev ws fuel vm am dt tr : well_posed n dev ws ->
  ParametrizePathTOTP xarith xextras fuel (map fin ws) vm am (XFin dev) dt = Ok tr ->
  (forall g l, steps_are tr l -> 0 < step_time (last l (0, 0, 0)) -> first_leg tr g -> sampled tr 0 (hd [] ws) (repeat 0 n)) /\
  (forall g, last_two tr g -> 0 <= l_t1 g < big ->
     Duration tr = Ok (XFin (l_t1 g)) /\ sampled tr (l_t1 g) (last ws []) (repeat 0 n)).
Proof.
  intros W P. destruct (path_geometry n dev ws W) as (p & cs & e & MP & TR & PD & NZ & NE & G & HE & CH & E0 & NR & _ & PO & BL & SMO).
  pose proof (parametrize_path _ _ _ _ _ _ _ _ _ P) as MP'. rewrite MP in MP'. injection MP' as ->. pose proof (parametrize_built _ _ xle01 _ _ _ _ _ _ _ P) as B.
  assert (DIM : forall s, length (eval cu_t cs s) = n) by (intros; now apply eval_t_dim). split.
  - intros g l ES D F. apply (first_at n ws tr l cs g); auto.
  - intros g F H. apply (last_sample fuel vm am (XFin dev) dt (map fin ws) tr n cs g); auto. eapply eval_total; eassumption.
Qed.

Section Lines.
Variables (n : nat) (a b vmax amax : list R).
Hypothesis La : length a = n. Hypothesis Lb : length b = n.
Hypothesis Lv : length vmax = n. Hypothesis Lam : length amax = n.
Hypothesis PV : Forall (fun x => 0 < x) vmax. Hypothesis PA : Forall (fun x => 0 < x) amax.
Hypothesis PL : 0 < dist a b.
Hypothesis LIM : exists i, (i < n)%nat /\ nth i vmax 0 < big * Rabs (nth i (vscale (/ dist b a) (vsub b a)) 0).
Lemma PL' : 0 < norm (vsub b a). Proof. fold (dist b a). rewrite (dist_sym n) by assumption. exact PL. Qed.
Lemma line_all dt : 0 < dt -> exists N, forall fuel dev, (N <= fuel)%nat -> exists tr D,
    ParametrizePathTOTP xarith xextras fuel [fin a; fin b] (fin vmax) (fin amax) (XFin dev) (XFin dt) = Ok tr /\
    Duration tr = Ok (XFin D) /\ 0 < D /\ sampled tr 0 a (repeat 0 n) /\ (D < big -> sampled tr D b (repeat 0 n)) /\
    forall t, 0 <= t <= D -> t < big -> exists u c q v, sampled tr t q v /\
      0 <= u <= 1 /\ q = between a b u /\ 0 <= c /\ v = vscale c (vscale (/ dist b a) (vsub b a)) /\
      forall i, (i < n)%nat -> Rabs (nth i v 0) <= nth i vmax 0 + dt * nth i amax 0.
Proof.
  intros PD. destruct (line_plan n a b vmax amax dt La Lb Lv Lam PV PA PD PL' LIM) as (top & N & PT & LT & H). exists N. intros fuel dev HF.
  destruct (H fuel dev HF) as (ts & E & SO).
  destruct (line_samples n a b vmax amax dt La Lb Lv Lam PL' top fuel dev ts PT E SO) as (D & ED & D0 & S0 & SD & S).
  eexists. exists D. split; [exact E|]. split; [exact ED|]. split; [exact D0|]. split; [exact S0|]. split; [exact SD|].
  intros t T TB. destruct (S t T TB) as (u & c & U & C & SA). do 4 eexists. split; [exact SA|]. split; [exact U|]. split; [reflexivity|]. split; [apply C|]. split; [reflexivity|].
  intros i Hi. rewrite nth_vscale, Rabs_mult, (Rabs_pos_eq c) by lra. eapply Rle_trans; [|apply LT; exact Hi]. apply Rmult_le_compat_r; [apply Rabs_pos|]. lra.
Qed.
Lemma zero_timestep fuel dev : ParametrizePathTOTP xarith xextras fuel [fin a; fin b] (fin vmax) (fin amax) (XFin dev) (XFin 0) = Diverge.
Proof. apply (line_stuck n a b vmax amax 0); auto. apply PL'. Qed.
End Lines.
Lemma corner_well_posed : well_posed 2 (/ 10) [[0; 0]; [1; 0]; [1; 1]] /\ well_posed 2 0 [[0; 0]; [1; 0]; [1; 1]].
Proof.
  assert (N1 : forall x y, norm [x; y] = sqrt (x * x + y * y)) by (intros; unfold norm; cbn; f_equal; ring).
  assert (D1 : dist [0; 0] [1; 0] = 1). { unfold dist. cbn [vsub zip_with]. unfold vsub. cbn. rewrite N1. replace ((0 - 1) * (0 - 1) + (0 - 0) * (0 - 0)) with 1 by ring. apply sqrt_1. }
  assert (D2 : dist [1; 0] [1; 1] = 1). { unfold dist, vsub. cbn. rewrite N1. replace ((1 - 1) * (1 - 1) + (0 - 1) * (0 - 1)) with 1 by ring. apply sqrt_1. }
  split; (split; [cbn; lia|split; [repeat constructor|split]]).
  - lra.
  - intros _. cbn [legs_longer no_reversal]. rewrite D1, D2. unfold tiny. split; [repeat split; lra|]. split; [|exact I].
    intros (k & K & E). unfold vsub, vscale in E. cbn in E. injection E as E1 E2. lra.
  - intros _. cbn [last_leg]. rewrite D2. lra.
  - lra.
Qed.
Lemma ex_steps : steps_are ex_trajectory [(0, 0, 0); (/ 2, 1, 1); (/ 2, 1, 1); (1, 0, 2)]. Proof. reflexivity. Qed.
Lemma ex_posed : well_posed 1 0 [[0]; [1]].
Proof.
  split; [cbn; lia|]. split; [repeat constructor|]. split; [intros _|lra]. cbn [last_leg]. unfold dist, vsub, norm. cbn. apply sqrt_lt_R0. lra.
Qed.
Definition ex_leg : leg := mkLeg (/ 2) 1 1 1 0 2.
Lemma ex_position t : leg_position ex_leg t = / 2 + (t - 1) - / 2 * (t - 1) * (t - 1).
Proof. unfold leg_position, leg_acceleration, ex_leg. cbn [l_p0 l_v0 l_t0 l_p1 l_v1 l_t1]. field. Qed.
Lemma ex_velocity_at t : leg_velocity ex_leg t = 2 - t.
Proof. unfold leg_velocity, leg_acceleration, ex_leg. cbn [l_p0 l_v0 l_t0 l_p1 l_v1 l_t1]. field. Qed.
Lemma ex_motion : ParametrizePathTOTP xarith xextras 10 (map fin [[0]; [1]]) (fin [1]) (fin [1]) (XFin 0) (XFin 1) = Ok ex_trajectory /\
  well_posed 1 0 [[0]; [1]] /\ exists l g, steps_are ex_trajectory l /\ leg_at l (3 / 2) g /\ ~ In (3 / 2) (map step_time l) /\
  l_t0 g <> l_t1 g /\ 0 < leg_position g (3 / 2) < 1.
Proof.
  split; [exact ex_built|]. split; [exact ex_posed|]. do 2 eexists. split; [exact ex_steps|]. split; [|split; [|split]].
  - exists [(0, 0, 0); (/ 2, 1, 1)], []. split; [instantiate (1 := ex_leg); reflexivity|]. right. cbn. repeat split; try lra. repeat constructor; cbn; lra.
  - cbn. lra.
  - cbn. lra.
  - rewrite ex_position. lra.
Qed.
Lemma ex_late u : 39 / 10 < u < 41 / 10 -> sampled ex_trajectory u [0] [2 - u].
Proof.
  intros U. pose proof ex_built as EB. pose proof (parametrize_built _ _ xle01 _ _ _ _ _ _ _ EB) as B.
  assert (LA : leg_at [(0, 0, 0); (/ 2, 1, 1); (/ 2, 1, 1); (1, 0, 2)] u ex_leg).
  { exists [(0, 0, 0); (/ 2, 1, 1)], []. split; [reflexivity|]. left. split; [cbn; lra|reflexivity]. }
  destruct (leg_place ex_trajectory _ u ex_leg ex_steps LA) as (before & after & E & P).
  assert (LB : 4 < big) by (unfold big; apply IZR_lt; reflexivity).
  assert (LC : 100 < big) by (unfold big; apply IZR_lt; reflexivity).
  unfold sampled. change xarith with xa. rewrite xfirst by (auto; apply ordinary_fin; lra).
  assert (PL : length before = 2%nat).
  { apply (f_equal (@length _)) in E. rewrite app_length in E. cbn in E. pose proof (place_pos xa xextras ex_trajectory B (XFin u)) as PP.
    unfold place in P. cbn [ex_trajectory tr_steps rev app length ex_timed t_time aleb xa] in P. rewrite (proj2 (xleb_le _ _)) in P by lra. cbn in P. lia. }
  unfold spec_answer. rewrite P, PL. unfold raw_get. cbn [ex_trajectory tr_steps nth_error bind ex_timed].
  unfold sample_between, ex_timed, lit_half. cbn [ l_v0 l_t0 l_p1 l_v1 l_t1 t_pos t_vel t_time xa asub aadd amul adiv a_of xsub xadd xopp xmul].
  rewrite !xdiv_fin by lra. cbn [xsub xadd xopp xmul]. cbn [ex_trajectory tr_path].
  rewrite ex_tangent.
  replace (2 * (1 + - / 2 + - ((2 + - (1)) * 1)) / ((2 + - (1)) * (2 + - (1)))) with (-1) by field.
  match goal with |- context [GetConfig xa xextras ex_path (XFin ?s)] => set (w := s) end.
  assert (W : w < 0) by (unfold w; nra).
  assert (C : GetConfig xa xextras ex_path (XFin w) = Ok [XFin 0]).
  { unfold GetConfig, GetPathSegment, ex_path. cbn [path_segments segment_walk bind fst snd]. unfold seg_config. cbn [seg_shape seg_position seg_length xa asub adiv xsub xadd xopp].
    rewrite xdiv_fin by lra. unfold InterpolateVector, clamp01, UtilityModel.ClampValue. cbn [xa altb aleb a_of].
    rewrite (proj2 (xleb_le 0 1)) by lra. rewrite (proj2 (xltb_lt _ _)) by lra. cbn. do 2 f_equal. f_equal. lra. }
  rewrite C. cbn [bind fst snd eig_scale map xa amul xmul fin]. repeat (f_equal; try lra).
Qed.
Lemma not_derivative : exists d, 0 < d /\ (forall u, Rabs (u - 4) < d -> sampled ex_trajectory u [0] [2 - u]) /\
  ~ derivable_pt_lim (fun u => nth 0 [0] 0) 4 (nth 0 [2 - 4] 0).
Proof.
  exists (/ 10). split; [lra|]. split.
  - intros u H. apply ex_late. apply Rabs_def2 in H. lra.
  - cbn [nth]. intros H. pose proof (uniqueness_limite _ _ _ _ H (derivable_pt_lim_const 0 4)). lra.
Qed.
Lemma line_example : let a := [0; 0] in let b := [3; 4] in 0 < dist a b /\
  (exists i, (i < 2)%nat /\ nth i [1; 1] 0 < big * Rabs (nth i (vscale (/ dist b a) (vsub b a)) 0)).
Proof.
  cbv zeta. assert (E : dist [3; 4] [0; 0] = 5). { unfold dist, vsub, norm. cbn. replace ((3 - 0) * (3 - 0) + ((4 - 0) * (4 - 0) + 0)) with (5 * 5) by ring. apply sqrt_square. lra. }
  split; [rewrite (dist_sym 2) by reflexivity; rewrite E; lra|]. exists 0%nat. split; [lia|]. rewrite E. unfold vscale, vsub. cbn [map zip_with nth combine]. cbn.
  assert (B : 1000 < big) by (unfold big; apply IZR_lt; reflexivity).
  replace (/ 5 * (3 - 0)) with (3 / 5) by field. rewrite Rabs_pos_eq by lra. lra.
Qed.
