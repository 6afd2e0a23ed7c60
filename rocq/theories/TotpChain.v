(** Paths as chains of curves. *)
From Coq Require Import Reals Lra Psatz List Bool Lia.
From Flocq Require Import Core.
From Verif Require Import Base MathModel MathReal MathLinModel MathVec MathLinProof TotpModel TotpProof TotpScalar TotpRealSpec TotpReal TotpLimits TotpArc TotpPathSpec TotpPath TotpBlend.
Local Open Scope R_scope.

(** From [a] along the curves to [b], with gaps of at most [e]. *)
Fixpoint chain (e : R) (a : list R) (cs : list curve) (b : list R) : Prop :=
  match cs with [] => a = b | c :: r => dist a (cu_q c 0) <= e /\ chain e (cu_q c (cu_len c)) r b end.

Section Eval.
Variables (n : nat) (e : R).
Lemma eval_cons2 F c c' r s : eval F (c :: c' :: r) s = if Rlt_dec s (cu_len c) then F c s else eval F (c' :: r) (s - cu_len c).
Proof. reflexivity. Qed.
Lemma total_nonneg cs : Forall (good n) cs -> 0 <= total cs.
Proof. induction 1 as [|c r (G & _) F IH]; cbn; lra. Qed.
Lemma eval_forall (P : list R -> Prop) F cs : cs <> [] -> Forall (good n) cs ->
  Forall (fun c => forall s, 0 <= s <= cu_len c -> P (F c s)) cs -> forall s, 0 <= s <= total cs -> P (eval F cs s).
Proof.
  intros N G H. induction cs as [|c [|c' r] IH]; [congruence| |]; intros s S; inversion_clear H; inversion_clear G.
  - cbn in *. apply H0. lra.
  - rewrite eval_cons2. destruct (Rlt_dec s (cu_len c)); [apply H0; lra|]. apply IH; auto; [discriminate|]. cbn [total] in *. lra.
Qed.
Lemma eval_0 F c r : 0 < cu_len c -> eval F (c :: r) 0 = F c 0.
Proof. intros H. destruct r; [reflexivity|]. rewrite eval_cons2. destruct (Rlt_dec 0 (cu_len c)); [reflexivity|lra]. Qed.
Lemma eval_total cs b : forall a, cs <> [] -> Forall (good n) cs -> chain e a cs b -> eval cu_q cs (total cs) = b.
Proof.
  induction cs as [|c [|c' r] IH]; intros a N G C; [congruence| |].
  - cbn in *. rewrite Rplus_0_r. tauto.
  - rewrite eval_cons2. inversion_clear G as [|? ? G1 G2]. pose proof (total_nonneg _ G2).
    inversion G2 as [|? ? (G3 & _) G4]; subst. pose proof (total_nonneg _ G4).
    destruct (Rlt_dec (total (c :: c' :: r)) (cu_len c)) as [L|L]; [cbn [total] in *; lra|].
    destruct C as (_ & C). rewrite <- (IH _ ltac:(discriminate) G2 C). f_equal. cbn [total]. ring.
Qed.
Lemma eval_found F x cs : Forall (good n) cs -> Exists (fun c => exists s, 0 <= s < cu_len c /\ F c s = x) cs ->
  exists s, 0 <= s <= total cs /\ eval F cs s = x.
Proof.
  intros G H. induction H as [c r (s & S & E)|c r H IH]; inversion_clear G as [|? ? (G0 & G1) G2]; pose proof (total_nonneg _ G2).
  - exists s. cbn [total]. split; [lra|]. destruct r; [exact E|]. rewrite eval_cons2. destruct (Rlt_dec s (cu_len c)); [exact E|lra].
  - destruct (IH G2) as (s & S & E). exists (cu_len c + s). cbn [total]. split; [lra|]. destruct r as [|c' r]; [inversion H|].
    rewrite eval_cons2. destruct (Rlt_dec (cu_len c + s) (cu_len c)); [lra|]. rewrite <- E. f_equal. ring.
Qed.
Lemma eval_dim cs s : cs <> [] -> Forall (good n) cs -> length (eval cu_q cs s) = n.
Proof.
  intros N G. revert s. induction cs as [|c [|c' r] IH]; intros s; [congruence| |]; inversion_clear G as [|? ? (_ & D & _) G2].
  - apply D.
  - rewrite eval_cons2. destruct (Rlt_dec s (cu_len c)); [apply D|]. apply IH; auto. discriminate.
Qed.
(** No jump exceeds [e]. *)
Lemma eval_continuous cs b : 0 <= e -> forall a, cs <> [] -> Forall (good n) cs -> length a = n -> chain e a cs b -> forall s, 0 <= s <= total cs ->
  exists delta, 0 < delta /\ forall s', 0 <= s' <= total cs -> Rabs (s' - s) < delta ->
    dist (eval cu_q cs s') (eval cu_q cs s) <= Rabs (s' - s) + e.
Proof.
  intros He. induction cs as [|c [|c' r] IH]; intros a N G La C s S; [congruence| |].
  - inversion_clear G as [|? ? (_ & _ & LP & _) _]. exists 1. split; [lra|]. intros s' S' D. cbn [eval]. specialize (LP s' s). lra.
  - pose proof G as G0. inversion_clear G as [|? ? (CP & CD & LP & _) G2]. destruct C as (C1 & C2).
    assert (La2 : length (cu_q c (cu_len c)) = n) by apply CD.
    destruct (Rlt_or_le s (cu_len c)) as [L|L].
    + exists (cu_len c - s). split; [lra|]. intros s' S' D. rewrite !eval_cons2.
      assert (s' < cu_len c) by (apply Rabs_def2 in D; lra).
      destruct (Rlt_dec s' (cu_len c)), (Rlt_dec s (cu_len c)); try lra. specialize (LP s' s). lra.
    + destruct (IH _ ltac:(discriminate) G2 La2 C2 (s - cu_len c)) as (d1 & D1 & H1). { cbn [total] in *. lra. }
      destruct (Rle_lt_or_eq_dec (cu_len c) s L) as [L'|E].
      * exists (Rmin d1 (s - cu_len c)). split; [apply Rmin_glb_lt; lra|]. intros s' S' D.
        pose proof (Rmin_l d1 (s - cu_len c)). pose proof (Rmin_r d1 (s - cu_len c)).
        assert (cu_len c < s') by (apply Rabs_def2 in D; lra). rewrite !eval_cons2.
        destruct (Rlt_dec s' (cu_len c)), (Rlt_dec s (cu_len c)); try lra.
        replace (s' - s) with (s' - cu_len c - (s - cu_len c)) in D |- * by ring. apply H1; [cbn [total] in *; lra|lra].
      * exists d1. split; [exact D1|]. intros s' S' D. rewrite !eval_cons2. destruct (Rlt_dec s (cu_len c)); [lra|].
        destruct (Rlt_dec s' (cu_len c)) as [LL|LL].
        -- replace (s - cu_len c) with 0 by lra. inversion G2 as [|? ? (CP' & CD' & _) _]; subst. rewrite eval_0 by exact CP'.
           destruct C2 as (C2 & _). specialize (LP s' (cu_len c)).
           pose proof (dist_triangle (length a) (cu_q c s') (cu_q c (cu_len c)) (cu_q c' 0)) as T.
           specialize (T ltac:(apply CD) ltac:(apply CD) ltac:(apply CD')). lra.
        -- replace (s' - s) with (s' - cu_len c - (s - cu_len c)) in D |- * by ring. apply H1; [cbn [total] in *; lra|lra].
Qed.
(** Derivatives, except where two curves meet. *)
Lemma lim_local f g s l d : 0 < d -> (forall x, Rabs (x - s) < d -> f x = g x) -> derivable_pt_lim f s l -> derivable_pt_lim g s l.
Proof.
  intros Hd H D eps He. destruct (D eps He) as (d' & Hd').
  assert (P : 0 < Rmin d' d) by (apply Rmin_glb_lt; [apply cond_pos|exact Hd]).
  exists (mkposreal _ P). intros h Hh Hb. cbn in Hb. pose proof (Rmin_l d' d). pose proof (Rmin_r d' d).
  rewrite <- !H; [apply Hd'; [exact Hh|lra]| |].
  - rewrite Rminus_eq_0, Rabs_R0. exact Hd.
  - replace (s + h - s) with h by ring. lra.
Qed.
Lemma eval_derivative (F F' : curve -> R -> list R) cs :
  cs <> [] -> Forall (good n) cs ->
  Forall (fun c => forall i s, derivable_pt_lim (fun s => nth i (F c s) 0) s (nth i (F' c s) 0)) cs ->
  forall s, 0 < s < total cs -> (forall k, (k < length cs)%nat -> s <> total (firstn k cs)) -> forall i,
    derivable_pt_lim (fun s => nth i (eval F cs s) 0) s (nth i (eval F' cs s) 0).
Proof.
  intros N G H. induction cs as [|c [|c' r] IH]; [congruence| |]; intros s S J i; inversion_clear H as [|? ? H1 H2]; inversion_clear G as [|? ? (CP & _) G2].
  - apply H1.
  - destruct (Rlt_or_le s (cu_len c)) as [L|L].
    + rewrite eval_cons2. destruct (Rlt_dec s (cu_len c)); [|lra].
      apply (lim_local (fun s => nth i (F c s) 0) _ _ _ (cu_len c - s)); [lra| |apply H1].
      intros x Hx. apply Rabs_def2 in Hx. rewrite eval_cons2. destruct (Rlt_dec x (cu_len c)); [reflexivity|lra].
    + assert (NE : s <> cu_len c). { intros E. apply (J 1%nat); [cbn; lia|]. cbn. lra. }
      rewrite eval_cons2. destruct (Rlt_dec s (cu_len c)); [lra|].
      apply (lim_local (fun s => nth i (eval F (c' :: r) (s - cu_len c)) 0) _ _ _ (s - cu_len c)); [lra| |].
      { intros x Hx. apply Rabs_def2 in Hx. rewrite eval_cons2. destruct (Rlt_dec x (cu_len c)); [lra|reflexivity]. }
      assert (D : derivable_pt_lim (fun s => nth i (eval F (c' :: r) s) 0) (s - cu_len c) (nth i (eval F' (c' :: r) (s - cu_len c)) 0)).
      { apply IH; auto; [discriminate|cbn [total] in *; lra|]. intros k Hk E. apply (J (Datatypes.S k)); [cbn in *; lia|]. cbn [firstn total]. lra. }
      intros eps He. destruct (D eps He) as (d & Hd). exists d. intros h Hh Hb. specialize (Hd h Hh Hb).
      replace (s + h - cu_len c) with (s - cu_len c + h) by ring. exact Hd.
Qed.
End Eval.

(** Points on a leg. *)
Lemma norm_half n c1 c2 : length c1 = n -> length c2 = n ->
  vsub c2 (vscale (/ 2) (vadd c1 c2)) = vscale (/ 2) (vsub c2 c1) /\ vsub (vscale (/ 2) (vadd c1 c2)) c1 = vscale (/ 2) (vsub c2 c1).
Proof. intros H K. split; veq n; field. Qed.
Lemma unit_half v : 0 < norm v -> unit_of (vscale (/ 2) v) = vscale (/ norm v) v.
Proof.
  intros H. unfold unit_of. rewrite norm_scale, Rabs_pos_eq by lra. apply (vext (length v)); [vdim..|]. intros i. nths (length v). field. lra.
Qed.
Lemma not_back n a b : length a = n -> length b = n -> dot a a = 1 -> dot b b = 1 -> (vadd a b = vscale 0 a -> False) -> -1 < dot a b.
Proof.
  intros La Lb Ua Ub H. assert (P : 0 <= dot (vadd a b) (vadd a b)) by apply dot_nonneg.
  destruct (Rle_lt_or_eq_dec _ _ P) as [L|E].
  - rewrite dot_vadd_sq in L by congruence. lra.
  - exfalso. apply H. symmetry in E. apply dot_zero in E. apply (vext n); [vdim..|]. intros i. nths n.
    assert (Z : nth i (vadd a b) 0 = 0).
    { destruct (Nat.lt_ge_cases i (length (vadd a b))) as [K|K]; [|now apply nth_overflow]. rewrite Forall_forall in E. apply E. now apply nth_In. }
    rewrite (nth_add n) in Z by assumption. lra.
Qed.

(** Neighbouring curves agree in direction up to [e]. *)
Fixpoint smooth (e : R) (cs : list curve) : Prop :=
  match cs with
  | c :: ((c' :: _) as r) => dist (cu_t c (cu_len c)) (cu_t c' 0) <= e /\ smooth e r
  | _ => True
  end.
Definition starts_along (d : list R) (cs : list curve) : Prop := exists c r, cs = c :: r /\ cu_t c 0 = d.
(** The last curve ends along the last leg. *)
Definition ends_along (ws : list (list R)) (cs : list curve) : Prop :=
  forall pre a b, ws = pre ++ [a; b] -> exists r c, cs = r ++ [c] /\ cu_t c (cu_len c) = direction a b.
Lemma ends_cons w1 w2 w3 ws cs l : ends_along (w2 :: w3 :: ws) cs -> ends_along (w1 :: w2 :: w3 :: ws) (l ++ cs).
Proof.
  intros H [|p0 pre] a b E; [discriminate|]. injection E as -> E. destruct (H pre a b E) as (r & c & -> & T).
  exists (l ++ r), c. split; [now rewrite app_assoc|exact T].
Qed.
Lemma smooth_cons n e c d cs : length d = n -> (dist (cu_t c (cu_len c)) d <= e) -> starts_along d cs -> smooth e cs -> smooth e (c :: cs).
Proof. intros L H (c' & r & -> & E) S. split; [now rewrite E|exact S]. Qed.
Lemma line_dir n p q t t2 s : length p = n -> length q = n -> 0 < norm (vsub q p) -> t < t2 ->
  cu_t (line (between p q t) (between p q t2)) s = vscale (/ norm (vsub q p)) (vsub q p).
Proof.
  intros Lp Lq N T. cbn [line cu_t].
  replace (vsub (between p q t2) (between p q t)) with (vscale (t2 - t) (vsub q p)) by (unfold between; veq n; ring).
  rewrite norm_scale, Rabs_pos_eq by lra. veq n. field. lra.
Qed.
Lemma between_1 n p q : length p = n -> length q = n -> between p q 1 = q.
Proof. intros. unfold between. veq n. ring. Qed.

Lemma line_dir1 n p q t s : length p = n -> length q = n -> 0 < norm (vsub q p) -> t < 1 ->
  cu_t (line (between p q t) q) s = vscale (/ norm (vsub q p)) (vsub q p).
Proof. intros Lp Lq N T. rewrite <- (line_dir n p q t 1 s) by assumption. now rewrite (between_1 n). Qed.

Section Loop.
Variables (n : nat) (dev : R).
Hypothesis Hdev : 0 < dev.
Definition on_curves (cs : list curve) (x : list R) : Prop :=
  Exists (fun c => exists s, 0 <= s < cu_len c /\ dist (cu_q c s) x <= dev) cs.

Lemma near_leg p q r s x t2 t : length p = n -> length q = n -> 0 <= t <= 1 -> 0 <= t2 <= 1 -> 0 <= s <= 1 ->
  x = between (between p q t) (between p q t2) s -> near_polyline dev (p :: q :: r) x.
Proof.
  intros Hp Hq T T2 S ->. left. exists (t + s * (t2 - t)). split; [nra|].
  replace (between (between p q t) (between p q t2) s) with (between p q (t + s * (t2 - t))); [rewrite (dist_refl n) by vdim; lra|].
  unfold between. veq n. ring.
Qed.

Lemma loop_step d start_config config1 config2 config3 rest :
  path_loop xa xextras d start_config config1 (config2 :: config3 :: rest) =
      if altb xa (a_of xa 0) d then
        do a <- eig_add xa config1 config2;
        do b <- eig_add xa config2 config3;
        do blend <- MakeCircular xa xextras (map (fun x => amul xa (lit_half xa) x) a) config2 (map (fun x => amul xa (lit_half xa) x) b) d;
        do end_config <- seg_config xa xextras blend (a_of xa 0);
        do gap <- eig_sub xa end_config start_config;
        do lead <- (if altb xa (lit_eps xa) (eig_norm xa gap)
                    then do l <- MakeLinear xa start_config end_config; Ok [l] else Ok []);
        do next_start <- seg_config xa xextras blend (seg_length blend);
        do others <- path_loop xa xextras d next_start config2 (config3 :: rest);
        Ok (lead ++ blend :: others)
      else
        do l <- MakeLinear xa start_config config2;
        do others <- path_loop xa xextras d config2 config2 (config3 :: rest);
        Ok (l :: others).
Proof. reflexivity. Qed.

Lemma loop_blend : forall rest c1 c2 start t,
  Forall (fun w => length w = n) (c1 :: c2 :: rest) -> legs_longer (2 * tiny) (c1 :: c2 :: rest) -> no_reversal (c1 :: c2 :: rest) ->
  0 <= t <= / 2 -> start = between c1 c2 t ->
  exists gs cs, path_loop xa xextras (XFin dev) (fin start) (fin c1) (map fin (c2 :: rest)) = Ok gs /\ tracks gs cs /\ Forall (shaped n) gs /\
    Forall (good n) cs /\ chain tiny start cs (last (c2 :: rest) []) /\
    (t = 0 -> exists c r, cs = c :: r /\ cu_q c 0 = start) /\
    (t = 0 -> exists g r b, gs = g :: r /\ MakeLinear xa (fin start) (fin b) = Ok g /\ length b = n /\ start <> b) /\
    (exists r g a, gs = r ++ [g] /\ MakeLinear xa (fin a) (fin (last (c2 :: rest) [])) = Ok g /\ length a = n) /\
    Forall (fun c => forall s, 0 <= s <= cu_len c -> near_polyline dev (c1 :: c2 :: rest) (cu_q c s)) cs /\
    Forall (on_curves cs) (removelast (c2 :: rest)) /\
    starts_along (direction c1 c2) cs /\ (forall e, 0 <= e -> clear_turns e (c1 :: c2 :: rest) -> smooth e cs) /\ ends_along (c1 :: c2 :: rest) cs.
Proof.
  pose proof tiny_pos as TP.
  induction rest as [|c3 rest IH]; intros c1 c2 start t D LL NR Ht ST; inversion_clear D as [|? ? L1 D']; inversion D' as [|? ? L2 D2]; subst start.
  all: destruct LL as (LG1 & LL).
  all: assert (SD : length (between c1 c2 t) = n) by vdim.
  all: rewrite (dist_sym n) in LG1 by assumption; unfold dist in LG1; set (leg := norm (vsub c2 c1)) in *.
  - cbn [map path_loop]. unfold MakeLinear. rewrite fin_sub by congruence. cbn [bind].
    assert (NP : 0 < norm (vsub c2 (between c1 c2 t))).
    { replace (vsub c2 (between c1 c2 t)) with (vscale (1 - t) (vsub c2 c1)) by (unfold between; veq n; ring).
      rewrite norm_scale, Rabs_pos_eq by lra. fold leg. nra. }
    do 2 eexists. split; [reflexivity|]. split.
    { apply tracks_last. apply (line_follows n (between c1 c2 t) c2); auto. unfold MakeLinear. rewrite fin_sub by congruence. reflexivity. }
    split; [repeat constructor|].
    destruct (line_ends n _ _ SD L2 NP) as (E0 & E1).
    split; [constructor; [now apply line_good|constructor]|]. split.
    { cbn [chain]. rewrite E0, (dist_refl n) by exact SD. split; [lra|exact E1]. }
    split; [intros _; eauto|].
    split; [intros _; eexists; exists [], c2; split; [reflexivity|]; split; [unfold MakeLinear; rewrite fin_sub by congruence; reflexivity|];
      split; [exact L2|intros e; rewrite e in NP; change (0 < dist c2 c2) in NP; rewrite (dist_refl n) in NP by exact L2; lra]|].
    split; [exists []; eexists; exists (between c1 c2 t); split; [reflexivity|]; split; [unfold MakeLinear; cbn [last]; rewrite fin_sub by congruence; reflexivity|exact SD]|].
    split; [|split; [constructor|split; [do 2 eexists; split; [reflexivity|];
      apply (line_dir1 n); auto; [fold leg|]; lra|split; [intros; exact I|]]]].
    2: { intros pre a b E. destruct pre as [|x0 [|x1 pre]]; [|discriminate|destruct pre; discriminate]. injection E as <- <-.
         exists [], (line (between c1 c2 t) c2). split; [reflexivity|]. apply (line_dir1 n); auto; [fold leg|]; lra. }
    constructor; [|constructor]. intros s S. apply (near_leg c1 c2 [] (s / norm (vsub c2 (between c1 c2 t))) _ 1 t); auto; try lra.
    { cbn [line cu_len] in S. split; [apply Rmult_le_pos; [lra|left; now apply Rinv_0_lt_compat]|].
      apply (Rmult_le_reg_r (norm (vsub c2 (between c1 c2 t)))); [exact NP|]. unfold Rdiv. rewrite Rmult_assoc, Rinv_l by lra. lra. }
    cbn [line cu_q]. f_equal. unfold between. veq n. ring.
  - inversion_clear D2 as [|? ? L3 D3]. destruct NR as (NR1 & NR). pose proof LL as (LG2 & _).
    rewrite (dist_sym n) in LG2 by assumption. unfold dist in LG2. set (leg2 := norm (vsub c3 c2)) in *.
    set (st := vscale (/ 2) (vadd c1 c2)). set (en := vscale (/ 2) (vadd c2 c3)).
    assert (Lst : length st = n) by (unfold st; vdim). assert (Len : length en = n) by (unfold en; vdim).
    assert (HV1 : vsub c2 st = vscale (/ 2) (vsub c2 c1)) by (apply (norm_half n); assumption).
    assert (HV2 : vsub en c2 = vscale (/ 2) (vsub c3 c2)) by (apply (norm_half n); assumption).
    assert (N1 : norm (vsub c2 st) = leg / 2) by (rewrite HV1, norm_scale, Rabs_pos_eq by lra; fold leg; field).
    assert (N2 : norm (vsub en c2) = leg2 / 2) by (rewrite HV2, norm_scale, Rabs_pos_eq by lra; fold leg2; field).
    set (u := unit_of (vsub c2 st)). set (w := unit_of (vsub en c2)).
    assert (EU : u = vscale (/ leg) (vsub c2 c1)) by (unfold u; rewrite HV1; apply unit_half; fold leg; lra).
    assert (EW : w = vscale (/ leg2) (vsub c3 c2)) by (unfold w; rewrite HV2; apply unit_half; fold leg2; lra).
    assert (Lu : length u = n) by (rewrite EU; vdim). assert (Lw : length w = n) by (rewrite EW; vdim).
    assert (Uu : dot u u = 1) by (apply unit_dot; lra). assert (Uw : dot w w = 1) by (apply unit_dot; lra).
    assert (NB : -1 < dot u w).
    { apply (not_back n); auto. intros E. apply NR1. exists (leg2 / leg). split; [apply Rdiv_lt_0_compat; lra|].
      veq n. apply (f_equal (fun v => nth i v 0)) in E. revert E. rewrite EU, EW. nths n. intros E.
      assert (E2 : / leg2 * (nth i c3 0 - nth i c2 0) = - (/ leg * (nth i c2 0 - nth i c1 0))) by lra.
      apply (f_equal (Rmult leg2)) in E2. rewrite <- Rmult_assoc, Rinv_r, Rmult_1_l in E2 by lra. rewrite E2. field. lra. }
    change (map fin (c2 :: c3 :: rest)) with (fin c2 :: fin c3 :: map fin rest). rewrite loop_step. change (altb xa (a_of xa 0) (XFin dev)) with (xltb (XFin 0) (XFin dev)). rewrite (proj2 (xltb_lt 0 dev) Hdev).
    rewrite !fin_add by congruence. cbn [bind]. rewrite half_lit, !fin_scale_l. fold st en.
    destruct (blend_cases n st c2 en dev Lst L2 Len Hdev) as [(FL & EB)|(NF & EB)].
    + (* passed through *)
      rewrite EB. cbn [bind]. change (a_of xa 0) with (XFin 0). rewrite degenerate_config by exact L2. cbn [bind].
      rewrite fin_sub by congruence. cbn [bind]. rewrite fin_norm, tiny_lit.
      assert (NV : norm (vsub c2 (between c1 c2 t)) = (1 - t) * leg).
      { replace (vsub c2 (between c1 c2 t)) with (vscale (1 - t) (vsub c2 c1)) by (unfold between; veq n; ring).
        rewrite norm_scale, Rabs_pos_eq by lra. reflexivity. }
      assert (NG : tiny < norm (vsub c2 (between c1 c2 t))) by (rewrite NV; nra).
      change (altb xa) with xltb. rewrite (proj2 (xltb_lt _ _) NG).
      destruct (MakeLinear xa (fin (between c1 c2 t)) (fin c2)) as [g1| | |] eqn:ML;
        try (unfold MakeLinear in ML; rewrite fin_sub in ML by congruence; discriminate).
      cbn [bind]. change (seg_length (degenerate c2 n)) with (XFin 0). rewrite degenerate_config by exact L2. cbn [bind].
      assert (B0 : between c2 c3 0 = c2) by (unfold between; veq n; ring).
      destruct (IH c2 c3 (between c2 c3 0) 0) as (gs & cs & EP & TR & SHP & GD & CH & ST & _ & LAST & NE & CO & SA & SM & EA); auto; try lra.
      rewrite B0 in *. cbn [map] in EP. rewrite EP. cbn [bind app].
      destruct (line_ends n (between c1 c2 t) c2 SD L2 ltac:(lra)) as (E0 & E1).
      exists (g1 :: degenerate c2 n :: gs), (line (between c1 c2 t) c2 :: cs). split; [reflexivity|]. split.
      { apply tracks_cons; [apply (line_follows n); auto; lra|]. apply tracks_skip; [reflexivity|exact TR]. }
      split; [constructor; [eapply linear_shaped; exact ML|constructor; [apply degenerate_shaped|exact SHP]]|].
      split; [constructor; [apply line_good; auto; lra|exact GD]|]. split.
      { cbn [chain]. rewrite E0, E1, (dist_refl n) by exact SD. split; [lra|exact CH]. }
      split; [intros _; do 2 eexists; split; [reflexivity|exact E0]|].
      split; [intros _; do 3 eexists; split; [reflexivity|]; split; [exact ML|];
        split; [exact L2|intros e; rewrite e in NG; change (tiny < dist c2 c2) in NG; rewrite (dist_refl n) in NG by exact L2; lra]|].
      split; [destruct LAST as (lr & lg & la & EL & LL0); exists (g1 :: degenerate c2 n :: lr), lg, la; split; [rewrite EL; reflexivity|exact LL0]|]. split.
      { constructor.
        - intros s S. apply (near_leg c1 c2 _ (s / norm (vsub c2 (between c1 c2 t))) _ 1 t); auto; try lra.
          { cbn [line cu_len] in S. split; [apply Rmult_le_pos; [lra|left; apply Rinv_0_lt_compat; lra]|].
            apply (Rmult_le_reg_r (norm (vsub c2 (between c1 c2 t)))); [lra|]. unfold Rdiv. rewrite Rmult_assoc, Rinv_l by lra. lra. }
          cbn [line cu_q]. f_equal. unfold between. veq n. ring.
        - eapply Forall_impl; [|exact NE]. intros c HH s S. right. now apply HH. }
      assert (LD : forall s, cu_t (line (between c1 c2 t) c2) s = u).
      { intros s. rewrite EU. apply (line_dir1 n); auto; [fold leg|]; lra. }
      apply (fun A B C D => conj A (conj B (conj C D))).
      4: { apply (ends_cons _ _ _ _ cs [_]). exact EA. }
      2: { do 2 eexists. split; [reflexivity|]. rewrite LD. exact EU. }
      2: { intros e He (CT & CT'). apply (smooth_cons n _ _ w); [exact Lw| |rewrite EW; exact SA|apply SM; assumption]. rewrite LD.
           change (direction c1 c2) with (vscale (/ leg) (vsub c2 c1)) in CT. change (direction c2 c3) with (vscale (/ leg2) (vsub c3 c2)) in CT.
           rewrite <- EU, <- EW in CT. destruct FL as [FL|[FL|FL]]; [lra..|]. fold u w in FL. unfold dist in *. lra. }
      change (removelast (c2 :: c3 :: rest)) with (c2 :: removelast (c3 :: rest)).
      destruct (ST eq_refl) as (c & r & -> & EQ). constructor.
      * apply Exists_cons_tl, Exists_cons_hd. exists 0. inversion_clear GD as [|? ? (GP & _) _]. split; [lra|]. rewrite EQ, (dist_refl n) by exact L2. lra.
      * eapply Forall_impl; [|exact CO]. intros y HH. now apply Exists_cons_tl.
    + (* a blend *)
      destruct (EB NB) as (d & p & g & EM & EG & DP & D1 & D2' & SL). clear EB. fold u w in EG, SL.
      assert (TU : 0 < norm (vsub u w)).
      { destruct (Rlt_or_le (norm (vsub u w)) tiny) as [L|L]; [|lra]. exfalso. apply NF. right. right. exact L. }
      rewrite EM. cbn [bind].
      pose proof (arc_follows n c2 u w d L2 Lu Lw Uu Uw TU NB DP p) as AF. rewrite <- EG in AF. pose proof AF as (AL & AP & AC).
      pose proof (rad_pos n u w d Lu Lw Uu Uw TU NB DP) as RP.
      destruct (AC 0 ltac:(lra)) as (AC0 & _). destruct (AC (cu_len (arc_curve c2 u w d)) ltac:(lra)) as (AC1 & _).
      assert (SG : shaped n g).
      { rewrite EG. exists (rad u w d), (acos (dot u w)), (ax c2 u w d), u. pose proof (half_range n u w Lu Lw Uu Uw TU NB) as HR. unfold half in HR.
        repeat split; auto; try lra. eapply ax_dim; eauto. }
      set (cv := arc_curve c2 u w d) in *.
      assert (Q0 : cu_q cv 0 = between c1 c2 (1 - d / leg)).
      { cbn [cv arc_curve cu_q]. replace (0 / rad u w d) with 0 by (field; lra). rewrite (arc_0 n) by assumption.
        rewrite EU. unfold between. veq n. field. lra. }
      assert (Q1 : cu_q cv (cu_len cv) = between c2 c3 (d / leg2)).
      { cbn [cv arc_curve cu_q cu_len]. replace (acos (dot u w) * rad u w d / rad u w d) with (2 * half u w) by (unfold half; field; lra).
        rewrite (arc_end n) by assumption. rewrite EW. unfold between. veq n. field. lra. }
      assert (T1 : / 2 <= 1 - d / leg <= 1).
      { assert (0 <= d / leg <= / 2); [|lra]. rewrite N1 in D1. split; [apply Rmult_le_pos; [lra|left; apply Rinv_0_lt_compat; lra]|].
        apply (Rmult_le_reg_r leg); [lra|]. unfold Rdiv. rewrite Rmult_assoc, Rinv_l by lra. lra. }
      assert (T2 : 0 <= d / leg2 <= / 2).
      { rewrite N2 in D2'. split; [apply Rmult_le_pos; [lra|left; apply Rinv_0_lt_compat; lra]|].
        apply (Rmult_le_reg_r leg2); [lra|]. unfold Rdiv. rewrite Rmult_assoc, Rinv_l by lra. lra. }
      change (a_of xa 0) with (XFin 0). rewrite AC0, Q0. cbn [bind]. rewrite AL, AC1, Q1.
      assert (ED : length (between c1 c2 (1 - d / leg)) = n) by vdim.
      rewrite fin_sub by congruence. cbn [bind]. rewrite fin_norm, tiny_lit.
      assert (NV : norm (vsub (between c1 c2 (1 - d / leg)) (between c1 c2 t)) = (1 - d / leg - t) * leg).
      { change (dist (between c1 c2 (1 - d / leg)) (between c1 c2 t) = (1 - d / leg - t) * leg).
        rewrite (between_diff n) by assumption. fold leg. now rewrite Rabs_pos_eq by lra. }
      destruct (IH c2 c3 (between c2 c3 (d / leg2)) (d / leg2)) as (gs & cs & EP & TR & SHP & GD & CH & _ & _ & LAST & NE & CO & SA & SM & EA); auto.
      assert (TA0 : cu_t cv 0 = u).
      { cbn [cv arc_curve cu_t]. replace (0 / rad u w d) with 0 by (field; lra). apply (tangent_0 n); assumption. }
      assert (TA1 : cu_t cv (cu_len cv) = w).
      { cbn [cv arc_curve cu_t cu_len]. replace (acos (dot u w) * rad u w d / rad u w d) with (2 * half u w) by (unfold half; field; lra).
        apply (tangent_end n); assumption. }
      assert (SMC : forall e, 0 <= e -> clear_turns e (c1 :: c2 :: c3 :: rest) -> smooth e (cv :: cs)).
      { intros e He (CT & CT'). apply (smooth_cons n _ _ w); [exact Lw| |rewrite EW; exact SA|apply SM; assumption]. rewrite TA1, (dist_refl n) by exact Lw. exact He. }
      destruct LAST as (lr & lg & la & EL & LL0).
      assert (NEAR : forall s, 0 <= s <= cu_len cv -> near_polyline dev (c1 :: c2 :: c3 :: rest) (cu_q cv s)).
      { intros s S. cbn [cv arc_curve cu_q cu_len] in *. set (a := s / rad u w d).
        assert (A : 0 <= a <= 2 * half u w).
        { unfold a. split; [apply Rmult_le_pos; [lra|left; now apply Rinv_0_lt_compat]|].
          apply (Rmult_le_reg_r (rad u w d)); [exact RP|]. replace (s / rad u w d * rad u w d) with s by (field; lra).
          replace (2 * half u w) with (acos (dot u w)) by (unfold half; field). lra. }
        destruct (Rle_or_lt a (half u w)) as [HA|HA].
        - destruct (first_half n c2 u w d L2 Lu Lw Uu Uw TU NB DP a ltac:(lra)) as (t3 & T3 & B3).
          left. exists (1 - t3 / leg). split.
          { rewrite N1 in D1. assert (0 <= t3 / leg <= 1); [|lra]. split; [apply Rmult_le_pos; [lra|left; apply Rinv_0_lt_compat; lra]|].
            apply (Rmult_le_reg_r leg); [lra|]. unfold Rdiv. rewrite Rmult_assoc, Rinv_l by lra. lra. }
          replace (between c1 c2 (1 - t3 / leg)) with (vsub c2 (vscale t3 u)); [unfold dist; lra|].
          rewrite EU. unfold between. veq n. field. lra.
        - destruct (second_half n c2 u w d L2 Lu Lw Uu Uw TU NB DP (2 * half u w - a) ltac:(lra)) as (t3 & T3 & B3).
          replace (2 * half u w - (2 * half u w - a)) with a in B3 by ring.
          right. left. exists (t3 / leg2). split.
          { rewrite N2 in D2'. split; [apply Rmult_le_pos; [lra|left; apply Rinv_0_lt_compat; lra]|].
            apply (Rmult_le_reg_r leg2); [lra|]. unfold Rdiv. rewrite Rmult_assoc, Rinv_l by lra. lra. }
          replace (between c2 c3 (t3 / leg2)) with (vadd c2 (vscale t3 w)); [unfold dist; lra|].
          rewrite EW. unfold between. veq n. field. lra. }
      assert (CORNER : exists s, 0 <= s < cu_len cv /\ dist (cu_q cv s) c2 <= dev).
      { exists (half u w * rad u w d). cbn [cv arc_curve cu_q cu_len]. pose proof (half_range n u w Lu Lw Uu Uw TU NB) as HR.
        split. { replace (acos (dot u w)) with (2 * half u w) by (unfold half; field). nra. }
        replace (half u w * rad u w d / rad u w d) with (half u w) by (field; lra).
        rewrite (dist_sym n) by (try exact L2; apply arc_dim; assumption).
        unfold dist. rewrite (corner_mid n) by assumption. exact SL. }
      assert (GA : good n cv) by (apply arc_good; assumption).
      assert (NE' : Forall (fun c => forall s, 0 <= s <= cu_len c -> near_polyline dev (c1 :: c2 :: c3 :: rest) (cu_q c s)) (cv :: cs)).
      { constructor; [exact NEAR|]. eapply Forall_impl; [|exact NE]. intros c HH s S. right. now apply HH. }
      assert (CO' : forall l, Forall (on_curves (l ++ cv :: cs)) (removelast (c2 :: c3 :: rest))).
      { intros l0. change (removelast (c2 :: c3 :: rest)) with (c2 :: removelast (c3 :: rest)). constructor.
        - apply Exists_app. right. apply Exists_cons_hd. exact CORNER.
        - eapply Forall_impl; [|exact CO]. intros y HH. apply Exists_app. right. now apply Exists_cons_tl. }
      change (altb xa) with xltb. destruct (xltb (XFin tiny) (XFin (norm (vsub (between c1 c2 (1 - d / leg)) (between c1 c2 t))))) eqn:GAP.
      * apply xltb_lt in GAP.
        destruct (MakeLinear xa (fin (between c1 c2 t)) (fin (between c1 c2 (1 - d / leg)))) as [g1| | |] eqn:ML;
          try (unfold MakeLinear in ML; rewrite fin_sub in ML by congruence; discriminate).
        cbn [bind]. cbn [map] in EP. rewrite EP. cbn [bind app].
        destruct (line_ends n _ _ SD ED ltac:(lra)) as (E0 & E1).
        exists (g1 :: g :: gs), (line (between c1 c2 t) (between c1 c2 (1 - d / leg)) :: cv :: cs). split; [reflexivity|]. split.
        { apply tracks_cons; [apply (line_follows n); auto; lra|]. now apply tracks_cons. }
        split; [constructor; [eapply linear_shaped; exact ML|constructor; [exact SG|exact SHP]]|].
        split; [constructor; [apply line_good; auto; lra|now constructor]|]. split.
        { cbn [chain]. rewrite E0, E1, Q0, Q1, !(dist_refl n) by assumption. split; [lra|]. split; [lra|exact CH]. }
        split; [intros _; do 2 eexists; split; [reflexivity|exact E0]|].
        split; [intros _; do 3 eexists; split; [reflexivity|]; split; [exact ML|];
          split; [exact ED|intros e; rewrite <- e in GAP; change (tiny < dist (between c1 c2 t) (between c1 c2 t)) in GAP; rewrite (dist_refl n) in GAP by exact SD; lra]|].
        split; [exists (g1 :: g :: lr), lg, la; split; [rewrite EL; reflexivity|exact LL0]|].
        assert (LD : forall s, cu_t (line (between c1 c2 t) (between c1 c2 (1 - d / leg))) s = u).
        { intros s. rewrite EU. apply (line_dir n); auto; [fold leg; lra|]. rewrite NV in GAP. nra. }
        split; [|split; [apply (CO' [_])|split; [do 2 eexists; split; [reflexivity|]; rewrite LD; exact EU|split; [|apply (ends_cons _ _ _ _ cs [_; _]); exact EA]]]].
        2: { intros e He CT. apply (smooth_cons n _ _ u); [exact Lu| |exists cv, cs; auto|apply SMC; assumption]. rewrite LD, (dist_refl n) by exact Lu. exact He. }
        constructor; [|exact NE']. intros s S.
        apply (near_leg c1 c2 _ (s / norm (vsub (between c1 c2 (1 - d / leg)) (between c1 c2 t))) _ (1 - d / leg) t); auto; try lra.
        cbn [line cu_len] in S. split; [apply Rmult_le_pos; [lra|left; apply Rinv_0_lt_compat; lra]|].
        match goal with |- ?a / ?b <= 1 => apply (Rmult_le_reg_r b); [lra|]; unfold Rdiv; rewrite Rmult_assoc, Rinv_l by lra; lra end.
      * apply xltb_ge in GAP. cbn [bind]. cbn [map] in EP. rewrite EP. cbn [bind app].
        exists (g :: gs), (cv :: cs). split; [reflexivity|]. split; [now apply tracks_cons|]. split; [now constructor|]. split; [now constructor|]. split.
        { cbn [chain]. rewrite Q0, Q1. split; [|exact CH]. rewrite (dist_sym n) by assumption. exact GAP. }
        split; [intros ->; exfalso; rewrite NV in GAP; nra|]. split; [intros ->; exfalso; rewrite NV in GAP; nra|].
        split; [|split; [exact NE'|split; [apply (CO' [])|split; [exists cv, cs; split; [reflexivity|rewrite TA0; exact EU]|split; [exact SMC|apply (ends_cons _ _ _ _ cs [_]); exact EA]]]]].
        exists (g :: lr), lg, la. split; [rewrite EL; reflexivity|exact LL0].
Qed.
End Loop.
