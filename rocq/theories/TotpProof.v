(** Trajectories of TotpModel.v: shape of the path and of the steps, lookup by time. *)
From Coq Require Import Lia List Bool Arith ZArith.
From Verif Require Import Base MathModel MathLinModel TotpModel.

Lemma bind_ok {A B} (x : outcome A) (f : A -> outcome B) b :
  bind x f = Ok b -> exists a, x = Ok a /\ f a = Ok b.
Proof. destruct x; cbn; intros H; try discriminate. eauto. Qed.
Ltac binds H :=
  repeat match type of H with
  | bind _ _ = Ok _ => let a := fresh "r" in let E := fresh "E" in
      apply bind_ok in H; destruct H as (a & E & H)
  end.

Lemma mfold_inv {S A} (P : S -> Prop) (f : S -> A -> outcome S) l : forall s r,
  P s -> (forall s x s', P s -> In x l -> f s x = Ok s' -> P s') -> mfold f s l = Ok r -> P r.
Proof.
  induction l as [|x l IH]; cbn; intros s r Ps Hf H.
  - injection H as <-. exact Ps.
  - binds H. eapply IH; [| |exact H].
    + eapply Hf; eauto.
    + intros; eapply Hf; eauto.
Qed.

Section Shape.
Context {A : Type} (ar : arith A) (ex : extras A).
Hypothesis le01 : aleb ar (a_of ar 0) (a_of ar 1) = true.

Lemma zip_with_length (f : A -> A -> A) u : forall v n, length u = n -> length v = n -> length (zip_with f u v) = n.
Proof. induction u as [|x u IH]; intros [|y v] n; cbn; intros; subst; try lia. f_equal. apply IH; lia. Qed.
Lemma eig_zip_ok (f : A -> A -> A) u v r : eig_zip f u v = Ok r -> length u = length v /\ length r = length v.
Proof.
  unfold eig_zip. destruct (Nat.eqb_spec (length u) (length v)) as [e|]; [|discriminate].
  intros H; injection H as <-. split; [exact e|]. now apply zip_with_length.
Qed.
Lemma eig_zip_total (f : A -> A -> A) u v n : length u = n -> length v = n -> exists r, eig_zip f u v = Ok r /\ length r = n.
Proof.
  intros Hu Hv. exists (zip_with f u v). unfold eig_zip. rewrite Hu, Hv, Nat.eqb_refl.
  split; [reflexivity|]. now apply zip_with_length.
Qed.
Lemma normalized_length v : length (eig_normalized ar v) = length v.
Proof. unfold eig_normalized, eig_over. destruct (altb _ _ _); now rewrite ?map_length. Qed.

(** All vectors of the segment have [n] components. *)
Definition seg_dim (n : nat) (g : @segment A) : Prop :=
  match seg_shape g with
  | LinearShape a b => length a = n /\ length b = n
  | CircularShape _ c x y => length c = n /\ length x = n /\ length y = n
  end.

Lemma interpolate_total u v n ratio : length u = n -> length v = n ->
  exists r, InterpolateVector ar u v ratio = Ok r /\ length r = n.
Proof.
  intros Hu Hv. unfold InterpolateVector, clamp01, UtilityModel.ClampValue. rewrite le01.
  assert (Z : forall f, exists r, zip_checked f u v = Ok r /\ length r = n).
  { intros f. exists (zip_with f u v). unfold zip_checked. rewrite Hu, Hv, Nat.eqb_refl. split; [reflexivity|now apply zip_with_length]. }
  destruct (altb ar ratio (a_of ar 0)); [|destruct (altb ar (a_of ar 1) ratio)]; cbn [bind]; apply Z.
Qed.

Lemma config_total n g s : seg_dim n g -> exists r, seg_config ar ex g s = Ok r /\ length r = n.
Proof.
  unfold seg_dim, seg_config. destruct (seg_shape g) as [a b|rd c x y].
  - intros (Ha & Hb). now apply interpolate_total.
  - intros (Hc & Hx & Hy). unfold eig_add, eig_scale.
    match goal with |- context [eig_zip ?f ?u ?v] => destruct (eig_zip_total f u v n) as (r & -> & Hr); [now rewrite map_length..|] end.
    cbn [bind]. apply eig_zip_total; [exact Hc|now rewrite map_length].
Qed.
Lemma tangent_total n g s : seg_dim n g -> exists r, seg_tangent ar ex g s = Ok r /\ length r = n.
Proof.
  unfold seg_dim, seg_tangent. destruct (seg_shape g) as [a b|rd c x y].
  - intros (Ha & Hb). unfold eig_sub. destruct (eig_zip_total (asub ar) b a n Hb Ha) as (r & -> & Hr).
    cbn [bind]. eexists; split; [reflexivity|]. unfold eig_over. now rewrite map_length.
  - intros (Hc & Hx & Hy). unfold eig_add, eig_scale, eig_opp. apply eig_zip_total; now rewrite ?map_length.
Qed.
Lemma curvature_total n g s : seg_dim n g -> exists r, seg_curvature ar ex g s = Ok r /\ length r = n.
Proof.
  unfold seg_dim, seg_curvature. destruct (seg_shape g) as [a b|rd c x y].
  - intros (Ha & Hb). eexists; split; [reflexivity|]. unfold eig_zero. now rewrite repeat_length.
  - intros (Hc & Hx & Hy). unfold eig_add, eig_scale.
    match goal with |- context [eig_zip ?f ?u ?v] => destruct (eig_zip_total f u v n) as (r & -> & Hr); [now rewrite map_length..|] end.
    cbn [bind]. eexists; split; [reflexivity|]. now rewrite map_length.
Qed.

Lemma linear_dim a b g : MakeLinear ar a b = Ok g -> length b = length a /\ seg_dim (length a) g.
Proof.
  unfold MakeLinear. intros H. binds H. injection H as <-. apply eig_zip_ok in E. cbn. destruct E. lia.
Qed.
Lemma circular_dim a m b d g : MakeCircular ar ex a m b d = Ok g ->
  length a = length m /\ length b = length m /\ seg_dim (length m) g.
Proof.
  unfold MakeCircular. intros H. binds H. apply eig_zip_ok in E, E0. destruct E as (E1 & E2), E0 as (E3 & E4).
  match type of H with (if ?c then _ else _) = _ => destruct c end.
  { injection H as <-. cbn. unfold eig_zero. rewrite !repeat_length. lia. }
  binds H. match type of H with (if ?c then _ else _) = _ => destruct c end.
  { injection H as <-. cbn. unfold eig_zero. rewrite !repeat_length. lia. }
  binds H. injection H as <-. cbn. unfold eig_add, eig_sub, eig_over, eig_scale in *.
  repeat match goal with E : eig_zip _ _ _ = Ok _ |- _ => apply eig_zip_ok in E; rewrite ?map_length, ?normalized_length in E end.
  rewrite ?normalized_length. lia.
Qed.

Lemma path_loop_dim d : forall rest start c1 segs, length c1 = length start ->
  path_loop ar ex d start c1 rest = Ok segs ->
  Forall (seg_dim (length start)) segs /\ Forall (fun w => length w = length start) rest.
Proof.
  induction rest as [|c2 rest IH]; intros start c1 segs Hc H; cbn [path_loop] in H.
  - injection H as <-. split; constructor.
  - assert (L : forall segs, (do l <- MakeLinear ar start c2; do others <- path_loop ar ex d c2 c2 rest; Ok (l :: others)) = Ok segs ->
        Forall (seg_dim (length start)) segs /\ Forall (fun w => length w = length start) (c2 :: rest)).
    { clear H segs. intros segs H. binds H. injection H as <-. destruct (linear_dim _ _ _ E) as (e & D).
      destruct (IH _ _ _ eq_refl E0) as (F1 & F2). rewrite e in F1, F2. split; constructor; assumption. }
    destruct rest as [|c3 rest']; [now apply L|].
    destruct (altb ar (a_of ar 0) d); [|now apply L].
    binds H. injection H as <-. destruct (circular_dim _ _ _ _ _ E1) as (X1 & X2 & D). rewrite map_length in X1, X2.
    apply eig_zip_ok in E, E0. destruct (config_total _ _ (a_of ar 0) D) as (q & Q & HQ).
    destruct (config_total _ _ (seg_length r1) D) as (q' & Q' & HQ').
    rewrite Q in E2. injection E2 as ->. rewrite Q' in E5. injection E5 as ->.
    assert (e : length c2 = length start) by (destruct E; lia).
    destruct (IH _ _ _ (eq_sym HQ') E6) as (F1 & F2). rewrite HQ', e in F1, F2.
    rewrite e in D. split; [|now constructor].
    apply Forall_app. split; [|now constructor].
    destruct (altb ar _ (eig_norm ar r3)).
    + binds E4. injection E4 as <-. destruct (linear_dim _ _ _ E2) as (_ & ?). now constructor.
    + injection E4 as <-. constructor.
Qed.

Lemma place_dim n segs : forall s r, Forall (seg_dim n) (snd s) -> Forall (seg_dim n) segs ->
  mfold (place_step ar ex) s segs = Ok r -> Forall (seg_dim n) (snd r).
Proof.
  intros s r H0 Hs. apply (mfold_inv (fun s => Forall (seg_dim n) (snd s))); [exact H0|].
  intros [[len pts] done] x s' P I H. unfold place_step in H. binds H. injection H as <-. cbn. constructor; [|exact P].
  rewrite Forall_forall in Hs. specialize (Hs x I). exact Hs.
Qed.
Lemma place_length segs : forall s r, mfold (place_step ar ex) s segs = Ok r -> length (snd r) = (length (snd s) + length segs)%nat.
Proof.
  induction segs as [|x segs IH]; intros s r H; cbn in H.
  - injection H as <-. cbn. lia.
  - binds H. rewrite (IH _ _ H). destruct s as [[len pts] done]. unfold place_step in E. binds E. injection E as <-. cbn. lia.
Qed.

(** A path that was built has segments, all of the dimension of the waypoints. *)
Definition path_dim (n : nat) (p : @path A) : Prop := path_segments p <> [] /\ Forall (seg_dim n) (path_segments p).

Lemma path_loop_nonempty d start c1 c2 rest segs : path_loop ar ex d start c1 (c2 :: rest) = Ok segs -> segs <> [].
Proof.
  cbn [path_loop]. intros H.
  assert (L : (do l <- MakeLinear ar start c2; do others <- path_loop ar ex d c2 c2 rest; Ok (l :: others)) = Ok segs -> segs <> []).
  { clear H. intros H. binds H. injection H as <-. discriminate. }
  destruct rest as [|c3 rest']; [now apply L|].
  destruct (altb ar (a_of ar 0) d); [|now apply L].
  binds H. injection H as <-. intros e. now apply app_eq_nil in e as (_ & ?).
Qed.
Lemma path_shape ws d p : MakePath ar ex ws d = Ok p ->
  exists n, path_dim n p /\ Forall (fun w => length w = n) ws /\ ws <> [].
Proof.
  unfold MakePath. destruct ws as [|c1 [|c2 rest]]; try discriminate.
  destruct (e_finite ex d); [|discriminate]. intros H. binds H. destruct r0 as [[len pts] done]. injection H as <-.
  destruct (path_loop_dim _ _ _ _ _ eq_refl E) as (F1 & F2). exists (length c1).
  pose proof (place_dim (length c1) _ (a_of ar 0, [], []) _ (Forall_nil _) F1 E0) as F3. pose proof (place_length _ _ _ E0) as L. cbn in F3, L.
  apply path_loop_nonempty in E. split; [|split; [now constructor|discriminate]]. split; cbn.
  - intros e. apply (f_equal (@length _)) in e. rewrite rev_length in e. destruct r; [congruence|cbn in *; lia].
  - now apply Forall_rev.
Qed.

Lemma walk_in (P : @segment A -> Prop) : forall rest it s, P it -> Forall P rest -> P (fst (segment_walk ar it rest s)).
Proof.
  induction rest as [|n r IH]; cbn; intros it s H F; [exact H|]. inversion_clear F.
  destruct (aleb ar (seg_position n) s); [now apply IH|exact H].
Qed.
Lemma segment_total n p s : path_dim n p -> exists g s', GetPathSegment ar p s = Ok (g, s') /\ seg_dim n g.
Proof.
  intros (N & F). unfold GetPathSegment. destruct (path_segments p) as [|g r]; [congruence|]. inversion_clear F.
  destruct (segment_walk ar g r s) as [g' s'] eqn:e. exists g', s'. split; [reflexivity|].
  change g' with (fst (g', s')). rewrite <- e. now apply walk_in.
Qed.
Lemma GetConfig_total n p s : path_dim n p -> exists r, GetConfig ar ex p s = Ok r /\ length r = n.
Proof. intros H. destruct (segment_total n p s H) as (g & s' & e & D). unfold GetConfig. rewrite e. cbn [bind fst snd]. now apply config_total. Qed.
Lemma GetTangent_total n p s : path_dim n p -> exists r, GetTangent ar ex p s = Ok r /\ length r = n.
Proof. intros H. destruct (segment_total n p s H) as (g & s' & e & D). unfold GetTangent. rewrite e. cbn [bind fst snd]. now apply tangent_total. Qed.
Lemma GetCurvature_total n p s : path_dim n p -> exists r, GetCurvature ar ex p s = Ok r /\ length r = n.
Proof. intros H. destruct (segment_total n p s H) as (g & s' & e & D). unfold GetCurvature. rewrite e. cbn [bind fst snd]. now apply curvature_total. Qed.

(** The steps (back first) of a trajectory under construction: at least two, the last
    of them the start. *)
Notation c0 := (a_of ar 0).
Definition from_start (l : list (A * A)) : Prop := exists r, l = r ++ [(c0, c0)].
Lemma forward_shape su fuel0 : forall fuel pts tr pos vel acc r tr', from_start tr ->
  IntegrateForward_loop ar ex fuel0 fuel su pts tr pos vel acc = Ok (r, tr') -> from_start tr' /\ (2 <= length tr')%nat.
Proof.
  assert (C : forall x tr, from_start tr -> from_start (x :: tr)).
  { intros x tr (r & ->). exists (x :: r). reflexivity. }
  assert (C2 : forall x tr, from_start tr -> (2 <= length (x :: tr))%nat).
  { intros x tr (r & ->). cbn. rewrite app_length. cbn. lia. }
  induction fuel as [|fuel IH]; intros pts tr pos vel acc r tr' F H; [discriminate|].
  cbn [IntegrateForward_loop] in H.
  match type of H with (let '(_, _) := ?x in _) = _ => destruct x as [p v] end.
  destruct (altb ar (path_length (su_path su)) p).
  { injection H as _ <-. split; [now apply C|now apply C2 with (x := (p, v))]. }
  destruct (altb ar v c0); [discriminate|]. binds H.
  destruct r2.
  - destruct tr as [|[b_pos b_vel] tr0]; [discriminate|]. binds H. destruct r2 as [[bf bv] af]. binds H.
    destruct r4; [injection H as _ <-|].
    + split; [now apply C|now apply C2 with (x := (bf, bv))].
    + eapply IH; [|exact H]. now apply C.
  - eapply IH; [|exact H]. now apply C.
Qed.
Lemma rev_append_app {X} (l : list X) m : rev_append l m = rev l ++ m.
Proof. apply rev_append_rev. Qed.
Lemma backward_shape su : forall fuel s2 s1 earlier back pos vel acc slope r, from_start (s1 :: earlier) ->
  IntegrateBackward_loop ar ex fuel su s2 s1 earlier back pos vel acc slope = Ok r -> from_start r /\ (2 <= length r)%nat.
Proof.
  induction fuel as [|fuel IH]; intros s2 s1 earlier back pos vel acc slope r F H; [discriminate|].
  cbn [IntegrateBackward_loop] in H.
  match type of H with (if ?c then _ else _) = _ => destruct c; [|discriminate] end. binds H.
  destruct r0 as [[[[[[s2' s1'] earlier'] back'] [pos' vel']] acc'] slope'].
  assert (F' : from_start (s1' :: earlier')).
  { destruct (aleb ar (fst s1) pos).
    - binds E. destruct (altb ar _ c0); [discriminate|]. injection E as <- <- <- _ _ _ _ _. exact F.
    - destruct earlier as [|e rr]; [discriminate|]. injection E as <- <- <- _ _ _ _ _. destruct F as (q & Q).
      destruct q as [|q0 q]; cbn in Q; [discriminate|]. injection Q as _ Q. now exists q. }
  binds H. destruct r0.
  - injection H as <-. rewrite rev_append_app. destruct F' as (q & Q). rewrite Q. split.
    + eexists (rev back' ++ _ :: q). rewrite <- app_assoc. reflexivity.
    + rewrite !app_length. cbn. rewrite app_length. cbn. lia.
  - eapply IH; [|exact H]. exact F'.
Qed.
Lemma IntegrateBackward_shape su fuel tr pos vel acc r : from_start tr ->
  IntegrateBackward ar ex fuel su tr pos vel acc = Ok r -> from_start r /\ (2 <= length r)%nat.
Proof.
  intros F H. unfold IntegrateBackward in H. destruct tr as [|s2 [|s1 earlier]]; try discriminate.
  destruct (altb ar pos (fst s1)); [discriminate|]. eapply backward_shape; [|exact H].
  destruct F as (q & Q). destruct q as [|q0 q]; cbn in Q; [discriminate|]. injection Q as _ Q. now exists q.
Qed.
Lemma integrate_shape su fuel0 : forall fuel tr acc r, from_start tr ->
  integrate ar ex fuel0 fuel su tr acc = Ok r -> from_start r /\ (2 <= length r)%nat.
Proof.
  induction fuel as [|fuel IH]; intros tr acc r F H; [discriminate|]. cbn [integrate] in H. binds H.
  destruct r0 as [e tr']. unfold IntegrateForward in E.
  destruct tr as [|[p v] tr0]; [discriminate|]. destruct (forward_shape _ _ _ _ _ _ _ _ _ _ F E) as (F' & L).
  destruct e; [now injection H as <-|].
  destruct tr' as [|[p' v'] tr1]; [discriminate|]. binds H.
  destruct r0 as [[[[sp sv] b] a]|]; [|now injection H as <-].
  binds H. destruct (IntegrateBackward_shape _ _ _ _ _ _ _ F' E1) as (F2 & L2). eapply IH; [exact F2|exact H].
Qed.
(** The last step of a backward integration is where it started. *)
Definition origin (back : list (A * A)) (pos vel : A) : A * A := match rev back with x :: _ => x | [] => (pos, vel) end.
Lemma origin_cons back pos vel pos' vel' : origin ((pos, vel) :: back) pos' vel' = origin back pos vel.
Proof. unfold origin. cbn [rev]. destruct (rev back); reflexivity. Qed.
Lemma backward_last su : forall fuel s2 s1 earlier back pos vel acc slope r,
  IntegrateBackward_loop ar ex fuel su s2 s1 earlier back pos vel acc slope = Ok r ->
  hd_error r = Some (origin back pos vel).
Proof.
  induction fuel as [|fuel IH]; intros s2 s1 earlier back pos vel acc slope r H; [discriminate|].
  cbn [IntegrateBackward_loop] in H.
  match type of H with (if ?c then _ else _) = _ => destruct c; [|discriminate] end. binds H.
  destruct r0 as [[[[[[s2' s1'] earlier'] back'] [pos' vel']] acc'] slope'].
  assert (B : origin back' pos' vel' = origin back pos vel).
  { destruct (aleb ar (fst s1) pos).
    - binds E. destruct (altb ar _ c0); [discriminate|]. injection E as <- <- <- <- _ _ _ _. apply origin_cons.
    - destruct earlier as [|e rr]; [discriminate|]. injection E as <- <- <- <- <- <- _ _. reflexivity. }
  binds H. destruct r0.
  - injection H as <-. rewrite rev_append_app, <- B. unfold origin.
    assert (N : back' <> []).
    { destruct (aleb ar (asub ar _ _) _); [|discriminate]. destruct back'; discriminate. }
    destruct (rev back') eqn:e; [|reflexivity]. apply (f_equal (@rev _)) in e. rewrite rev_involutive in e. now subst.
  - rewrite <- B. eapply IH, H.
Qed.
Lemma IntegrateBackward_last su fuel tr pos vel acc r :
  IntegrateBackward ar ex fuel su tr pos vel acc = Ok r -> hd_error r = Some (pos, vel).
Proof.
  unfold IntegrateBackward. destruct tr as [|s2 [|s1 earlier]]; try discriminate.
  destruct (altb ar pos (fst s1)); [discriminate|]. intros H. now apply backward_last in H.
Qed.

Lemma timing_steps : forall l p, map (fun t => (t_pos t, t_vel t)) (timing ar p l) = l.
Proof. induction l as [|[x v] l IH]; intros p; cbn; [reflexivity|]. now rewrite IH. Qed.
Lemma add_times_steps l : map (fun t => (t_pos t, t_vel t)) (add_times ar l) = l.
Proof. destruct l as [|[x v] l]; cbn; [reflexivity|]. now rewrite timing_steps. Qed.

(** What every constructed trajectory looks like. *)
Record built (tr : @trajectory A) : Prop := {
  b_dim : exists n, path_dim n (tr_path tr);
  b_first : hd_error (tr_steps tr) = Some (mkTimed c0 c0 c0);
  b_last : exists l t, tr_steps tr = l ++ [t] /\ l <> [] /\ t_pos t = path_length (tr_path tr) /\ t_vel t = c0;
}.
Lemma parametrize_built fuel ws vmax amax d dt tr :
  ParametrizePathTOTP ar ex fuel ws vmax amax d dt = Ok tr -> built tr.
Proof.
  unfold ParametrizePathTOTP. intros H. binds H.
  destruct (path_shape _ _ _ E) as (n & D & _).
  destruct (negb _); [discriminate|]. destruct (negb _); [discriminate|]. destruct (negb _); [discriminate|].
  binds H. injection H as <-. destruct (integrate_shape _ _ _ _ _ _ (ex_intro _ [] eq_refl) E1) as (F & _).
  destruct (IntegrateBackward_shape _ _ _ _ _ _ _ F E3) as ((q & Q) & L2).
  pose proof (IntegrateBackward_last _ _ _ _ _ _ _ E3) as HL.
  constructor; cbn [tr_path tr_steps].
  - eauto.
  - rewrite Q, rev_app_distr. reflexivity.
  - destruct r3 as [|x r3]; [discriminate|]. cbn in HL. injection HL as ->. cbn [rev].
    pose proof (add_times_steps (rev r3 ++ [(path_length r, c0)])) as S.
    destruct (add_times ar (rev r3 ++ [(path_length r, c0)])) as [|t0 l0] eqn:e using rev_ind.
    + apply (f_equal (@length _)) in S. rewrite app_length in S. cbn in S. lia.
    + exists l0, t0. rewrite map_app in S. cbn in S. apply app_inj_tail in S as (S1 & S2). injection S2 as S2 S3.
      repeat split; [|exact S2|exact S3]. intros ->. cbn in S1. destruct r3; [cbn in L2; lia|]. cbn in S1. now apply app_cons_not_nil in S1.
Qed.
End Shape.
