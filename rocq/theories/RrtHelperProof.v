(** Proofs about the functions that make RRT callbacks (C48, C81, C83-C85). *)
From Coq Require Import Reals Lra Lia Sorting.Sorted.
From Flocq Require Import Core BinarySingleNaN.
From Verif Require Import Base Double DoubleFacts Effect VoxelModel VoxelFloat UtilityModel UtilitySpec UtilityProof
  KnnModel KnnSpec KnnProof RrtModel RrtSpec RrtProof RrtHelperModel RrtHelperSpec.
Local Open Scope Z_scope.

Lemma ebind_ok {S A B} (m : eff S A) (f : A -> eff S B) s b s' :
  ebind m f s = (Ok b, s') -> exists a s1, m s = (Ok a, s1) /\ f a s1 = (Ok b, s').
Proof. unfold ebind. destruct (m s) as [[a|e| |] s1]; intros H; try discriminate. eauto. Qed.
Lemma lift_ok {S A} (x : outcome A) (s : S) a s' : lift x s = (Ok a, s') -> x = Ok a /\ s' = s.
Proof. unfold lift. intros H. injection H as -> ->. auto. Qed.
Lemma ebind_total {S A B} (m : eff S A) (f : A -> eff S B) : total m -> (forall a, total (f a)) -> total (ebind m f).
Proof. intros Hm Hf w. destruct (Hm w) as (a & w1 & E). destruct (Hf a w1) as (b & w2 & E2). exists b, w2. unfold ebind. rewrite E. exact E2. Qed.
Lemma ret_total {S A} (a : A) : total (@ret S A a).
Proof. intros w. exists a, w. reflexivity. Qed.

(** ** Extend and Connect *)
Section Propagation.
Context {S W : Type}.
Variable distance_fn : S -> S -> eff W double.
Variable interpolate : S -> S -> double -> eff W S.
Variable valid : S -> S -> eff W bool.
Variable step : double.
Variable edge : S -> S -> Prop.
Hypothesis VALID : forall a b w w', valid a b w = (Ok true, w') -> edge a b.

Lemma extend_sound nearest sampled w props w' :
  extend_propagation distance_fn interpolate valid step nearest sampled w = (Ok props, w') ->
  joined edge nearest props /\ is_chain props /\ (length props <= 1)%nat.
Proof.
  unfold extend_propagation. intros H.
  apply ebind_ok in H as (d & w1 & _ & H). cbv zeta in H. apply ebind_ok in H as (x & w2 & _ & H).
  apply ebind_ok in H as (b & w3 & E & H). destruct b; injection H as <- _.
  - split; [|split; [|cbn; lia]].
    + intros [|k] c r N; [|destruct k; discriminate]. cbn in N. injection N as <- <-. split; [intros _; eapply VALID; exact E|lia].
    + intros [|k] c r N; [|destruct k; discriminate]. cbn in N. injection N as <- <-. reflexivity.
  - split; [|split; [|cbn; lia]]; intros [|k] c r N; discriminate.
Qed.

(** A chain below [from] whose last state is [current]. *)
Definition chain_to (from current : S) (props : list (S * Z)) : Prop :=
  is_chain props /\ joined edge from props /\ reached from props = current.

Lemma reached_snoc from (props : list (S * Z)) c r : reached from (props ++ [(c, r)]) = c.
Proof. unfold reached. rewrite map_app. cbn [map fst]. apply last_last. Qed.

Lemma reached_cases from (props : list (S * Z)) :
  (props = [] /\ reached from props = from) \/
  (exists pre c r, props = pre ++ [(c, r)] /\ reached from props = c).
Proof.
  destruct props as [|p props] using rev_ind; [left; auto|]. right. destruct p as [c r]. exists props, c, r. split; [reflexivity|apply reached_snoc].
Qed.

Lemma chain_snoc from current props c : chain_to from current props -> edge current c ->
  chain_to from c (props ++ [(c, Z.of_nat (length props) - 1)]).
Proof.
  intros (C & J & R) E. split; [|split; [|apply reached_snoc]].
  - intros k c' r' N. destruct (Nat.lt_ge_cases k (length props)) as [L|L].
    + rewrite nth_error_app1 in N by exact L. eapply C; eauto.
    + rewrite nth_error_app2 in N by exact L. destruct (k - length props)%nat as [|m] eqn:K; [|destruct m; discriminate].
      cbn in N. injection N as <- <-. f_equal. lia.
  - intros k c' r' N. destruct (Nat.lt_ge_cases k (length props)) as [L|L].
    + rewrite nth_error_app1 in N by exact L. destruct (J k c' r' N) as [J1 J2]. split; [exact J1|].
      intros c0 r0 P N0. apply (J2 c0 r0 P). pose proof (C k c' r' N). rewrite nth_error_app1 in N0 by lia. exact N0.
    + rewrite nth_error_app2 in N by exact L. destruct (k - length props)%nat as [|m] eqn:K; [|destruct m; discriminate].
      cbn in N. injection N as <- <-. rewrite <- R in E.
      destruct (reached_cases from props) as [[-> R0]|(pre & c0 & r0 & -> & R0)]; rewrite R0 in E.
      * split; [intros _; exact E|]. cbn. lia.
      * rewrite app_length. cbn [length]. split; [lia|]. intros c1 r1 P N1.
        replace (Z.to_nat (Z.of_nat (length pre + 1) - 1)) with (length pre) in N1 by lia.
        rewrite <- app_assoc, nth_error_app2, Nat.sub_diag in N1 by lia. cbn in N1. injection N1 as <- <-. exact E.
Qed.

(** The comparison with epsilon. *)
Lemma epsilon_value : B2R epsilon = bpow radix2 (-52) /\ is_finite epsilon = true.
Proof.
  assert (E : epsilon = @B754_finite 53 1024 false 4503599627370496 (-104) eq_refl) by (apply B2SF_inj; vm_compute; reflexivity).
  rewrite E. split; [|reflexivity]. unfold B2R, F2R. cbn [Fnum Fexp cond_Zopp].
  change (IZR 4503599627370496) with (IZR (Zpower 2 52)). change (IZR (Zpower 2 52)) with (IZR (Zpower radix2 52)). rewrite IZR_Zpower by lia. rewrite <- bpow_plus. reflexivity.
Qed.
Lemma negligible_iff d : dle (Babs d) epsilon = true <-> negligible d.
Proof.
  unfold negligible. destruct epsilon_value as [V F]. split.
  - intros L. assert (FD : is_finite d = true) by (destruct d as [| [|] | |]; try reflexivity; vm_compute in L; discriminate).
    split; [exact FD|]. apply dle_R in L; [|now rewrite is_finite_Babs|exact F]. now rewrite V, B2R_Babs in L.
  - intros [FD L]. apply dle_R; [now rewrite is_finite_Babs|exact F|]. now rewrite V, B2R_Babs.
Qed.

(** Why the loop ended before the bound was reached. *)
Lemma connect_loop_sound from sampled : forall remaining current offset props w out w',
  chain_to from current props -> offset = Z.of_nat (length props) - 1 ->
  connect_loop distance_fn interpolate valid step remaining sampled current offset props w = (Ok out, w') ->
  is_chain out /\ joined edge from out /\ (length out <= length props + remaining)%nat /\
  (length out = length props + remaining \/ arrived distance_fn valid step from sampled out)%nat.
Proof.
  induction remaining as [|rest IH]; intros current offset props w out w' C O H; cbn [connect_loop] in H.
  { injection H as <- _. destruct C as (A & B & _). split; [exact A|]. split; [exact B|]. split; [lia|left; lia]. }
  apply ebind_ok in H as (d & w1 & ED & H). destruct (dlt step d) eqn:L.
  - apply ebind_ok in H as (x & w2 & _ & H). apply ebind_ok in H as (b & w3 & E & H). destruct b.
    + apply (IH x (offset + 1)) in H; [|subst offset; apply (chain_snoc _ _ _ _ C); eapply VALID; exact E|rewrite app_length; cbn; lia].
      rewrite app_length in H. cbn [length] in H. destruct H as (A & B & L1 & L2). split; [exact A|]. split; [exact B|].
      split; [lia|]. destruct L2 as [L2|L2]; [left; lia|right; exact L2].
    + injection H as <- _. destruct C as (A & B & R). split; [exact A|]. split; [exact B|]. split; [lia|]. right.
      exists current, w2, w3. split; [auto|]. right. left. eauto.
  - destruct (dle (Babs d) epsilon) eqn:LE.
    + injection H as <- _. destruct C as (A & B & R). split; [exact A|]. split; [exact B|]. split; [lia|]. right.
      exists current, w, w1. split; [auto|]. right. right. exists d. split; [exact ED|]. split; [exact L|]. now apply negligible_iff.
    + apply ebind_ok in H as (b & w3 & E & H). destruct b.
      * injection H as <- _. subst offset. destruct (chain_snoc _ _ _ _ C (VALID _ _ _ _ E)) as (A & B & R).
        split; [exact A|]. split; [exact B|]. rewrite app_length. cbn [length]. split; [lia|]. right.
        exists sampled, w1, w3. split; [auto|]. left.
        exists props, (Z.of_nat (length props) - 1), d, w, w1. split; [reflexivity|]. split; [|split; [exact L|rewrite <- negligible_iff; congruence]].
        destruct C as (_ & _ & <-). exact ED.
      * injection H as <- _. destruct C as (A & B & R). split; [exact A|]. split; [exact B|]. split; [lia|]. right.
        exists current, w1, w3. split; [auto|]. right. left. eauto.
Qed.

Lemma ceil_val (x : double) : - dfloor_Z (Bopp x) = Zceil (B2R x).
Proof. rewrite dfloor_Zfloor, B2R_Bopp. reflexivity. Qed.
Lemma ceil32_inv x z : ceil_to_int32 x = Ok z -> is_finite x = true /\ z = Zceil (B2R x) /\ - 2 ^ 31 <= z < 2 ^ 31.
Proof.
  unfold ceil_to_int32. destruct (is_finite x) eqn:F; [|discriminate]. rewrite ceil_val.
  destruct (Z.leb_spec (- 2 ^ 31) (Zceil (B2R x))); [|discriminate].
  destruct (Z.ltb_spec (Zceil (B2R x)) (2 ^ 31)); [|discriminate]. cbn [andb]. intros E. injection E as <-. auto.
Qed.
Lemma ceil32_ok x : is_finite x = true -> - 2 ^ 31 <= Zceil (B2R x) < 2 ^ 31 -> ceil_to_int32 x = Ok (Zceil (B2R x)).
Proof.
  intros F R. unfold ceil_to_int32. rewrite F, ceil_val. cbv zeta.
  rewrite (proj2 (Z.leb_le _ _)), (proj2 (Z.ltb_lt _ _)) by lia. reflexivity.
Qed.

Lemma connect_sound nearest sampled w props w' :
  connect_propagation distance_fn interpolate valid step nearest sampled w = (Ok props, w') ->
  joined edge nearest props /\ is_chain props /\
  exists d w1, distance_fn nearest sampled w = (Ok d, w1) /\
    Z.of_nat (length props) <= Z.max 0 (step_bound d step) /\
    (Z.of_nat (length props) = Z.max 0 (step_bound d step) \/ arrived distance_fn valid step nearest sampled props).
Proof.
  unfold connect_propagation. intros H.
  apply ebind_ok in H as (d & w1 & ED & H). apply ebind_ok in H as (n & w2 & EN & H). apply lift_ok in EN as [EN ->].
  apply ceil32_inv in EN as (F & EN & R). apply (connect_loop_sound nearest) in H; [|split; [|split]|reflexivity].
  - destruct H as (A & B & C & D). split; [exact B|]. split; [exact A|]. exists d, w1. split; [exact ED|].
    fold (step_bound d step) in EN. rewrite <- EN. cbn [length] in *. split; [lia|]. destruct D as [D|D]; [left; lia|right; exact D].
  - intros [|k] c r N; discriminate.
  - intros [|k] c r N; discriminate.
  - reflexivity.
Qed.

Hypothesis TD : forall a b, total (distance_fn a b).
Hypothesis TI : forall a b r, total (interpolate a b r).
Hypothesis TV : forall a b, total (valid a b).

Lemma extend_total nearest sampled : total (extend_propagation distance_fn interpolate valid step nearest sampled).
Proof.
  unfold extend_propagation. apply ebind_total; [apply TD|]. intros d. cbv zeta. apply ebind_total.
  - destruct (dlt _ one); [apply TI|apply ret_total].
  - intros x. apply ebind_total; [apply TV|]. intros [|]; apply ret_total.
Qed.
Lemma connect_loop_total sampled : forall remaining current offset props,
  total (connect_loop distance_fn interpolate valid step remaining sampled current offset props).
Proof.
  induction remaining as [|rest IH]; intros current offset props; cbn [connect_loop]; [apply ret_total|].
  apply ebind_total; [apply TD|]. intros d. destruct (dlt step d).
  - apply ebind_total; [apply TI|]. intros x. apply ebind_total; [apply TV|]. intros [|]; [apply IH|apply ret_total].
  - destruct (dle _ _); [apply ret_total|]. apply ebind_total; [apply TV|]. intros [|]; apply ret_total.
Qed.
(** RRT-Connect is defined exactly when the number of steps is an int32_t. *)
Lemma connect_defined nearest sampled w d w1 : distance_fn nearest sampled w = (Ok d, w1) ->
  (is_finite (ddiv d step) = true -> - 2 ^ 31 <= step_bound d step < 2 ^ 31 ->
     exists props w', connect_propagation distance_fn interpolate valid step nearest sampled w = (Ok props, w')) /\
  (is_finite (ddiv d step) = false \/ ~ (- 2 ^ 31 <= step_bound d step < 2 ^ 31) ->
     fst (connect_propagation distance_fn interpolate valid step nearest sampled w) = UB).
Proof.
  intros ED. unfold connect_propagation, ebind. rewrite ED. unfold lift. split.
  - intros F R. rewrite (ceil32_ok _ F R). apply connect_loop_total.
  - intros H. destruct (ceil_to_int32 (ddiv d step)) as [n|e| |] eqn:EN.
    + apply ceil32_inv in EN as (F & EN & R). subst n. destruct H as [H|H]; [congruence|]. elim H. exact R.
    + unfold ceil_to_int32 in EN. destruct (is_finite _); [|discriminate]. cbv zeta in EN. destruct (_ && _); discriminate.
    + reflexivity.
    + unfold ceil_to_int32 in EN. destruct (is_finite _); [|discriminate]. cbv zeta in EN. destruct (_ && _); discriminate.
Qed.
End Propagation.

(** A distance for which the cast is undefined: step 1, distance 2^40. *)
Lemma connect_overflow : exists (distance : Z -> Z -> eff unit double) interpolate valid (step : double),
  (forall a b, exists d, is_finite d = true /\ (0 <= B2R d)%R /\ forall w, distance a b w = (Ok d, w)) /\
  (forall a b r, total (interpolate a b r)) /\ (forall a b, total (valid a b)) /\
  exists f, MakeKinematicRRTConnectPropagationFunction distance interpolate valid step = Ok f /\ fst (f 0 1 tt) = UB.
Proof.
  exists (fun _ _ => ret (d_of_Z (2 ^ 40))), (fun _ b _ => ret b), (fun _ _ => ret true), (d_of_Z 1).
  split; [|split; [|split]].
  - intros a b. exists (d_of_Z (2 ^ 40)). destruct (d_of_Z_exact (2 ^ 40)) as [E F]; [vm_compute; discriminate|].
    split; [exact F|]. split; [rewrite E; apply IZR_le; vm_compute; discriminate|]. reflexivity.
  - intros a b r. apply ret_total.
  - intros a b. apply ret_total.
  - eexists. split; [vm_compute; reflexivity|]. vm_compute. reflexivity.
Qed.

(** ** Samplers *)
Lemma Ok_inj {A} (a b : A) : Ok a = Ok b -> a = b.
Proof. congruence. Qed.

Section Samplers.
Context {S W : Type}.
Variable uniform : eff W double.
Hypothesis UNIT : unit_source uniform.

Lemma goals_sampling sampler (goals : list S) bias f :
  (Z.of_nat (length goals) < 2 ^ 64) ->
  MakeStateAndGoalsSamplingFunction sampler goals bias uniform = Ok f ->
  forall w x w', f w = (Ok x, w') ->
  (exists u w1, uniform w = (Ok u, w1) /\
     ((dlt bias u = true /\ sampler w1 = (Ok x, w')) \/ (dlt bias u = false /\ In x goals))).
Proof.
  intros LG. unfold MakeStateAndGoalsSamplingFunction. destruct (_ || _); [discriminate|].
  destruct goals as [|g goals]; [discriminate|]. intros E. apply Ok_inj in E. subst f. intros w x w' H.
  apply ebind_ok in H as (u & w1 & EU & H). exists u, w1. split; [exact EU|]. destruct (dlt bias u); [left; auto|right]. split; [reflexivity|].
  destruct (length (g :: goals) =? 1)%nat.
  - apply lift_ok in H as [H _]. unfold at_get in H. cbn in H. injection H as <-. left. reflexivity.
  - apply ebind_ok in H as (v & w2 & EV & H). apply ebind_ok in H as (i & w3 & EI & H). apply lift_ok in H as [H _].
    unfold at_get in H. destruct (nth_error _ _) eqn:N; [|discriminate]. injection H as <-. eapply nth_error_In. exact N.
Qed.

(** The sampler only fails when the user's functions fail. *)
Lemma goals_sampling_total sampler (goals : list S) bias f : Z.of_nat (length goals) < 2 ^ 64 ->
  MakeStateAndGoalsSamplingFunction sampler goals bias uniform = Ok f -> total uniform -> total sampler -> total f.
Proof.
  intros LG. unfold MakeStateAndGoalsSamplingFunction. destruct (_ || _); [discriminate|].
  destruct goals as [|g goals]; [discriminate|]. intros E. apply Ok_inj in E. subst f. intros TU TS.
  apply ebind_total; [exact TU|]. intros u. destruct (dlt bias u); [exact TS|].
  destruct (length (g :: goals) =? 1)%nat; [intros w; exists g, w; reflexivity|].
  intros w. destruct (TU w) as (v & w1 & EV).
  destruct (random_index 0 (2 ^ 64 - 1) v (Z.of_nat (length (g :: goals)))) as (i & Ei & Ri); [lia|lia|exact (UNIT _ _ _ EV)|cbn [length] in *; lia|].
  destruct (nth_error (g :: goals) (Z.to_nat i)) as [x|] eqn:N.
  - exists x, w1. unfold ebind, lift. rewrite EV, Ei. unfold at_get. rewrite N. reflexivity.
  - apply nth_error_None in N. lia.
Qed.
Lemma goals_sampling_rejects sampler (goals : list S) bias :
  dlt bias d0 = true \/ dlt one bias = true \/ goals = [] ->
  MakeStateAndGoalsSamplingFunction sampler goals bias uniform = Throw InvalidArgument.
Proof.
  unfold MakeStateAndGoalsSamplingFunction. intros [->|[->| ->]]; [reflexivity|rewrite orb_true_r; reflexivity|]. destruct (_ || _); reflexivity.
Qed.

Lemma tree_sampling (t : list (rrt_node S)) a : 1 <= TreeSize t < 2 ^ 63 -> total uniform ->
  forall w, exists i w', MakeUniformRandomBiRRTTreeSamplingFunction uniform t a w = (Ok i, w') /\ 0 <= i < TreeSize t.
Proof.
  intros R TU w. destruct (TU w) as (u & w1 & EU).
  destruct (random_index (- 2 ^ 63) (2 ^ 63 - 1) u (TreeSize t)) as (i & Ei & Ri); [lia|lia|exact (UNIT _ _ _ EU)|lia|].
  exists i, w1. split; [|exact Ri]. unfold MakeUniformRandomBiRRTTreeSamplingFunction, ebind, lift. rewrite EU, Ei. reflexivity.
Qed.

Lemma select_sample_type bias :
  (dle d0 bias && dle bias one = false /\
   @MakeUniformRandomBiRRTSelectSampleTypeFunction S W uniform bias = Throw InvalidArgument) \/
  (dle d0 bias && dle bias one = true /\
   exists f, @MakeUniformRandomBiRRTSelectSampleTypeFunction S W uniform bias = Ok f /\
   forall st gt a w k w', f st gt a w = (Ok k, w') -> exists u, uniform w = (Ok u, w') /\ (k = TREE_SAMPLE <-> dle u bias = true)).
Proof.
  unfold MakeUniformRandomBiRRTSelectSampleTypeFunction. destruct (_ && _); [right|left; auto].
  split; [reflexivity|]. eexists. split; [reflexivity|]. intros st gt a w k w' H. apply ebind_ok in H as (u & w1 & EU & H).
  injection H as <- <-. exists u. split; [exact EU|]. destruct (dle u bias); split; congruence.
Qed.
Lemma select_active_tree p :
  (dle d0 p && dle p one = false /\
   @MakeUniformRandomBiRRTSelectActiveTreeFunction S W uniform p = Throw InvalidArgument) \/
  (dle d0 p && dle p one = true /\
   exists f, @MakeUniformRandomBiRRTSelectActiveTreeFunction S W uniform p = Ok f /\
   forall st gt a w k w', f st gt a w = (Ok k, w') -> exists u, uniform w = (Ok u, w') /\ (k <> a <-> dle u p = true)).
Proof.
  unfold MakeUniformRandomBiRRTSelectActiveTreeFunction. destruct (_ && _); [right|left; auto].
  split; [reflexivity|]. eexists. split; [reflexivity|]. intros st gt a w k w' H. apply ebind_ok in H as (u & w1 & EU & H).
  injection H as <- <-. exists u. split; [exact EU|]. destruct (dle u p), a; split; congruence.
Qed.
End Samplers.

(** ** Nearest neighbour *)
Lemma nearest_neighbor {D S Sample} (ltb : D -> D -> bool) (inf : D) psort (dist : S -> Sample -> D) (t : list (rrt_node S)) (x : Sample) :
  partial_sort_contract ltb psort -> order_laws ltb ->
  (t = [] -> linear_nearest_neighbor inf psort dist t x = Throw RuntimeError) /\
  (t <> [] -> exists i n, linear_nearest_neighbor inf psort dist t x = Ok i /\ tree_at t i n /\
     forall j m, tree_at t j m -> ltb (dist (state_value m) x) (dist (state_value n) x) = false).
Proof.
  intros PS OL. unfold linear_nearest_neighbor, GetKNearestNeighborsSerial.
  destruct (serial_nearest ltb inf t (fun n => dist (state_value n) x) psort PS 0 (Z.of_nat (length t)) 1) as (sel & -> & K); try lia.
  destruct K as [KS KD KT KN KO]. cbn [nearest_index bind]. split.
  - intros ->. cbn in KS. destruct sel; [reflexivity|cbn in KS; lia].
  - intros NE. assert (0 < length t)%nat by (destruct t; [congruence|cbn; lia]).
    destruct sel as [|[i d] [|]]; cbn [length] in KS; try lia. cbn [fst].
    destruct (KT i d (or_introl eq_refl)) as (R & n & N & ->). exists i, n. split; [reflexivity|]. split; [split; [lia|exact N]|].
    intros j m [J M]. destruct (Z.eq_dec j i) as [->|NJ]; [rewrite N in M; injection M as <-; apply (ltb_irrefl _ OL)|].
    apply (KN j m) with (j := i); [|exact M| |left; reflexivity].
    + assert (Z.to_nat j < length t)%nat by (apply nth_error_Some; congruence). lia.
    + cbn. intros [E|[]]. congruence.
Qed.

(** ** Timeout *)
Lemma d_of_Z_mono a b : Z.abs a <= 2 ^ 1023 -> Z.abs b <= 2 ^ 1023 -> a <= b -> (B2R (d_of_Z a) <= B2R (d_of_Z b))%R.
Proof.
  intros A B L. rewrite (proj1 (d_of_Z_round a A)), (proj1 (d_of_Z_round b B)). apply rnd64_mono, IZR_le, L.
Qed.
Lemma exceeded_mono timeout start now now' : Z.abs (now - start) <= 2 ^ 64 -> Z.abs (now' - start) <= 2 ^ 64 -> now <= now' ->
  time_exceeded timeout start now = true -> time_exceeded timeout start now' = true.
Proof.
  intros A B L. unfold time_exceeded. set (T := dmul timeout (d_of_Z 1000000000)).
  assert (P : (2 ^ 64 <= 2 ^ 1023)%Z) by (apply Z.pow_le_mono_r; lia).
  destruct (d_of_Z_round (now - start)) as [_ F1]; [lia|]. destruct (d_of_Z_round (now' - start)) as [_ F2]; [lia|].
  pose proof (d_of_Z_mono (now - start) (now' - start) ltac:(lia) ltac:(lia) ltac:(lia)) as M.
  destruct T as [s|[|]| |s m e Bd] eqn:ET.
  - rewrite !dlt_R by (auto; reflexivity). lra.
  - intros _. unfold dlt, Bltb. destruct (d_of_Z (now' - start)); try discriminate; reflexivity.
  - unfold dlt, Bltb. destruct (d_of_Z (now - start)) as [? |?| |[|] ? ? ?]; cbn; try discriminate.
  - unfold dlt, Bltb. cbn. discriminate.
  - rewrite !dlt_R by (auto; reflexivity). lra.
Qed.

Lemma answers_started t start times :
  timeout_answers (mkTimeout t (Some start)) times = Ok (map (time_exceeded t start) times).
Proof. induction times as [|n times IH]; [reflexivity|]. cbn [timeout_answers]. unfold TimeoutCheckOrStart, TimeoutCheck. cbn [start_time timeout_s bind]. rewrite IH. reflexivity. Qed.
Lemma timeout_run t h first times : MakeTimeoutCheckHelper t = Ok h ->
  timeout_answers h (first :: times) = Ok (false :: map (time_exceeded t first) times).
Proof.
  unfold MakeTimeoutCheckHelper. destruct (dle t d0); [discriminate|]. intros E. injection E as <-.
  cbn [timeout_answers]. unfold TimeoutCheckOrStart. unfold TimeoutStart. cbn [start_time bind timeout_s]. rewrite answers_started. reflexivity.
Qed.
