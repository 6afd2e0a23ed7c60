(** C186: samples of MultivariteGaussianDistribution have the mean and the covariance asked for. *)
From Coq Require Import Reals Lra Lia Psatz List FunctionalExtensionality.
From Verif Require Import Base GaussianModel MultivariateModel MultivariateSpec.
Import ListNotations.
Local Open Scope R_scope.

Lemma sum_ext n f g : (forall i, (i < n)%nat -> f i = g i) -> sum_to n f = sum_to n g.
Proof. induction n as [|n IH]; intros H; [reflexivity|]. cbn [sum_to]. rewrite IH, (H n) by (try lia; intros; apply H; lia). reflexivity. Qed.
Lemma sum_plus n f g : sum_to n (fun i => f i + g i) = sum_to n f + sum_to n g.
Proof. induction n as [|n IH]; cbn [sum_to]; [ring|]. rewrite IH. ring. Qed.
Lemma sum_scale n c f : sum_to n (fun i => c * f i) = c * sum_to n f.
Proof. induction n as [|n IH]; cbn [sum_to]; [ring|]. rewrite IH. ring. Qed.
Lemma sum_zero n : sum_to n (fun _ => 0) = 0.
Proof. induction n as [|n IH]; cbn [sum_to]; [|rewrite IH]; ring. Qed.
Lemma sum_swap n m (f : nat -> nat -> R) : sum_to n (fun i => sum_to m (f i)) = sum_to m (fun j => sum_to n (fun i => f i j)).
Proof. induction n as [|n IH]; cbn [sum_to]; [rewrite sum_zero; reflexivity|]. rewrite IH, <- sum_plus. reflexivity. Qed.
Lemma sum_pick n k f : (k < n)%nat -> sum_to n (fun i => f i * unit_matrix i k) = f k.
Proof.
  induction n as [|n IH]; intros H; [lia|]. cbn [sum_to]. unfold unit_matrix at 2. destruct (Nat.eqb_spec n k) as [->|N].
  - rewrite (sum_ext _ _ (fun _ => 0)); [rewrite sum_zero; ring|]. intros i I. unfold unit_matrix. destruct (Nat.eqb_spec i k); [lia|ring].
  - rewrite IH by lia. ring.
Qed.

Section S.
Variables (s : solvers) (n : nat) (m : matrix). Hypothesis OK : solvers_ok s n m.
(** The eigenvalues of a semidefinite matrix are not negative. *)
Lemma eigenvalue_nonneg k : semidefinite n m -> (k < n)%nat -> 0 <= fst (eigen s n m) k.
Proof.
  intros P K. destruct OK as [_ OE]. destruct (eigen s n m) as [vals vecs]. destruct OE as (_ & O & D). cbn [fst].
  specialize (P (fun i => vecs i k)).
  rewrite (sum_ext n _ (fun i => sum_to n (fun j => sum_to n (fun l => vals l * ((vecs i l * vecs i k) * (vecs j l * vecs j k)))))) in P.
  2: { intros i I. apply sum_ext. intros j J. rewrite <- (D i j I J).
       rewrite (sum_ext n (fun l => vals l * _) (fun l => (vecs i k * vecs j k) * (vecs i l * vals l * vecs j l))) by (intros; ring). rewrite sum_scale. ring. }
  assert (Q : sum_to n (fun i => sum_to n (fun j => sum_to n (fun l => vals l * ((vecs i l * vecs i k) * (vecs j l * vecs j k))))) =
    sum_to n (fun l => vals l * (sum_to n (fun i => vecs i l * vecs i k) * sum_to n (fun j => vecs j l * vecs j k)))).
  { rewrite (sum_ext n _ (fun i => sum_to n (fun l => vals l * (vecs i l * vecs i k) * sum_to n (fun j => vecs j l * vecs j k)))).
    2: { intros i I. rewrite sum_swap. apply sum_ext. intros l L. rewrite <- sum_scale. apply sum_ext. intros; ring. }
    rewrite sum_swap. apply sum_ext. intros l L.
    rewrite (sum_ext n _ (fun i => (vals l * sum_to n (fun j => vecs j l * vecs j k)) * (vecs i l * vecs i k))) by (intros; ring). rewrite sum_scale. ring. }
  rewrite Q in P.
  rewrite (sum_ext n _ (fun l => (vals l * unit_matrix l k) * unit_matrix l k)) in P.
  2: { intros l L. rewrite (O l k L K). ring. }
  rewrite sum_pick in P by exact K. unfold unit_matrix in P. rewrite Nat.eqb_refl in P. lra.
Qed.
Lemma transform_squares : semidefinite n m -> equal_to n (times_transpose n (CalculateNormTransform s n m)) m.
Proof.
  intros P. unfold CalculateNormTransform. destruct (cholesky s n m) as [l|] eqn:C; [destruct OK as [OC _]; eapply OC; eassumption|].
  pose proof eigenvalue_nonneg as NN. destruct OK as [_ OE]. destruct (eigen s n m) as [vals vecs]. destruct OE as (_ & _ & D). cbn [fst] in NN.
  intros i j I J. rewrite <- (D i j I J). apply sum_ext. intros k K. specialize (NN k P K). rewrite Rmax_left by exact NN.
  pose proof (sqrt_sqrt _ NN) as Q. rewrite <- Q at 3. ring.
Qed.
End S.

Section E.
Variables (E : (list R -> R) -> R) (XE : expectation E).
Lemma expect_sum_to n (f : nat -> list R -> R) : E (fun z => sum_to n (fun i => f i z)) = sum_to n (fun i => E (f i)).
Proof.
  induction n as [|n IH]; cbn [sum_to].
  - pose proof (expect_scale E XE 0 (fun _ => 1)) as Q. cbv beta in Q. pose proof (expect_same E XE (fun _ => 0 * 1) (fun _ => 0) ltac:(intros; cbv beta; ring)) as Q2. lra.
  - rewrite (expect_sum E XE (fun z => sum_to n (fun i => f i z)) (fun z => f n z)), IH. reflexivity.
Qed.
End E.

(** The i-th number of a sample, from the draws. *)
Lemma nth_transformed d z i : (i < mg_rows d)%nat -> nth i (transformed d z) 0 = sum_to (mg_rows d) (fun j => mg_transform d i j * nth j z 0) + mg_mean d i.
Proof.
  intros H. unfold transformed. erewrite (nth_indep _ 0) by (rewrite map_length, seq_length; exact H). rewrite map_nth with (d := O). rewrite seq_nth by exact H. reflexivity.
Qed.

(** A sample has as many numbers as the mean, made from that many fresh normal draws in order. *)
Theorem C186_draws : forall G (src : source G) d g x g', MultivariateSample src d g = (x, g') ->
  length x = mg_rows d /\ exists draws, unit_draws src (mg_rows d) g = (draws, g') /\ length draws = mg_rows d /\
  x = transformed d draws /\ forall i, (i < mg_rows d)%nat -> exists gi, nth i draws 0 = fst (normal_draw src gi) /\ snd (unit_draws src i g) = gi.
Proof.
  intros G src d g x g' H. unfold MultivariateSample in H. destruct (unit_draws src (mg_rows d) g) as [ds g1] eqn:U. injection H as <- <-.
  split; [unfold transformed; rewrite map_length, seq_length; reflexivity|]. exists ds. split; [reflexivity|].
  assert (K : forall n g ds g1, unit_draws src n g = (ds, g1) -> length ds = n /\ forall i, (i < n)%nat -> exists gi, nth i ds 0 = fst (normal_draw src gi) /\ snd (unit_draws src i g) = gi).
  { induction n as [|n IH]; intros g0 ds0 g2 V; cbn [unit_draws] in V.
    - injection V as <- <-. split; [reflexivity|]. intros i I. lia.
    - destruct (normal_draw src g0) as [e g3] eqn:N. destruct (unit_draws src n g3) as [es g4] eqn:V'. injection V as <- <-. destruct (IH _ _ _ V') as [L IN].
      split; [cbn; congruence|]. intros [|i] I.
      + exists g0. cbn. rewrite N. auto.
      + destruct (IN i ltac:(lia)) as (gi & A & B). exists gi. split; [exact A|]. cbn [unit_draws]. rewrite N. destruct (unit_draws src i g3); exact B. }
  destruct (K _ _ _ _ U) as [L I]. auto.
Qed.
Print Assumptions C186_draws.

(** With uncorrelated draws of mean 0 and variance 1, the numbers of a sample have the means asked
    for, and any two of them the covariance asked for, for every symmetric semidefinite covariance:
    also when the Cholesky factorisation fails. *)
Theorem C186_moments : forall s n mean covariance E, symmetric n covariance -> solvers_ok s n covariance -> semidefinite n covariance ->
  expectation E -> standard_draws n E ->
  let d := mkMG n mean (CalculateNormTransform s n covariance) in
  (forall i, (i < n)%nat -> E (fun z => nth i (transformed d z) 0) = mean i) /\
  (forall i j, (i < n)%nat -> (j < n)%nat ->
     E (fun z => (nth i (transformed d z) 0 - mean i) * (nth j (transformed d z) 0 - mean j)) = covariance i j).
Proof.
  intros s n mean cov E Y OK P XE [M V] d. set (T := CalculateNormTransform s n cov) in *. split.
  - intros i I. rewrite (expect_same E XE _ (fun z => sum_to n (fun j => T i j * nth j z 0) + mean i * 1)).
    2: { intros z. rewrite nth_transformed by exact I. cbn [mg_rows mg_mean mg_transform d]. ring. }
    rewrite (expect_sum E XE (fun z => sum_to n (fun j => T i j * nth j z 0)) (fun _ => mean i * 1)).
    rewrite (expect_sum_to E XE n (fun j z => T i j * nth j z 0)).
    rewrite (sum_ext n _ (fun _ => 0)).
    2: { intros j J. rewrite (expect_scale E XE (T i j) (fun z => nth j z 0)), (M j J). ring. }
    rewrite sum_zero, (expect_scale E XE (mean i) (fun _ => 1)), (expect_one E XE). ring.
  - intros i j I J.
    rewrite (expect_same E XE _ (fun z => sum_to n (fun k => sum_to n (fun l => (T i k * T j l) * (nth k z 0 * nth l z 0))))).
    2: { intros z. rewrite !nth_transformed by assumption. cbn [mg_rows mg_mean mg_transform d].
         replace ((sum_to n (fun k => T i k * nth k z 0) + mean i - mean i) * (sum_to n (fun k => T j k * nth k z 0) + mean j - mean j))
           with (sum_to n (fun k => T j k * nth k z 0) * sum_to n (fun k => T i k * nth k z 0)) by ring.
         rewrite <- sum_scale. apply sum_ext. intros k K. rewrite Rmult_comm, <- sum_scale. apply sum_ext. intros l L. ring. }
    rewrite (expect_sum_to E XE n (fun k z => sum_to n (fun l => (T i k * T j l) * (nth k z 0 * nth l z 0)))).
    rewrite <- (transform_squares s n cov OK P i j I J). unfold times_transpose. fold T. apply sum_ext. intros k K.
    rewrite (expect_sum_to E XE n (fun l z => (T i k * T j l) * (nth k z 0 * nth l z 0))).
    rewrite (sum_ext n _ (fun l => (T i k * T j l) * unit_matrix l k)).
    2: { intros l L. rewrite (expect_scale E XE (T i k * T j l) (fun z => nth k z 0 * nth l z 0)), (V k l K L). unfold unit_matrix. rewrite Nat.eqb_sym. reflexivity. }
    apply (sum_pick n k (fun l => T i k * T j l)). exact K.
Qed.
Print Assumptions C186_moments.
(** A distribution that could be constructed is one of these. *)
Theorem C186_constructed : forall s rows mean crows ccols covariance d, MakeMultivariateGaussian s rows mean crows ccols covariance = Ok d ->
  crows = rows /\ ccols = rows /\ d = mkMG rows mean (CalculateNormTransform s rows covariance).
Proof.
  intros s r m cr cc c d H. unfold MakeMultivariateGaussian, CheckMultivariateSizes in H. destruct (Nat.eqb_spec cr cc) as [<-|]; [|discriminate]. cbn [negb] in H.
  destruct (Nat.eqb_spec r cr) as [<-|]; [|discriminate]. cbn [negb orb] in H. destruct (1 =? r)%nat; [|discriminate]. injection H as <-. auto.
Qed.
Print Assumptions C186_constructed.

(** Solvers for diagonal matrices, with a Cholesky factor for one positive number only; and draws
    of 1 and -1 with equal chances. *)
Definition small_solvers : solvers := {|
  cholesky := fun n m => match n with 1%nat => if Rlt_dec 0 (m O O) then Some (fun _ _ => sqrt (m O O)) else None | _ => None end;
  eigen := fun n m => (fun i => m i i, unit_matrix) |}.
Definition diagonal (m : matrix) : Prop := forall i j, i <> j -> m i j = 0.
Lemma small_solvers_ok n m : diagonal m -> solvers_ok small_solvers n m.
Proof.
  intros D. split.
  - intros l H. cbn in H. destruct n as [|[|n]]; try discriminate. destruct (Rlt_dec 0 (m O O)) as [P|]; [|discriminate]. injection H as <-. intros i j I J. assert (i = O) by lia. assert (j = O) by lia. subst.
    unfold times_transpose. cbn. pose proof (sqrt_sqrt (m O O)). lra.
  - cbn. assert (U : forall a b, unit_matrix a b = unit_matrix b a) by (intros; unfold unit_matrix; rewrite Nat.eqb_sym; reflexivity). split; [|split]; intros i j I J.
    + unfold times_transpose. rewrite (sum_ext n _ (fun k => unit_matrix i k * unit_matrix k j)) by (intros; rewrite (U j); reflexivity). apply sum_pick, J.
    + rewrite (sum_ext n _ (fun k => unit_matrix j k * unit_matrix k i)) by (intros; rewrite (U j); ring). rewrite sum_pick by exact I. apply U.
    + rewrite (sum_ext n _ (fun k => (unit_matrix i k * m k k) * unit_matrix k j)) by (intros; rewrite (U j); reflexivity). rewrite sum_pick by exact J.
      unfold unit_matrix. destruct (Nat.eqb_spec i j) as [->|N]; [ring|]. rewrite (D i j N). ring.
Qed.
Definition two_variances : matrix := fun i j => match i, j with O, O => 4 | _, _ => 0%R end.
Example C186_nonvacuous : (forall n, solvers_ok small_solvers n two_variances) /\ symmetric 2 two_variances /\ semidefinite 2 two_variances /\
  symmetric 1 (fun _ _ => 4) /\ semidefinite 1 (fun _ _ => 4) /\ semidefinite 1 (fun _ _ => 0) /\
  (let E := fun f : list R -> R => (f [1] + f [-1]) / 2 in expectation E /\ standard_draws 1 E) /\
  (let E := fun f : list R -> R => (f [1; 1] + f [1; -1] + f [-1; 1] + f [-1; -1]) / 4 in expectation E /\ standard_draws 2 E) /\
  exists d, MakeMultivariateGaussian small_solvers 1 (fun _ => 7) 1 1 (fun _ _ => 4) = Ok d /\ transformed d [3] = [13].
Proof.
  split. { intros n. apply small_solvers_ok. intros [|i] [|j] N; cbn; congruence. }
  split. { intros [|i] [|j] _ _; reflexivity. } split. { intros x. cbn. pose proof (Rle_0_sqr (x O)) as Q. unfold Rsqr in Q. lra. }
  split; [intros i j _ _; reflexivity|]. split; [intros x; cbn; nra|]. split; [intros x; cbn; nra|]. split.
  { split; [split; intros; try (rewrite ?H); lra || (rewrite !H; reflexivity)|]. split; intros i; [|intros j]; intros; repeat match goal with H : (?k < 1)%nat |- _ => assert (k = O) by lia; subst k; clear H end; cbn; lra. }
  split.
  { split; [split; intros; try (rewrite ?H); lra || (rewrite !H; reflexivity)|]. split; intros i; [intros I|intros j I J].
    - destruct i as [|[|i]]; [cbn; lra..|lia].
    - destruct i as [|[|i]]; [..|lia]; (destruct j as [|[|j]]; [..|lia]); cbn; lra. }
  eexists. split; [reflexivity|]. unfold transformed, CalculateNormTransform, small_solvers. cbn. destruct (Rlt_dec 0 4) as [P|]; [|lra].
  f_equal.
  assert (Q : sqrt 4 = 2) by (replace 4 with (2 * 2) by ring; apply sqrt_square; lra). rewrite Q. ring.
Qed.
