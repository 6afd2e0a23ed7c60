(** The average of quaternions of RotationModel.v, in exact arithmetic. *)
From Coq Require Import Reals Lra Psatz Nsatz Permutation.
From Flocq Require Import Core.
From Verif Require Import Base UtilityModel MathModel MathReal MathLinModel MathLinSpec MathLinProof RotationModel RotationSpec RotationProof RotationEuler RotationAngle.
Local Open Scope R_scope.

Lemma add4_eq a b : v4_add ra a b = add4 a b. Proof. reflexivity. Qed.
Lemma dot4_add x y z : dot4 (add4 x y) z = dot4 x z + dot4 y z.
Proof. destruct x as [[[? ?] ?] ?], y as [[[? ?] ?] ?], z as [[[? ?] ?] ?]. unfold add4, dot4. ring. Qed.
Lemma dot4_scale c x z : dot4 (scale4 c x) z = c * dot4 x z.
Proof. destruct x as [[[? ?] ?] ?], z as [[[? ?] ?] ?]. unfold scale4, dot4. ring. Qed.
Lemma dot4_comm x y : dot4 x y = dot4 y x.
Proof. destruct x as [[[? ?] ?] ?], y as [[[? ?] ?] ?]. unfold dot4. ring. Qed.
Lemma dot4_nonneg x : 0 <= dot4 x x.
Proof. destruct x as [[[a b] c] d]. unfold dot4. nra. Qed.
Lemma apply4_add m x y : apply4 m (add4 x y) = add4 (apply4 m x) (apply4 m y).
Proof. destruct m as [[[r1 r2] r3] r4]. unfold apply4. rewrite !(dot4_comm _ (add4 x y)), !dot4_add, !(dot4_comm x), !(dot4_comm y). reflexivity. Qed.
Lemma apply4_scale m c x : apply4 m (scale4 c x) = scale4 c (apply4 m x).
Proof. destruct m as [[[r1 r2] r3] r4]. unfold apply4. rewrite !(dot4_comm _ (scale4 c x)), !dot4_scale, !(dot4_comm x). reflexivity. Qed.

(** ** The matrix *)
Definition form (m : r44) (x y : r4) : R := dot4 (apply4 m x) y.
Lemma form_outer v x y : form (v4_outer ra v) x y = dot4 v x * dot4 v y.
Proof. destruct v as [[[? ?] ?] ?], x as [[[? ?] ?] ?], y as [[[? ?] ?] ?]. unfold form, v4_outer, v4_scale, apply4, dot4. ra_simpl. ring. Qed.
Lemma form_add m n x y : form (m4_add ra m n) x y = form m x y + form n x y.
Proof.
  destruct m as [[[m1 m2] m3] m4], n as [[[n1 n2] n3] n4]. unfold form, m4_add, apply4. rewrite !add4_eq, !dot4_add.
  generalize (dot4 m1 x) (dot4 m2 x) (dot4 m3 x) (dot4 m4 x) (dot4 n1 x) (dot4 n2 x) (dot4 n3 x) (dot4 n4 x). intros.
  destruct y as [[[? ?] ?] ?]. unfold dot4. ring.
Qed.
Lemma form_fold l m x y : form (fold_left (fun m v => m4_add ra m (v4_outer ra v)) l m) x y = form m x y + fold_right (fun v s => dot4 v x * dot4 v y + s) 0 l.
Proof. revert m. induction l as [|v l IH]; intros m; cbn [fold_left fold_right]; [ring|]. rewrite IH, form_add, form_outer. ring. Qed.
Lemma form_zero x y : form (m4_zero ra) x y = 0.
Proof. destruct x as [[[? ?] ?] ?], y as [[[? ?] ?] ?]. unfold form, m4_zero, v4_zero, apply4, dot4. ra_simpl. ring. Qed.
Definition vec_of (q : quat R) : r4 := (qw q, qx q, qy q, qz q).
Lemma dot_vec p q : dot4 (vec_of p) (vec_of q) = dotq p q. Proof. reflexivity. Qed.
Lemma column_eq q w : weighted_column ra (q, w) = scale4 w (vec_of q). Proof. reflexivity. Qed.
Lemma form_moment l x y : form (qqtranspose ra (map (weighted_column ra) l)) x y
  = fold_right (fun qw s => snd qw * snd qw * (dot4 (vec_of (fst qw)) x * dot4 (vec_of (fst qw)) y) + s) 0 l.
Proof.
  unfold qqtranspose. rewrite form_fold, form_zero, Rplus_0_l. induction l as [|[q w] l IH]; [reflexivity|]. cbn [map fold_right fst snd].
  rewrite IH, column_eq, !dot4_scale. ring.
Qed.
Lemma form_score l p : form (qqtranspose ra (map (weighted_column ra) l)) (vec_of p) (vec_of p) = alignment l p.
Proof. rewrite form_moment. induction l as [|[q w] l IH]; [reflexivity|]. cbn [alignment fold_right fst snd]. rewrite IH, dot_vec. ring. Qed.
Lemma form_sym l x y : form (qqtranspose ra (map (weighted_column ra) l)) x y = form (qqtranspose ra (map (weighted_column ra) l)) y x.
Proof. rewrite !form_moment. induction l as [|[q w] l IH]; [reflexivity|]. cbn [fold_right fst snd]. rewrite IH. ring. Qed.
Definition e1 : r4 := (1, 0, 0, 0). Definition e2 : r4 := (0, 1, 0, 0). Definition e3 : r4 := (0, 0, 1, 0). Definition e4 : r4 := (0, 0, 0, 1).
Lemma r44_ext (m n : r44) : (forall x y, form m x y = form n x y) -> m = n.
Proof.
  intros H. destruct m as [[[ [[[a b] c] d] [[[e f] g] h]] [[[i j] k] l]] [[[o p] q] r]], n as [[[ [[[a' b'] c'] d'] [[[e' f'] g'] h']] [[[i' j'] k'] l']] [[[o' p'] q'] r']].
  pose proof (H e1 e1). pose proof (H e1 e2). pose proof (H e1 e3). pose proof (H e1 e4).
  pose proof (H e2 e1). pose proof (H e2 e2). pose proof (H e2 e3). pose proof (H e2 e4).
  pose proof (H e3 e1). pose proof (H e3 e2). pose proof (H e3 e3). pose proof (H e3 e4).
  pose proof (H e4 e1). pose proof (H e4 e2). pose proof (H e4 e3). pose proof (H e4 e4). clear H.
  unfold form, apply4, dot4, e1, e2, e3, e4 in *. repeat (f_equal; try lra).
Qed.
Lemma moment_eq l l' : (forall x y, fold_right (fun qw s => snd qw * snd qw * (dot4 (vec_of (fst qw)) x * dot4 (vec_of (fst qw)) y) + s) 0 l
    = fold_right (fun qw s => snd qw * snd qw * (dot4 (vec_of (fst qw)) x * dot4 (vec_of (fst qw)) y) + s) 0 l') ->
  qqtranspose ra (map (weighted_column ra) l) = qqtranspose ra (map (weighted_column ra) l').
Proof. intros H. apply r44_ext. intros x y. rewrite !form_moment. apply H. Qed.

(** ** The largest eigenvalue *)
Lemma max_fold l b : exists r, fold_left (fun best p => match best with None => Some p | Some b => if altb ra (fst b) (fst p) then Some p else best end) l (Some b) = Some r
  /\ (r = b \/ In r l) /\ fst b <= fst r /\ Forall (fun p : R * r4 => fst p <= fst r) l.
Proof.
  revert b. induction l as [|p l IH]; intros b; cbn [fold_left].
  - exists b. repeat split; auto with real.
  - change (altb ra (fst b) (fst p)) with (Rlt_bool (fst b) (fst p)). destruct (Rlt_le_dec (fst b) (fst p)) as [L|L].
    + rewrite Rlt_bool_true by exact L. destruct (IH p) as (r & E & I & A & F). exists r. rewrite E. split; [reflexivity|]. split; [destruct I as [->|I]; right; [left; reflexivity|right; exact I]|].
      split; [lra|]. constructor; [exact A|exact F].
    + rewrite Rlt_bool_false by exact L. destruct (IH b) as (r & E & I & A & F). exists r. rewrite E. split; [reflexivity|]. split; [destruct I as [->|I]; [left; reflexivity|right; right; exact I]|].
      split; [exact A|]. constructor; [lra|exact F].
Qed.
Lemma max_pairs l : l <> [] -> exists r, max_eigenvector ra l = Some r /\ In r l /\ Forall (fun p : R * r4 => fst p <= fst r) l.
Proof.
  destruct l as [|b l]; [congruence|]. intros _. destruct (max_fold l b) as (r & E & I & A & F). exists r. split; [exact E|]. split; [destruct I as [->|I]; [left; reflexivity|right; exact I]|].
  constructor; assumption.
Qed.
(** A symmetric matrix with a basis of eigenvectors is at most its largest eigenvalue. *)
Lemma root_pair mi mj d : 0 <= mi -> 0 <= mj -> (mi - mj) * d = 0 -> mj * d = sqrt mi * sqrt mj * d.
Proof.
  intros A B E. destruct (Req_dec d 0) as [->|N]; [ring|]. assert (mi = mj) by (apply Rminus_diag_uniq; destruct (Rmult_integral _ _ E); [assumption|contradiction]).
  subst. rewrite sqrt_sqrt by exact B. reflexivity.
Qed.
Lemma rayleigh m pairs L : (forall x y, form m x y = form m y x) -> eigen_basis m pairs -> Forall (fun p => fst p <= L) pairs ->
  forall x, form m x x <= L * dot4 x x.
Proof.
  intros SYM (LEN & EV & SPAN) MAX x.
  destruct pairs as [|[l1 v1] [|[l2 v2] [|[l3 v3] [|[l4 v4] [|? ?]]]]]; try discriminate LEN.
  destruct (SPAN x) as (cs & LC & ->). destruct cs as [|c1 [|c2 [|c3 [|c4 [|? ?]]]]]; try discriminate LC. clear LEN LC SPAN.
  inversion EV as [|? ? [U1 E1] EV1]; subst. inversion EV1 as [|? ? [U2 E2] EV2]; subst. inversion EV2 as [|? ? [U3 E3] EV3]; subst. inversion EV3 as [|? ? [U4 E4] _]; subst. clear EV EV1 EV2 EV3.
  inversion MAX as [|? ? M1 MX1]; subst. inversion MX1 as [|? ? M2 MX2]; subst. inversion MX2 as [|? ? M3 MX3]; subst. inversion MX3 as [|? ? M4 _]; subst. clear MAX MX1 MX2 MX3.
  cbn [fst snd] in *. unfold combination. cbn [map combine fold_right fst snd].
  assert (ORTH : forall li vi lj vj, apply4 m vi = scale4 li vi -> apply4 m vj = scale4 lj vj -> ((L - li) - (L - lj)) * dot4 vi vj = 0).
  { intros li vi lj vj Ei Ej. pose proof (SYM vi vj) as S. unfold form in S. rewrite Ei, Ej, !dot4_scale, (dot4_comm vj vi) in S. lra. }
  pose proof (root_pair (L - l1) (L - l2) (dot4 v1 v2) ltac:(lra) ltac:(lra) (ORTH _ _ _ _ E1 E2)) as P12.
  pose proof (root_pair (L - l1) (L - l3) (dot4 v1 v3) ltac:(lra) ltac:(lra) (ORTH _ _ _ _ E1 E3)) as P13.
  pose proof (root_pair (L - l1) (L - l4) (dot4 v1 v4) ltac:(lra) ltac:(lra) (ORTH _ _ _ _ E1 E4)) as P14.
  pose proof (root_pair (L - l2) (L - l3) (dot4 v2 v3) ltac:(lra) ltac:(lra) (ORTH _ _ _ _ E2 E3)) as P23.
  pose proof (root_pair (L - l2) (L - l4) (dot4 v2 v4) ltac:(lra) ltac:(lra) (ORTH _ _ _ _ E2 E4)) as P24.
  pose proof (root_pair (L - l3) (L - l4) (dot4 v3 v4) ltac:(lra) ltac:(lra) (ORTH _ _ _ _ E3 E4)) as P34.
  pose proof (ORTH _ _ _ _ E1 E2) as O12. pose proof (ORTH _ _ _ _ E1 E3) as O13. pose proof (ORTH _ _ _ _ E1 E4) as O14.
  pose proof (ORTH _ _ _ _ E2 E3) as O23. pose proof (ORTH _ _ _ _ E2 E4) as O24. pose proof (ORTH _ _ _ _ E3 E4) as O34.
  assert (S1 : sqrt (L - l1) * sqrt (L - l1) = L - l1) by (apply sqrt_sqrt; lra). assert (S2 : sqrt (L - l2) * sqrt (L - l2) = L - l2) by (apply sqrt_sqrt; lra).
  assert (S3 : sqrt (L - l3) * sqrt (L - l3) = L - l3) by (apply sqrt_sqrt; lra). assert (S4 : sqrt (L - l4) * sqrt (L - l4) = L - l4) by (apply sqrt_sqrt; lra).
  set (s1 := sqrt (L - l1)) in *. set (s2 := sqrt (L - l2)) in *. set (s3 := sqrt (L - l3)) in *. set (s4 := sqrt (L - l4)) in *.
  pose proof (dot4_nonneg (add4 (scale4 (c1 * s1) v1) (add4 (scale4 (c2 * s2) v2) (add4 (scale4 (c3 * s3) v3) (scale4 (c4 * s4) v4))))) as NN.
  unfold form. rewrite !apply4_add, !apply4_scale, E1, E2, E3, E4.
  set (z := (0, 0, 0, 0) : r4).
  assert (Z : forall a, add4 a z = a) by (intros [[[? ?] ?] ?]; unfold add4, z; rewrite !Rplus_0_r; reflexivity).
  assert (Z' : apply4 m z = z). { replace z with (scale4 0 z) at 1 by (unfold z, scale4; rewrite !Rmult_0_l; reflexivity). rewrite apply4_scale. destruct (apply4 m z) as [[[? ?] ?] ?]. unfold scale4, z. rewrite !Rmult_0_l. reflexivity. }
  rewrite ?Z', ?Z. clear Z Z' z.
  rewrite !dot4_add, !dot4_scale in NN. rewrite !dot4_add, !dot4_scale.
  repeat match type of NN with context [dot4 ?v (add4 ?a ?b)] => rewrite (dot4_comm v (add4 a b)), !dot4_add, !dot4_scale in NN end.
  repeat match type of NN with context [dot4 ?v (scale4 ?a ?b)] => rewrite (dot4_comm v (scale4 a b)), !dot4_scale in NN end.
  repeat match goal with |- context [dot4 ?v (add4 ?a ?b)] => rewrite (dot4_comm v (add4 a b)), !dot4_add, !dot4_scale end.
  repeat match goal with |- context [dot4 ?v (scale4 ?a ?b)] => rewrite (dot4_comm v (scale4 a b)), !dot4_scale end.
  rewrite (dot4_comm v2 v1), (dot4_comm v3 v1), (dot4_comm v3 v2), (dot4_comm v4 v1), (dot4_comm v4 v2), (dot4_comm v4 v3) in NN |- *.
  generalize dependent (dot4 v1 v2). generalize dependent (dot4 v1 v3). generalize dependent (dot4 v1 v4). generalize dependent (dot4 v2 v3). generalize dependent (dot4 v2 v4). generalize dependent (dot4 v3 v4).
  intros d34 P34 O34 d24 P24 O24 d23 P23 O23 d14 P14 O14 d13 P13 O13 d12 P12 O12 NN.
  clear ORTH SYM. clear E1 E2 E3 E4 M1 M2 M3 M4.
  rewrite U1, U2, U3, U4 in *. clearbody s1 s2 s3 s4.
  apply (f_equal (Rmult (c1 * c2))) in P12, O12. apply (f_equal (Rmult (c1 * c3))) in P13, O13. apply (f_equal (Rmult (c1 * c4))) in P14, O14.
  apply (f_equal (Rmult (c2 * c3))) in P23, O23. apply (f_equal (Rmult (c2 * c4))) in P24, O24. apply (f_equal (Rmult (c3 * c4))) in P34, O34.
  apply (f_equal (Rmult (c1 * c1))) in S1. apply (f_equal (Rmult (c2 * c2))) in S2. apply (f_equal (Rmult (c3 * c3))) in S3. apply (f_equal (Rmult (c4 * c4))) in S4.
  lra.
Qed.

(** ** AverageEigenQuaterniond *)
Lemma form_add44 m n x y : form (add44 m n) x y = form m x y + form n x y.
Proof.
  rewrite <- form_add. destruct m as [[[m1 m2] m3] m4], n as [[[n1 n2] n3] n4]. reflexivity.
Qed.
Lemma form_outer4 v x y : form (outer4 v) x y = dot4 v x * dot4 v y.
Proof. rewrite <- form_outer. f_equal. Qed.
Lemma form_spec l x y : form (moment l) x y = fold_right (fun qw s => snd qw * snd qw * (dot4 (vec_of (fst qw)) x * dot4 (vec_of (fst qw)) y) + s) 0 l.
Proof.
  induction l as [|[q w] l IH]; cbn [moment fold_right fst snd].
  - rewrite <- (form_zero x y). reflexivity.
  - rewrite form_add44, form_outer4, IH. change (qw q, qx q, qy q, qz q) with (vec_of q). rewrite !dot4_scale. ring.
Qed.
Lemma moment_model l : qqtranspose ra (map (weighted_column ra) l) = moment l.
Proof. apply r44_ext. intros x y. rewrite form_moment, form_spec. reflexivity. Qed.
Lemma moment_ext l l' : (forall x y, form (moment l) x y = form (moment l') x y) -> moment l = moment l'.
Proof. apply r44_ext. Qed.
Lemma moment_abs qs ws : moment (combine qs (map Rabs ws)) = moment (combine qs ws).
Proof.
  apply moment_ext. intros x y. rewrite !form_spec. revert ws. induction qs as [|q qs IH]; intros [|w ws]; try reflexivity.
  cbn [map combine fold_right fst snd]. rewrite IH. replace (Rabs w * Rabs w) with (w * w) by (rewrite <- Rabs_mult, Rabs_pos_eq by nra; reflexivity). reflexivity.
Qed.
Lemma moment_perm l l' : Permutation l l' -> moment l = moment l'.
Proof.
  intros P. apply moment_ext. intros x y. rewrite !form_spec. induction P as [|a l l' P IH|a b l|l l' l'' P IH P' IH']; cbn [fold_right]; [reflexivity|rewrite IH; reflexivity|ring|congruence].
Qed.
Lemma vec_opp q : vec_of (oppq q) = scale4 (-1) (vec_of q).
Proof. destruct q. unfold vec_of, scale4, oppq. ra_simpl. repeat f_equal; ring. Qed.
Lemma moment_opp l l' : Forall2 (fun a b => (fst a = fst b \/ fst a = oppq (fst b)) /\ snd a = snd b) l l' -> moment l = moment l'.
Proof.
  intros F. apply moment_ext. intros x y. rewrite !form_spec. induction F as [|[p a] [q b] l l' [S W] F IH]; cbn [fold_right fst snd] in *; [reflexivity|].
  rewrite IH. subst b. destruct S as [->| ->]; [reflexivity|]. rewrite vec_opp, !dot4_scale. ring.
Qed.
Lemma used_moment (qs : list (quat R)) (ws : list R) : ws = [] \/ length ws = length qs ->
  qs <> [] -> qqtranspose ra (map (weighted_column ra) (combine qs (if (length ws =? length qs)%nat then map (aabs ra) ws else repeat (a_of ra 1) (length qs)))) = moment (effective qs ws).
Proof.
  intros H N. rewrite moment_model. unfold effective. destruct ws as [|w ws].
  - destruct qs; [contradiction|]. reflexivity.
  - destruct H as [H|H]; [discriminate|]. rewrite H, Nat.eqb_refl. apply moment_abs.
Qed.
Definition quat_of (v : r4) : quat R := let '(w, x, y, z) := v in mkQuat w x y z.
Lemma vec_quat v : vec_of (quat_of v) = v. Proof. destruct v as [[[? ?] ?] ?]. reflexivity. Qed.
Lemma average_some solver qs ws : (2 <= length qs)%nat -> ws = [] \/ length ws = length qs ->
  AverageEigenQuaterniond ra solver qs ws = match max_eigenvector ra (solver (moment (effective qs ws))) with Some (_, v) => Ok (quat_of v) | None => Throw RuntimeError end.
Proof.
  intros L H. unfold AverageEigenQuaterniond. destruct qs as [|q qs]; [cbn in L; lia|]. set (Q := q :: qs) in *.
  assert (G : (negb (length ws =? length Q)%nat && negb (length ws =? 0)%nat)%bool = false)
    by (destruct H as [-> |H]; [cbn [length]; rewrite Nat.eqb_refl; apply Bool.andb_false_r|rewrite H, Nat.eqb_refl; reflexivity]). rewrite G.
  replace (length Q =? 1)%nat with false by (symmetry; apply Nat.eqb_neq; lia).
  rewrite used_moment by (auto; discriminate). destruct (max_eigenvector ra _) as [[l [[[? ?] ?] ?]]|]; reflexivity.
Qed.
Lemma average_best solver qs ws : (2 <= length qs)%nat -> ws = [] \/ length ws = length qs ->
  eigen_basis (moment (effective qs ws)) (solver (moment (effective qs ws))) ->
  exists p l, AverageEigenQuaterniond ra solver qs ws = Ok p /\ unit p /\ apply4 (moment (effective qs ws)) (vec_of p) = scale4 l (vec_of p) /\
    forall q, unit q -> alignment (effective qs ws) q <= alignment (effective qs ws) p.
Proof.
  intros L H EB. rewrite average_some by assumption.
  set (l := effective qs ws) in *. destruct (max_pairs (solver (moment l))) as ([mu v] & E & I & M).
  { destruct EB as (LEN & _). intros Z. rewrite Z in LEN. discriminate. }
  rewrite E. exists (quat_of v), mu. cbn [fst] in M.
  destruct EB as (LEN & EV & SPAN). rewrite Forall_forall in EV. destruct (EV _ I) as [U A]. cbn [fst snd] in U, A.
  split; [reflexivity|]. split; [unfold unit; rewrite <- dot_vec, vec_quat; exact U|]. rewrite vec_quat. split; [exact A|].
  intros q Uq. rewrite <- !form_score, moment_model, vec_quat.
  assert (F : form (moment l) v v = mu) by (unfold form; rewrite A, dot4_scale, U; ring). rewrite F.
  replace mu with (mu * dot4 (vec_of q) (vec_of q)) by (rewrite dot_vec; unfold unit in Uq; rewrite Uq; ring).
  apply (rayleigh (moment l) (solver (moment l))); [|repeat split; [exact LEN|rewrite Forall_forall; exact EV|exact SPAN]|exact M].
  rewrite <- moment_model. apply form_sym.
Qed.
Lemma average_same solver qs ws qs' ws' : (2 <= length qs)%nat -> ws = [] \/ length ws = length qs -> (2 <= length qs')%nat -> ws' = [] \/ length ws' = length qs' ->
  moment (effective qs ws) = moment (effective qs' ws') -> AverageEigenQuaterniond ra solver qs ws = AverageEigenQuaterniond ra solver qs' ws'.
Proof. intros A B C D E. rewrite !average_some by assumption. rewrite E. reflexivity. Qed.
Lemma score_same (l : list (quat R * R)) q p : (forall x, In x l -> fst x = q) -> alignment l p = fold_right (fun x s => snd x * snd x + s) 0 l * (dotq q p * dotq q p).
Proof.
  induction l as [|[r w] l IH]; intros H; cbn [alignment fold_right]; [ring|]. rewrite IH by (intros; apply H; right; assumption).
  rewrite (H (r, w) ltac:(left; reflexivity) : r = q). cbn [snd]. ring.
Qed.
Lemma sum_sq_pos (l : list (quat R * R)) : (exists x, In x l /\ snd x <> 0) -> 0 < fold_right (fun x s => snd x * snd x + s) 0 l.
Proof.
  assert (N : forall l : list (quat R * R), 0 <= fold_right (fun x s => snd x * snd x + s) 0 l) by (induction l0; cbn [fold_right]; nra).
  intros (x & I & NZ). induction l as [|a l IH]; [destruct I|]. cbn [fold_right]. pose proof (N l). destruct I as [->|I]; [nra|]. specialize (IH I). nra.
Qed.
Lemma dotq_extreme p q : unit p -> unit q -> 1 <= dotq p q * dotq p q -> q = p \/ q = oppq p.
Proof.
  intros U V H. pose proof (dotq_sq p q U V). assert (E : (dotq p q - 1) * (dotq p q + 1) = 0) by lra. apply Rmult_integral in E as [E|E].
  - left. symmetry. apply dotq_one; auto; lra.
  - right. symmetry. apply dotq_one; [apply unit_opp; exact U|exact V|]. replace (dotq (oppq p) q) with (- dotq p q) by (unfold dotq, oppq; ra_simpl; ring). lra.
Qed.
(** Diagonalising a matrix that acts on the first two coordinates only. *)
Definition block (a b d : R) : r44 := ((a, b, 0, 0), (b, d, 0, 0), (0, 0, 0, 0), (0, 0, 0, 0)).
Definition block_pairs (a b d : R) : list (R * r4) :=
  let h := Ratan2 (2 * b) (a - d) / 2 in
  let r := sqrt ((a - d) * (a - d) + 2 * b * (2 * b)) in
  [((a + d + r) / 2, (cos h, sin h, 0, 0)); ((a + d - r) / 2, (- sin h, cos h, 0, 0)); (0, e3); (0, e4)].
Lemma block_basis a b d : eigen_basis (block a b d) (block_pairs a b d).
Proof.
  unfold block_pairs. set (h := Ratan2 (2 * b) (a - d) / 2). set (r := sqrt _).
  destruct (atan2_spec (2 * b) (a - d)) as [C S]. fold r in C, S.
  replace (Ratan2 (2 * b) (a - d)) with (2 * h) in C, S by (unfold h; field). rewrite cos_2a in C. rewrite sin_2a in S. pose proof (cs1 h) as K.
  set (c := cos h) in *. set (s := sin h) in *. clearbody c s r h.
  set (m := (a + d) / 2). replace ((a + d + r) / 2) with (m + r / 2) by (unfold m; field). replace ((a + d - r) / 2) with (m - r / 2) by (unfold m; field).
  assert (A : a = m + r * (c * c - s * s) / 2) by (unfold m; lra). assert (D : d = m - r * (c * c - s * s) / 2) by (unfold m; lra). assert (B : b = r * (s * c)) by lra.
  clearbody m. clear C S. subst a b d. set (t := r / 2). replace r with (2 * t) by (unfold t; field). clearbody t.
  replace (2 * t * (c * c - s * s) / 2) with (t * (c * c - s * s)) by field. replace (2 * t / 2) with t by field. split; [reflexivity|]. split.
  - assert (X : forall P : R * r4 -> Prop, forall a b c d, P a -> P b -> P c -> P d -> Forall P [a; b; c; d]) by (intros; auto).
    apply X; clear X; cbn [fst snd]; unfold block, apply4, dot4, scale4, e3, e4; (split; [nra|]);
    (f_equal; [f_equal; [f_equal|]|]); try ring; try nsatz.
  - intros [[[x y] z] w]. exists [c * x + s * y; c * y - s * x; z; w]. split; [reflexivity|]. unfold combination, e3, e4. cbn [map combine fold_right fst snd]. unfold add4, scale4.
    clear -K. assert (X : x = (c * c + s * s) * x) by (rewrite K; ring). assert (Y : y = (c * c + s * s) * y) by (rewrite K; ring).
    f_equal; [f_equal; [f_equal|]|]; lra.
Qed.
