(** Code that changes state and may fail: unlike [outcome] alone, the state that
    was reached survives an exception (objects passed by reference). *)
From Verif Require Import Base.

Definition eff (S A : Type) : Type := S -> outcome A * S.

Definition ret {S A} (a : A) : eff S A := fun s => (Ok a, s).
Definition lift {S A} (x : outcome A) : eff S A := fun s => (x, s).
Definition get {S} : eff S S := fun s => (Ok s, s).
Definition put {S} (s : S) : eff S unit := fun _ => (Ok tt, s).
Definition ebind {S A B} (m : eff S A) (f : A -> eff S B) : eff S B :=
  fun s =>
    match m s with
    | (Ok a, s') => f a s'
    | (Throw e, s') => (Throw e, s')
    | (UB, s') => (UB, s')
    | (Diverge, s') => (Diverge, s')
    end.
Notation "'run' x <- a ; b" := (ebind a (fun x => b))
  (at level 200, x pattern, a at level 100, b at level 200).

(** Calling an empty std::function throws std::bad_function_call. *)
Definition call {S A B} (f : option (A -> eff S B)) (a : A) : eff S B :=
  match f with Some g => g a | None => lift (Throw BadFunctionCall) end.

(** Code that works on one half of a pair of states. *)
Definition on_snd {T W A} (m : eff W A) : eff (T * W) A :=
  fun s => let (r, w) := m (snd s) in (r, (fst s, w)).
Definition on_fst {T W A} (m : eff T A) : eff (T * W) A :=
  fun s => let (r, t) := m (fst s) in (r, (t, snd s)).

(** How a piece of code can stop without a value. *)
Inductive stop : Type := Thrown (e : exn) | Undefined | Endless.
Definition ends {A} (x : outcome A) : option stop :=
  match x with Ok _ => None | Throw e => Some (Thrown e) | UB => Some Undefined | Diverge => Some Endless end.

(** Started in a state with [P], the code returns with [Q] or stops with [E]. *)
Definition hoare {S A} (P : S -> Prop) (m : eff S A) (Q : A -> S -> Prop) (E : stop -> S -> Prop) : Prop :=
  forall s, P s ->
    match m s with
    | (Ok a, s') => Q a s'
    | (Throw e, s') => E (Thrown e) s'
    | (UB, s') => E Undefined s'
    | (Diverge, s') => E Endless s'
    end.

Lemma hoare_ret {S A} (a : A) (P : S -> Prop) (Q : A -> S -> Prop) E :
  (forall s, P s -> Q a s) -> hoare P (ret a) Q E.
Proof. intros H s Hs. exact (H s Hs). Qed.

Lemma hoare_bind {S A B} (m : eff S A) (f : A -> eff S B) P Q R E :
  hoare P m Q E -> (forall a, hoare (Q a) (f a) R E) -> hoare P (ebind m f) R E.
Proof.
  intros Hm Hf s Hs. specialize (Hm s Hs). unfold ebind.
  destruct (m s) as [[a|e| |] s']; try exact Hm. exact (Hf a s' Hm).
Qed.

Lemma hoare_weaken {S A} (m : eff S A) (P P' : S -> Prop) (Q Q' : A -> S -> Prop) (E E' : stop -> S -> Prop) :
  hoare P m Q E -> (forall s, P' s -> P s) -> (forall a s, Q a s -> Q' a s) -> (forall e s, E e s -> E' e s) ->
  hoare P' m Q' E'.
Proof.
  intros H HP HQ HE s Hs. specialize (H s (HP s Hs)).
  destruct (m s) as [[a|e| |] s']; auto.
Qed.

Lemma hoare_pre {S A} (m : eff S A) (P P' : S -> Prop) Q E :
  hoare P m Q E -> (forall s, P' s -> P s) -> hoare P' m Q E.
Proof. intros H HP s Hs. exact (H s (HP s Hs)). Qed.

Lemma hoare_post {S A} (m : eff S A) (P : S -> Prop) (Q Q' : A -> S -> Prop) E :
  hoare P m Q E -> (forall a s, Q a s -> Q' a s) -> hoare P m Q' E.
Proof. intros H HQ. eapply hoare_weaken; eauto. Qed.

Lemma hoare_get {S} (P : S -> Prop) E : hoare P get (fun a s => a = s /\ P s) E.
Proof. intros s Hs. cbn. auto. Qed.

Lemma hoare_lift {S A} (x : outcome A) (P : S -> Prop) (Q : A -> S -> Prop) E :
  (forall s, P s -> match x with Ok a => Q a s | Throw e => E (Thrown e) s | UB => E Undefined s | Diverge => E Endless s end) ->
  hoare P (lift x) Q E.
Proof. intros H s Hs. specialize (H s Hs). unfold lift. destruct x; exact H. Qed.

Lemma hoare_snd {T W A} (m : eff W A) (P : T * W -> Prop) Q E :
  (forall t, hoare (fun w => P (t, w)) m (fun a w => Q a (t, w)) (fun e w => E e (t, w))) ->
  hoare P (on_snd m) Q E.
Proof.
  intros H [t w] Hs. specialize (H t w Hs). unfold on_snd. cbn [fst snd].
  destruct (m w) as [[a|e| |] w']; exact H.
Qed.
Lemma hoare_fst {T W A} (m : eff T A) (P : T * W -> Prop) Q E :
  (forall w, hoare (fun t => P (t, w)) m (fun a t => Q a (t, w)) (fun e t => E e (t, w))) ->
  hoare P (on_fst m) Q E.
Proof.
  intros H [t w] Hs. specialize (H w t Hs). unfold on_fst. cbn [fst snd].
  destruct (m t) as [[a|e| |] t']; exact H.
Qed.

Lemma hoare_ok {S A} (m : eff S A) P Q E s a s' : hoare P m Q E -> P s -> m s = (Ok a, s') -> Q a s'.
Proof. intros H Hs Em. specialize (H s Hs). rewrite Em in H. exact H. Qed.

Lemma hoare_if {S A} (b : bool) (m1 m2 : eff S A) P Q E :
  (b = true -> hoare P m1 Q E) -> (b = false -> hoare P m2 Q E) -> hoare P (if b then m1 else m2) Q E.
Proof. destruct b; auto. Qed.
