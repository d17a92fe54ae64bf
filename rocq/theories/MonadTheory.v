(** Reasoning about computations that may raise. *)
From Coq Require Import List Bool.
From Verif Require Import Monad.
Import ListNotations.
Local Open Scope mon_scope.

Section T.
Context {St : Type}.

(** Every exception [m] can raise satisfies [Q]. *)
Definition raises_only {A} (Q : exn -> Prop) (m : M St A) : Prop :=
  forall st e, fst (m st) = Raise e -> Q e.

Lemma ro_ret {A} Q (a : A) : raises_only Q (ret a).
Proof. intros st e; discriminate. Qed.
Lemma ro_raise {A} (Q : exn -> Prop) e : Q e -> raises_only Q (@raise St A e).
Proof. intros H st e' [= <-]. exact H. Qed.
Lemma ro_bind {A B} (Q : exn -> Prop) (m : M St A) (f : A -> M St B) :
  raises_only Q m -> (forall a, raises_only Q (f a)) -> raises_only Q (bind m f).
Proof.
  intros Hm Hf st e. unfold bind. destruct (m st) as [[a|e'] st'] eqn:E; cbn.
  - apply Hf.
  - intros [= <-]. apply (Hm st). rewrite E. reflexivity.
Qed.
Lemma ro_try_bare {A} (Q : exn -> Prop) (m h : M St A) :
  raises_only Q h -> raises_only Q (try_bare m h).
Proof.
  intros Hh st e. unfold try_bare. destruct (m st) as [[a|e'] st'] eqn:E; cbn.
  - discriminate.
  - apply Hh.
Qed.
Lemma ro_try_except {A} (Q : exn -> Prop) (m h : M St A) :
  raises_only (fun e => is_Exception e = true \/ Q e) m -> raises_only Q h ->
  raises_only (fun e => Q e) (try_except m h).
Proof.
  intros Hm Hh st e. unfold try_except. destruct (m st) as [[a|e'] st'] eqn:E; cbn.
  - discriminate.
  - destruct (is_Exception e') eqn:X; cbn.
    + apply Hh.
    + intros [= <-]. destruct (Hm st e') as [H|H]; [rewrite E; reflexivity| |exact H]. congruence.
Qed.
Lemma ro_weaken {A} (Q R : exn -> Prop) (m : M St A) :
  (forall e, Q e -> R e) -> raises_only Q m -> raises_only R m.
Proof. intros H Hm st e He. apply H, (Hm st), He. Qed.

(** [m] returns a value that does not depend on the state. *)
Definition pure_to {A} (m : M St A) (a : A) : Prop := forall st, fst (m st) = Ret a.

Lemma pure_ret {A} (a : A) : pure_to (ret a) a.
Proof. intro; reflexivity. Qed.
Lemma pure_bind {A B} (m : M St A) (f : A -> M St B) a b :
  pure_to m a -> pure_to (f a) b -> pure_to (bind m f) b.
Proof.
  intros Hm Hf st. unfold bind. specialize (Hm st). destruct (m st) as [r st']; cbn in Hm; subst r. apply Hf.
Qed.
Lemma pure_try_except {A} (m h : M St A) a : pure_to m a -> pure_to (try_except m h) a.
Proof. intros H st. unfold try_except. specialize (H st). destruct (m st) as [r st']; cbn in H; subst r. reflexivity. Qed.
Lemma pure_try_bare {A} (m h : M St A) a : pure_to m a -> pure_to (try_bare m h) a.
Proof. intros H st. unfold try_bare. specialize (H st). destruct (m st) as [r st']; cbn in H; subst r. reflexivity. Qed.

(** [m] succeeds with [a] and leaves the state alone. *)
Definition quiet {A} (m : M St A) (a : A) : Prop := forall st, m st = (Ret a, st).
Lemma quiet_ret {A} (a : A) : quiet (ret a) a.
Proof. intro; reflexivity. Qed.
Lemma quiet_bind {A B} (m : M St A) (f : A -> M St B) a b :
  quiet m a -> quiet (f a) b -> quiet (bind m f) b.
Proof. intros Hm Hf st. unfold bind. rewrite Hm. apply Hf. Qed.
Lemma quiet_try_except {A} (m h : M St A) a : quiet m a -> quiet (try_except m h) a.
Proof. intros H st. unfold try_except. rewrite H. reflexivity. Qed.

Lemma bind_inv {A B} (m : M St A) (f : A -> M St B) st b st' :
  bind m f st = (Ret b, st') -> exists a st1, m st = (Ret a, st1) /\ f a st1 = (Ret b, st').
Proof.
  unfold bind. destruct (m st) as [[a|e] st1] eqn:E; intro H.
  - exists a, st1; auto.
  - discriminate.
Qed.
Lemma bind_inv_fst {A B} (m : M St A) (f : A -> M St B) st b :
  fst (bind m f st) = Ret b -> exists a st1, m st = (Ret a, st1) /\ fst (f a st1) = Ret b.
Proof.
  unfold bind. destruct (m st) as [[a|e] st1] eqn:E; intro H.
  - exists a, st1; auto.
  - discriminate.
Qed.
Lemma bind_ret_r {A} (m : M St A) st : bind m ret st = m st.
Proof. unfold bind, ret. destruct (m st) as [[a|e] st1]; reflexivity. Qed.
End T.
