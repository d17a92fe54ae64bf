(** Python computations: state passing (the state of SymPy, of the random
    generator, of latex2sympy's globals ...) and exceptions as values. *)
From Coq Require Import List Bool.
Import ListNotations.

(** Exceptions.  [ExcOther n] stands for any other subclass of [Exception]
    raised by a library; [BaseExc n] for exceptions that are not subclasses of
    [Exception] (KeyboardInterrupt, SystemExit, GeneratorExit). *)
Inductive exn :=
| AssertionError | ValueError | TypeError | AttributeError | IndexError | RuntimeError
| RecursionError | KeyError
| ExcOther (n : nat)
| BaseExc (n : nat).

Definition is_Exception (e : exn) : bool := match e with BaseExc _ => false | _ => true end.

Inductive res (A : Type) := Ret (a : A) | Raise (e : exn).
Arguments Ret {A}. Arguments Raise {A}.

Section M.
Context {St : Type}.
Definition M (A : Type) := St -> res A * St.
Definition ret {A} (a : A) : M A := fun st => (Ret a, st).
Definition raise {A} (e : exn) : M A := fun st => (Raise e, st).
Definition bind {A B} (m : M A) (f : A -> M B) : M B := fun st =>
  match m st with
  | (Ret a, st') => f a st'
  | (Raise e, st') => (Raise e, st')
  end.
(** [try: m except Exception: h] *)
Definition try_except {A} (m h : M A) : M A := fun st =>
  match m st with
  | (Ret a, st') => (Ret a, st')
  | (Raise e, st') => if is_Exception e then h st' else (Raise e, st')
  end.
(** [try: m except: h] *)
Definition try_bare {A} (m h : M A) : M A := fun st =>
  match m st with
  | (Ret a, st') => (Ret a, st')
  | (Raise e, st') => h st'
  end.
End M.
Arguments M St A : clear implicits.

Declare Scope mon_scope.
Delimit Scope mon_scope with mon.
Notation "x <- m ;; k" := (bind m (fun x => k)) (at level 61, m at next level, right associativity) : mon_scope.
Notation "' p <- m ;; k" := (bind m (fun x => let p := x in k)) (at level 61, p pattern, m at next level, right associativity) : mon_scope.

(** Value returned, if any *)
Definition returns {St A} (m : M St A) (st : St) (a : A) : Prop := fst (m st) = Ret a.
