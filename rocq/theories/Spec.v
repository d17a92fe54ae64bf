(** Specification vocabulary, independent of the model's helper functions. *)
From Coq Require Import List NArith ZArith Bool Permutation.
Import ListNotations.

(** Two strings equal up to characters satisfying [ws] at both ends. *)
Definition equal_up_to_padding (ws : N -> bool) (a b : list N) : Prop :=
  exists core w1 w2 w3 w4,
    a = w1 ++ core ++ w2 /\ b = w3 ++ core ++ w4 /\
    Forall (fun c => ws c = true) (w1 ++ w2 ++ w3 ++ w4).

(** A one-to-one matching of all of [l1] into [l2]; [rest] is what it leaves over in [l2]. *)
Definition matching {A B} (R : A -> B -> Prop) (l1 : list A) (l2 : list B) (rest : list B) : Prop :=
  exists m, Permutation l2 (m ++ rest) /\ Forall2 R l1 m.

(** The distinct elements of a list, in some order. *)
Definition distinct_elements {A} (l d : list A) : Prop := NoDup d /\ forall x, In x d <-> In x l.

(** Component-wise relation, same length required (this is [Forall2], restated by index). *)
Definition pointwise {A B} (R : A -> B -> Prop) (l1 : list A) (l2 : list B) : Prop :=
  length l1 = length l2 /\
  forall i x y, nth_error l1 i = Some x -> nth_error l2 i = Some y -> R x y.

Lemma pointwise_Forall2 {A B} (R : A -> B -> Prop) l1 l2 : pointwise R l1 l2 <-> Forall2 R l1 l2.
Proof.
  split.
  - revert l2; induction l1 as [|x l1 IH]; intros [|y l2] [H1 H2]; try discriminate; constructor.
    + apply (H2 O); reflexivity.
    + apply IH. split; [injection H1 as H1; exact H1|]. intros i a b Ha Hb. apply (H2 (S i)); assumption.
  - induction 1 as [|x y l1 l2 H F [IH1 IH2]]; (split; [cbn; auto|]).
    + intros [|i] a b; discriminate.
    + intros [|i] a b Ha Hb; cbn in *; [injection Ha as <-; injection Hb as <-; exact H|eauto].
Qed.
