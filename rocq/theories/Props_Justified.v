(** C122: is_equiv accepts nothing without a reason. *)
From Coq Require Import String List NArith ZArith Bool Permutation Lia.
From Verif Require Import PyStr Regex Normalize Monad MonadTheory Split Eval Demo Justified.
Import ListNotations.
Local Open Scope mon_scope.

(** ** C122 *)
Theorem C122_justified W n gt gv st st' : is_equiv W n gt gv st = (Ret true, st') ->
  gt = None /\ gv = None \/ exists a b, gt = Some a /\ gv = Some b /\ justified W a b.
Proof. exact (answers_justified W n gt gv st st'). Qed.
Print Assumptions C122_justified.
Local Notation W1 := (table_world [(u "alpha", u "gamma")]).
Example C122_ex : exists st', is_equiv W1 9 (Some (u "1,alpha,2")) (Some (u "gamma,2,1")) tt = (Ret true, st').
Proof. eexists. vm_compute. reflexivity. Qed.
(* without the entry in the table there is no reason *)
Local Notation W0 := (table_world []).
Example C122_ex2 : ~ justified W0 (u "(1,alpha)") (u "(1,gamma)").
Proof.
  assert (B : ~ justified W0 (u "alpha") (u "gamma")).
  { intro H. inversion H as [a b E|a b s E1 E2|a b r r' R1 R2 N A]; subst; try (vm_compute in E; discriminate E); [vm_compute in E1, E2; congruence|].
    vm_compute in R1, R2. subst r r'. inversion A as [r r' x y Hb|r r' (st & st' & Q)|r r' s s' E1 E2 D J|r r' k l l' E1|r r' l l' g m rest E1|r r' s s' E1 E2 D J|r r' l l' E1]; subst.
    - vm_compute in Hb. intuition discriminate.
    - vm_compute in Q. discriminate Q.
    - vm_compute in E1, E2. injection E1 as <-. injection E2 as <-. destruct D as [D|D]; apply D; reflexivity.
    - vm_compute in E1. discriminate E1.
    - vm_compute in E1. discriminate E1.
    - vm_compute in E1, E2. injection E1 as <-. injection E2 as <-. destruct D as [D|D]; apply D; reflexivity.
    - vm_compute in E1. discriminate E1. }
  intro H. inversion H as [a b E|a b s E1 E2|a b r r' R1 R2 N A]; subst; try (vm_compute in E; discriminate E); [vm_compute in E1, E2; congruence|].
  vm_compute in R1, R2. subst r r'. inversion A as [r r' x y Hb (st & st' & Q)|r r' (st & st' & Q)|r r' s s' E1|r r' k l l' E1 E2 K S J|r r' l l' g m rest E1|r r' s s' E1|r r' l l' E1 E2 L J]; subst.
  - vm_compute in Q. discriminate Q.
  - vm_compute in Q. discriminate Q.
  - vm_compute in E1. discriminate E1.
  - vm_compute in E1, E2. injection E1 as <- <-. injection E2 as <-. apply B, J. right. left. reflexivity.
  - vm_compute in E1. discriminate E1.
  - vm_compute in E1. discriminate E1.
  - vm_compute in E1, E2. injection E1 as <-. injection E2 as <-. destruct (J _ _ (or_intror (or_introl eq_refl))) as [(a & b & Ea & Eb & Jab)|(p & q & Ep & _)]; [|discriminate Ep].
    injection Ea as <-. injection Eb as <-. exact (B Jab).
Qed.
