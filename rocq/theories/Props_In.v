(** Property C128: membership written before a set (/repo/math_evaluation/core/latex_normalize.py:327-328). *)
From Coq Require Import String List NArith ZArith Bool Lia.
From Verif Require Import PyStr PyStrTheory Regex Normalize NormTheory NormMixed NormDollar NormLeft NormIn Monad Eval Demo Props_Eval.
Import ListNotations.
Local Open Scope N_scope.
Local Ltac vm := vm_compute; reflexivity.

(** ** C128 *)
Theorem C128_membership ints c j k s : is_letter c -> forallb set_cp s = true -> s <> [] ->
  string_normalize ints (membership c j k s) = string_normalize ints s.
Proof. exact (fun Hc Hs Hn => membership_dropped c j k s Hc Hs Hn ints). Qed.
Print Assumptions C128_membership.
(** Whatever the letters: x \in S is accepted for y \in S and for S *)
Theorem C128_accepted (W : World) n c d i j k l s st : is_letter c -> is_letter d -> forallb set_cp s = true -> s <> [] ->
  is_equiv W (S n) (Some (membership c i j s)) (Some (membership d k l s)) st = (Ret true, st) /\
  is_equiv W (S n) (Some s) (Some (membership d k l s)) st = (Ret true, st).
Proof. exact (membership_accepted W n c d i j k l s st). Qed.
Print Assumptions C128_accepted.
Example C128_ex ints : membership 120 1 1 (u "[1,2)") = u "x \in [1,2)" /\
  string_normalize ints (u "x \in [1,2)") = string_normalize ints (u "[1,2)") /\
  is_equiv counting_world 1 (Some (u "t\in[1,2)")) (Some (u "x \in [1,2)")) O = (Ret true, O).
Proof.
  assert (L : is_letter 120 /\ is_letter 116) by (unfold is_letter; lia).
  split; [vm|]. split; [apply (C128_membership ints 120 1 1 (u "[1,2)")); [apply L|vm|discriminate]|].
  apply (C128_accepted counting_world 0 116 120 0 0 1 1 (u "[1,2)") O); [apply L|apply L|vm|discriminate].
Qed.
