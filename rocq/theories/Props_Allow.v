(** Property C133: the unused guard before evaluation (/repo/math_evaluation/core/latex_parser.py:18-19, 77-97). *)
From Coq Require Import String List NArith Bool Lia.
From Verif Require Import PyStr PyStrTheory NumTheory AllowEval.
Import ListNotations.
Local Open Scope N_scope.
Local Ltac vm := vm_compute; reflexivity.

(** ** C133 *)
Theorem C133_guard e : should_allow_eval e = true <-> few_letters e /\ forall a b, e = a ++ u "^" ++ b -> ~ hazard b.
Proof. exact (allow_iff e). Qed.
Print Assumptions C133_guard.
Example C133_ex : few_letters (u "\sqrt{x}^2+\frac{1}{y}") /\ (forall a b, u "\sqrt{x}^2+\frac{1}{y}" = a ++ u "^" ++ b -> ~ hazard b).
Proof. apply C133_guard. vm. Qed.
(** Finding: the letters of commands other than sqrt and frac count as unknowns, so a multiple of pi in one unknown is refused *)
Example C133_pi : should_allow_eval (u "\pi x") = false /\ ~ few_letters (u "\pi x").
Proof. split; [vm|]. intro H. specialize (H (u "pix")). assert (X : (length (u "pix") <= 2)%nat); [|cbn in X; lia].
  apply H; [repeat constructor; cbn; intuition discriminate|]. intros c [<-|[<-|[<-|[]]]]; (split; [vm|vm_compute; tauto]). Qed.
Example C133_power : should_allow_eval (u "x^10") = false /\ hazard (u "10").
Proof. split; [vm|]. right. right. exists 49, 48, []. split; [reflexivity|]. split; [vm_compute; split; discriminate|left; vm_compute; split; discriminate]. Qed.
