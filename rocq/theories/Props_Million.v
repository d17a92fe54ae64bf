(** Property C130: numbers with million, billion, trillion (/repo/math_evaluation/core/latex_normalize.py:311-313). *)
From Coq Require Import String List NArith ZArith Bool Lia.
From Verif Require Import PyStr PyStrTheory Spec Normalize NormTheory NormMillion Monad MonadTheory Eval EvalTheory EvalTheory2 Demo.
Import ListNotations.
Local Open Scope N_scope.
Local Ltac vm := vm_compute; reflexivity.

(** ** C130 *)
Theorem C130_scale ints z w e : In (w, e) scales -> string_normalize ints (dec_Z z ++ w) = NStr (scaled z e).
Proof. exact (scale_plain ints z w e). Qed.
Print Assumptions C130_scale.
(** accepted for one another and for the product, without asking the symbolic engine *)
Theorem C130_accepted W n z w w' e st : In (w, e) scales -> In (w', e) scales ->
  is_equiv W (S n) (Some (dec_Z z ++ w)) (Some (dec_Z z ++ w')) st = (Ret true, st) /\
  is_equiv W (S n) (Some (dec_Z z ++ w)) (Some (scaled z e)) st = (Ret true, st) /\
  is_equiv W (S n) (Some (scaled z e)) (Some (dec_Z z ++ w)) st = (Ret true, st).
Proof. exact (scale_accepted W n z w w' e st). Qed.
Print Assumptions C130_accepted.
(** Finding: the plural leaves the letter s behind the exponent *)
Theorem C130_plural ints z w e : In (w, e) scales -> string_normalize ints (dec_Z z ++ w ++ u "s") = NStr (scaled z e ++ u "s").
Proof. exact (scale_plural ints z w e). Qed.
Print Assumptions C130_plural.
Example C130_ex : string_normalize (fun x => x) (u "-25 billion") = NStr (u "-25*10^9").
Proof. apply (C130_scale (fun x => x) (-25) (u " billion") (u "9")). vm_compute. tauto. Qed.
Example C130_accepted_ex : is_equiv (table_world []) 3 (Some (u "7trillion")) (Some (u "7 trillion")) tt = (Ret true, tt) /\
  is_equiv (table_world []) 3 (Some (u "7*10^12")) (Some (u "7trillion")) tt = (Ret true, tt).
Proof.
  destruct (C130_accepted (table_world []) 2 7 (u "trillion") (u " trillion") (u "12") tt) as (H1 & _ & H3); [vm_compute; tauto|vm_compute; tauto|]. split; [exact H1|exact H3].
Qed.
Example C130_plural_ex : string_normalize (fun x => x) (u "5 millions") = NStr (u "5*10^6s").
Proof. apply (C130_plural (fun x => x) 5 (u " million") (u "6")). vm_compute. tauto. Qed.
