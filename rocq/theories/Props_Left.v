(** Property C127: brackets sized with \left and \right (/repo/math_evaluation/core/latex_normalize.py:321-325). *)
From Coq Require Import String List NArith ZArith Bool Lia.
From Verif Require Import PyStr PyStrTheory Regex Normalize NormTheory NormDollar NormLeft Monad Eval Demo.
Import ListNotations.
Local Open Scope N_scope.
Local Ltac vm := vm_compute; reflexivity.

(** ** C127 *)
Theorem C127_sizes ints l : Forall bit_ok l -> string_normalize ints (written l) = string_normalize ints (unsized l).
Proof. exact (sizes_dropped ints l). Qed.
Print Assumptions C127_sizes.
(** Finding: with a space between the command and its bracket the command stays, and the pair is rejected *)
Theorem C127_space_refuted : exists s s' t, s' = replace (u " ") [] s /\
  string_normalize (fun x => x) s' = string_normalize (fun x => x) t /\ string_normalize (fun x => x) s = NStr s' /\ s' <> t /\
  fst (is_equiv (table_world [(u "1", u "1"); (u "2", u "2")]) 4 (Some t) (Some s') tt) = Ret true /\
  fst (is_equiv (table_world [(u "1", u "1"); (u "2", u "2")]) 4 (Some t) (Some s) tt) = Ret false.
Proof.
  exists (u "\left (1,2\right )"), (u "\left(1,2\right)"), (u "(1,2)").
  split; [vm|]. split; [vm|]. split; [vm|]. split; [discriminate|]. split; vm.
Qed.
Print Assumptions C127_space_refuted.
Definition l127 : list bit := [Br true 40; Ch 49; Ch 44; Br false 91; Ch 120; Ch 44; Ch 121; Br true 93; Br true 41].
Example C127_ex ints : written l127 = u "\left(1,[x,y\right]\right)" /\ unsized l127 = u "(1,[x,y])" /\
  string_normalize ints (u "\left(1,[x,y\right]\right)") = string_normalize ints (u "(1,[x,y])").
Proof. split; [vm|]. split; [vm|]. apply (C127_sizes ints l127). repeat constructor; vm_compute; tauto. Qed.
