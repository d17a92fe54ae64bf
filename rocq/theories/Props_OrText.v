(** Property C134: two whole numbers joined by "and" or "or" in a text command (/repo/math_evaluation/core/latex_normalize.py:307-309). *)
From Coq Require Import String List NArith ZArith Bool Lia.
From Verif Require Import PyStr PyStrTheory NumTheory Spec Arith Normalize NormTheory SplitTheory NormOr NormOrText Monad MonadTheory Eval EvalTheory EvalTheory2 Demo.
Import ListNotations.
Local Open Scope N_scope.
Local Ltac vm := vm_compute; reflexivity.

(** ** C134 *)
Theorem C134_pair ints A B w : whole A -> whole B -> ~ has_thousands (A ++ u "," ++ B) ->
  string_normalize ints (A ++ text_separator w ++ B) = NStr (A ++ u "," ++ B).
Proof. exact (text_separator_pair ints A B w). Qed.
Print Assumptions C134_pair.
Theorem C134_accepted W n A B w w' st : whole A -> whole B -> In w' (u "," :: separators) \/ (exists v, w' = text_separator v) ->
  is_equiv W (S n) (Some (A ++ text_separator w ++ B)) (Some (A ++ w' ++ B)) st = (Ret true, st) /\
  is_equiv W (S n) (Some (A ++ w' ++ B)) (Some (A ++ text_separator w ++ B)) st = (Ret true, st).
Proof. exact (text_separator_accepted W n A B w w' st). Qed.
Print Assumptions C134_accepted.
(** Against any other answer, the verdict is that on the two numbers with a comma (C101) *)
Theorem C134_verdict W n A B w b st : whole A -> whole B ->
  ~ equal_up_to_padding is_space (A ++ text_separator w ++ B) b -> ~ equal_up_to_padding is_space (A ++ u "," ++ B) b ->
  is_equiv W (S n) (Some (A ++ text_separator w ++ B)) (Some b) st = is_equiv W (S n) (Some (A ++ u "," ++ B)) (Some b) st.
Proof. exact (text_separator_verdict W n A B w b st). Qed.
Print Assumptions C134_verdict.
Local Ltac whole_tac b d := exists b, d; split; [vm|split; [repeat constructor; vm_compute; discriminate|discriminate]].
Example C134_ex : string_normalize (fun x => x) (u "-2 \text{ or } 3") = NStr (u "-2,3").
Proof.
  apply (C134_pair (fun x => x) (u "-2") (u "3") (TSep false 1 1 true 1 1)).
  - whole_tac true (u "2").
  - whole_tac false (u "3").
  - intro H. apply thousands_long in H. revert H. vm_compute. lia.
Qed.
Example C134_accepted_ex : is_equiv (table_world []) 3 (Some (u "7,\text{and}-8")) (Some (u "7 or -8")) tt = (Ret true, tt).
Proof.
  apply (proj1 (C134_accepted (table_world []) 2 (u "7") (u "-8") (TSep true 0 0 false 0 0) (u " or ") tt ltac:(whole_tac false (u "7")) ltac:(whole_tac true (u "8")) ltac:(left; vm_compute; tauto))).
Qed.
Example C134_verdict_ex : is_equiv (table_world [(u "7", u "7"); (u "-8", u "-8")]) 3 (Some (u "7\text{ or }-8")) (Some (u "-8,7")) tt = (Ret true, tt).
Proof.
  refine (eq_trans (C134_verdict (table_world [(u "7", u "7"); (u "-8", u "-8")]) 2 (u "7") (u "-8") (TSep false 0 1 true 1 0) (u "-8,7") tt ltac:(whole_tac false (u "7")) ltac:(whole_tac true (u "8"))
    ltac:(rewrite <- padding_iff; vm_compute; discriminate) ltac:(rewrite <- padding_iff; vm_compute; discriminate)) _). vm.
Qed.
(** Finding: the same word in an mbox command, which is unwrapped elsewhere, is no separator *)
Theorem C134_mbox_refuted : exists x, x = u "2\mbox{ or }3" /\ string_normalize (fun x => x) x <> string_normalize (fun x => x) (u "2,3").
Proof. eexists. split; [reflexivity|]. vm_compute. discriminate. Qed.
