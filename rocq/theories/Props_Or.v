(** Property C131: two whole numbers joined by "and" or "or" (/repo/math_evaluation/core/latex_normalize.py:307-309). *)
From Coq Require Import String List NArith ZArith Bool Lia.
From Verif Require Import PyStr PyStrTheory NumTheory Spec Arith Normalize NormTheory SplitTheory NormOr Monad MonadTheory Eval EvalTheory EvalTheory2 Demo.
Import ListNotations.
Local Open Scope N_scope.
Local Ltac vm := vm_compute; reflexivity.

(** ** C131 *)
Theorem C131_pair ints A B w : whole A -> whole B -> In w separators -> ~ has_thousands (A ++ u "," ++ B) ->
  string_normalize ints (A ++ w ++ B) = NStr (A ++ u "," ++ B).
Proof. exact (separator_pair ints A B w). Qed.
Print Assumptions C131_pair.
Theorem C131_accepted W n A B w w' st : whole A -> whole B -> In w separators -> In w' (u "," :: separators) ->
  is_equiv W (S n) (Some (A ++ w ++ B)) (Some (A ++ w' ++ B)) st = (Ret true, st) /\
  is_equiv W (S n) (Some (A ++ w' ++ B)) (Some (A ++ w ++ B)) st = (Ret true, st).
Proof. exact (separator_accepted W n A B w w' st). Qed.
Print Assumptions C131_accepted.
(** Against any other answer, the verdict is that on the two numbers with a comma (C101) *)
Theorem C131_verdict W n A B w b st : whole A -> whole B -> In w separators ->
  ~ equal_up_to_padding is_space (A ++ w ++ B) b -> ~ equal_up_to_padding is_space (A ++ u "," ++ B) b ->
  is_equiv W (S n) (Some (A ++ w ++ B)) (Some b) st = is_equiv W (S n) (Some (A ++ u "," ++ B)) (Some b) st.
Proof. exact (separator_verdict W n A B w b st). Qed.
Print Assumptions C131_verdict.
(** Finding: three digits after at most three are read as one number *)
Theorem C131_merged z A B : (- 2 ^ 53 <= z <= 2 ^ 53)%Z -> Forall ascii_digit A -> (1 <= length A <= 3)%nat ->
  Forall ascii_digit B -> length B = 3%nat -> dec_Z z = (A ++ B)%list ->
  forall W n w st, In w separators -> int_str W (A ++ u "," ++ B) = int_str W (dec_Z z) ->
  is_equiv W (S n) (Some (A ++ w ++ B)) (Some (dec_Z z)) st = (Ret true, st).
Proof. exact (merged_accepted z A B). Qed.
Print Assumptions C131_merged.
Local Ltac whole_tac b d := exists b, d; split; [vm|split; [repeat constructor; vm_compute; discriminate|discriminate]].
Example C131_ex : string_normalize (fun x => x) (u "-2 or 3") = NStr (u "-2,3").
Proof.
  apply (C131_pair (fun x => x) (u "-2") (u "3") (u " or ")).
  - whole_tac true (u "2").
  - whole_tac false (u "3").
  - vm_compute. tauto.
  - intro H. apply thousands_long in H. revert H. vm_compute. lia.
Qed.
Example C131_accepted_ex : is_equiv (table_world []) 3 (Some (u "7, and -8")) (Some (u "7,-8")) tt = (Ret true, tt).
Proof.
  apply (proj1 (C131_accepted (table_world []) 2 (u "7") (u "-8") (u ", and ") (u ",") tt ltac:(whole_tac false (u "7")) ltac:(whole_tac true (u "8")) ltac:(vm_compute; tauto) ltac:(vm_compute; tauto))).
Qed.
(** a back end that reads digit groups as C106 says *)
Definition grouping_world : World := {|
  St := unit;
  int_str := fun x => replace [44] [] x;
  set_iter := set_iter (table_world []);
  set_iter_ok := set_iter_ok (table_world []);
  Iv := unit;
  interval_body := fun _ => raise ValueError;
  interval_compare := fun _ _ => ret true;
  equal_with_simplify := fun x y => ret false;
  parse_lhs := fun _ => ret tt |}.
Example C131_merged_ex : is_equiv grouping_world 3 (Some (u "2 or 300")) (Some (u "2300")) tt = (Ret true, tt).
Proof.
  apply (C131_merged 2300 (u "2") (u "300") ltac:(lia) ltac:(repeat constructor; vm_compute; discriminate) ltac:(vm_compute; lia)
    ltac:(repeat constructor; vm_compute; discriminate) eq_refl ltac:(vm) grouping_world 2 (u " or ") tt); [vm_compute; tauto|vm].
Qed.
Example C131_verdict_ex : is_equiv (table_world [(u "7", u "7"); (u "-8", u "-8")]) 3 (Some (u "7 or -8")) (Some (u "-8,7")) tt = (Ret true, tt).
Proof.
  refine (eq_trans (C131_verdict (table_world [(u "7", u "7"); (u "-8", u "-8")]) 2 (u "7") (u "-8") (u " or ") (u "-8,7") tt ltac:(whole_tac false (u "7")) ltac:(whole_tac true (u "8")) ltac:(vm_compute; tauto)
    ltac:(rewrite <- padding_iff; vm_compute; discriminate) ltac:(rewrite <- padding_iff; vm_compute; discriminate)) _). vm.
Qed.
