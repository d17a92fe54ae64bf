(** Property C137: any number of equations for a variable separated by commas, "and" or "or" (/repo/math_evaluation/core/latex_normalize.py:307-309). *)
From Coq Require Import String List NArith ZArith Bool Lia.
From Verif Require Import PyStr PyStrTheory NumTheory Spec Arith Normalize NormTheory SplitTheory NormOr NormList NormEqs Monad MonadTheory Eval EvalTheory EvalTheory2 Demo.
Import ListNotations.
Local Open Scope N_scope.
Local Ltac vm := vm_compute; reflexivity.

(** ** C137 *)
Theorem C137_plain ints A l : equation A -> equations l -> l <> [] ->
  string_normalize ints (A ++ listed sep_text l) = NStr (A ++ listed bare l).
Proof. exact (elist_plain ints A l). Qed.
Print Assumptions C137_plain.
Theorem C137_accepted W n A l l' st : equation A -> equations l -> l <> [] -> map snd l = map snd l' ->
  is_equiv W (S n) (Some (A ++ listed sep_text l)) (Some (A ++ listed sep_text l')) st = (Ret true, st).
Proof. exact (elist_accepted W n A l l' st). Qed.
Print Assumptions C137_accepted.
Theorem C137_verdict W n A l l' b st : equation A -> equations l -> l <> [] -> map snd l = map snd l' ->
  ~ equal_up_to_padding is_space (A ++ listed sep_text l) b -> ~ equal_up_to_padding is_space (A ++ listed sep_text l') b ->
  is_equiv W (S n) (Some (A ++ listed sep_text l)) (Some b) st = is_equiv W (S n) (Some (A ++ listed sep_text l')) (Some b) st.
Proof. exact (elist_verdict W n A l l' b st). Qed.
Print Assumptions C137_verdict.
Local Ltac whole_tac b d := exists b, d; split; [vm|split; [repeat constructor; vm_compute; discriminate|discriminate]].
Local Ltac eq_tac v B b d := exists v, B; split; [vm|split; [vm_compute; tauto|whole_tac b d]].
Definition two : list (sep * pystr) := [(Word false true, u "x=-300")].
Lemma two_equations : equations two.
Proof. repeat constructor. cbn [snd]. eq_tac 120 (u "-300") true (u "300"). Qed.
Example C137_ex : string_normalize (fun x => x) (u "x=2 or x=-300") = NStr (u "x=2,x=-300").
Proof. apply (C137_plain (fun x => x) (u "x=2") two); [eq_tac 120 (u "2") false (u "2")|exact two_equations|discriminate]. Qed.
Example C137_accepted_ex : is_equiv (table_world []) 3 (Some (u "x=2 or x=-300")) (Some (u "x=2,  x=-300")) tt = (Ret true, tt).
Proof. apply (C137_accepted (table_world []) 2 (u "x=2") two [(Comma 2, u "x=-300")] tt ltac:(eq_tac 120 (u "2") false (u "2")) two_equations ltac:(discriminate) eq_refl). Qed.
Example C137_verdict_ex : is_equiv (table_world [(u "x=2", u "a"); (u "x=-300", u "b"); (u "x=3", u "c")]) 3 (Some (u "x=2 or x=-300")) (Some (u "x=2,x=3")) tt = (Ret false, tt).
Proof.
  refine (eq_trans (C137_verdict (table_world [(u "x=2", u "a"); (u "x=-300", u "b"); (u "x=3", u "c")]) 2 (u "x=2") two [(Comma 0, u "x=-300")] (u "x=2,x=3") tt ltac:(eq_tac 120 (u "2") false (u "2")) two_equations ltac:(discriminate) eq_refl
    ltac:(rewrite <- padding_iff; vm_compute; discriminate) ltac:(rewrite <- padding_iff; vm_compute; discriminate)) _). vm.
Qed.
