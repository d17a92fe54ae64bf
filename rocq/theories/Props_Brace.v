(** Property C136: a pair of outer braces (/repo/math_evaluation/core/latex_normalize.py:386-387). *)
From Coq Require Import String List NArith ZArith Bool Lia.
From Verif Require Import PyStr PyStrTheory Spec Normalize NormTheory NormBrace Monad MonadTheory Eval EvalTheory EvalTheory2 Demo.
Import ListNotations.
Local Open Scope N_scope.
Local Ltac vm := vm_compute; reflexivity.

(** ** C136 *)
Theorem C136_braced ints t : forallb brace_cp t = true -> trimmed t -> brace_free t -> string_normalize ints (braced t) = string_normalize ints t.
Proof. exact (braced_read ints t). Qed.
Print Assumptions C136_braced.
Theorem C136_accepted W n t st : forallb brace_cp t = true -> trimmed t -> brace_free t ->
  is_equiv W (S n) (Some (braced t)) (Some t) st = (Ret true, st) /\ is_equiv W (S n) (Some t) (Some (braced t)) st = (Ret true, st).
Proof. exact (braced_accepted W n t st). Qed.
Print Assumptions C136_accepted.
Theorem C136_verdict W n t b st : forallb brace_cp t = true -> trimmed t -> brace_free t ->
  ~ equal_up_to_padding is_space (braced t) b -> ~ equal_up_to_padding is_space t b ->
  is_equiv W (S n) (Some (braced t)) (Some b) st = is_equiv W (S n) (Some t) (Some b) st.
Proof. exact (braced_verdict W n t b st). Qed.
Print Assumptions C136_verdict.
(** Finding: the first and the last brace are dropped although they do not match each other *)
Theorem C136_crossed ints x y : forallb brace_cp x = true -> forallb brace_cp y = true -> trimmed x -> trimmed y -> x <> [] -> y <> [] ->
  brace_free (x ++ u "}+{" ++ y) ->
  string_normalize ints (braced x ++ u "+" ++ braced y) = string_normalize ints (x ++ u "}+{" ++ y).
Proof. exact (crossed_read ints x y). Qed.
Print Assumptions C136_crossed.
Theorem C136_pair_refuted : exists W a b st, a = u "{1},{2}" /\ b = u "1,2" /\
  is_equiv W 3 (Some (u "1")) (Some (u "{1}")) st = (Ret true, st) /\ is_equiv W 3 (Some (u "2")) (Some (u "{2}")) st = (Ret true, st) /\
  is_equiv W 3 (Some b) (Some a) st = (Ret false, st).
Proof. exists (table_world [(u "1", u "1"); (u "2", u "2")]), (u "{1},{2}"), (u "1,2"), tt. repeat split; vm. Qed.
Lemma free_head t : (hd 0 t =? 123) = false -> brace_free t.
Proof. intros H [x ->]. discriminate H. Qed.
Example C136_ex : string_normalize (fun x => x) (u "{x^{2} + 1}") = NStr (u "x^{2}+1").
Proof. refine (eq_trans (C136_braced (fun x => x) (u "x^{2} + 1") ltac:(vm) ltac:(split; exact I) ltac:(apply free_head; vm)) _). vm. Qed.
Example C136_accepted_ex : is_equiv (table_world []) 3 (Some (u "{3/4}")) (Some (u "3/4")) tt = (Ret true, tt).
Proof. exact (proj1 (C136_accepted (table_world []) 2 (u "3/4") tt ltac:(vm) ltac:(split; exact I) ltac:(apply free_head; vm))). Qed.
Example C136_verdict_ex : is_equiv (table_world [(u "3/4", u "0.75"); (u "0.75", u "0.75")]) 3 (Some (u "{3/4}")) (Some (u "0.75")) tt = (Ret true, tt).
Proof.
  refine (eq_trans (C136_verdict (table_world [(u "3/4", u "0.75"); (u "0.75", u "0.75")]) 2 (u "3/4") (u "0.75") tt ltac:(vm) ltac:(split; exact I) ltac:(apply free_head; vm)
    ltac:(rewrite <- padding_iff; vm_compute; discriminate) ltac:(rewrite <- padding_iff; vm_compute; discriminate)) _). vm.
Qed.
Example C136_crossed_ex : string_normalize (fun x => x) (u "{x-1}+{y}") = NStr (u "x-1}+{y").
Proof.
  refine (eq_trans (C136_crossed (fun x => x) (u "x-1") (u "y") ltac:(vm) ltac:(vm) ltac:(split; exact I) ltac:(split; exact I) ltac:(discriminate) ltac:(discriminate) ltac:(apply free_head; vm)) _). vm.
Qed.
