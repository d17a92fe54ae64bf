(** Property C132: spacing commands and braced commas (/repo/math_evaluation/core/latex_normalize.py:271-277). *)
From Coq Require Import String List NArith ZArith Bool Lia.
From Verif Require Import PyStr PyStrTheory Regex Normalize NormTheory NormDollar NormIn NormThin Monad Eval Grammar Demo.
Import ListNotations.
Local Open Scope N_scope.
Local Ltac vm := vm_compute; reflexivity.

(** ** C132 *)
Theorem C132_spacing ints l : Forall glyph_ok l -> string_normalize ints (typeset l) = string_normalize ints (bare l).
Proof. exact (spacing_dropped ints l). Qed.
Print Assumptions C132_spacing.
Theorem C132_accepted W n l l' st : Forall glyph_ok l -> Forall glyph_ok l' -> bare l = bare l' ->
  is_equiv W (S n) (Some (typeset l)) (Some (typeset l')) st = (Ret true, st).
Proof. exact (spacing_accepted W n l l' st). Qed.
Print Assumptions C132_accepted.
(** Finding: the control space and \quad are not among them; the backslash stays in the normal form, and the item is no LaTeX for latex2sympy *)
Theorem C132_other_spaces_refuted : exists sp sp', sp <> sp' /\ forall x, In x [(sp, u "\2"); (sp', u "\quad2")] ->
  string_normalize (fun y => y) (u "(1," ++ fst x ++ u "2)") = NStr (u "(1," ++ snd x ++ u ")") /\ parse_text (snd x) = NoParse /\ (exists t, parse_text (u "2") = Found t) /\
  string_normalize (fun y => y) (u "(1,\;2)") = NStr (u "(1,2)").
Proof.
  exists (u "\ "), (u "\quad "). split; [discriminate|]. intros x [<-|[<-|[]]]; (split; [vm|]); (split; [vm|]); (split; [eexists; vm|vm]).
Qed.
Print Assumptions C132_other_spaces_refuted.
Definition l132 : list glyph := [Gl 49; Comma; Thin 33; Gl 50; Gl 51; Gl 52; Thin 59; Gl 43; Thin 44; Gl 120].
Example C132_ex ints : typeset l132 = u "1{,}\!234\;+\,x" /\ bare l132 = u "1,234+x" /\
  string_normalize ints (u "1{,}\!234\;+\,x") = string_normalize ints (u "1,234+x").
Proof. split; [vm|]. split; [vm|]. apply (C132_spacing ints l132). repeat constructor; vm_compute; tauto. Qed.
Example C132_accepted_ex : is_equiv (table_world []) 3 (Some (u "1{,}\!234\;+\,x")) (Some (u "1,234\:+x")) tt = (Ret true, tt).
Proof. apply (C132_accepted (table_world []) 2 l132 [Gl 49; Gl 44; Gl 50; Gl 51; Gl 52; Thin 58; Gl 43; Gl 120]); [repeat constructor; vm_compute; tauto|repeat constructor; vm_compute; tauto|vm]. Qed.
