(** Property C126: formulas between dollar signs (/repo/math_evaluation/core/latex_normalize.py:240-381). *)
From Coq Require Import String List NArith ZArith QArith Bool Lia.
From Verif Require Import PyStr PyStrTheory Regex Float64 Normalize NormTheory NormUnits NormDollar Monad Eval Demo.
Import ListNotations.
Local Open Scope N_scope.
Local Ltac vm := vm_compute; reflexivity.

(** ** C126 *)
Theorem C126_dollars ints s : forallb formula_cp s = true -> string_normalize ints (between_dollars s) = string_normalize ints s.
Proof. exact (dollars_dropped ints s). Qed.
Print Assumptions C126_dollars.
Theorem C126_percent ints s p : p = u "%" \/ p = u "\%" -> forallb numeral_cp s = true ->
  string_normalize ints (between_dollars (s ++ p)) = string_normalize ints s.
Proof. exact (percent_lost ints s p). Qed.
Print Assumptions C126_percent.
(** Finding: outside dollar signs the same percentage has two readings, and the answer 0.5 is accepted *)
Theorem C126_percent_refuted : exists s, between_dollars s <> s /\
  fst (is_equiv (table_world [(u "0.5", u "0.5")]) 3 (Some (u "0.5")) (Some s) tt) = Ret true /\
  fst (is_equiv (table_world [(u "0.5", u "0.5")]) 3 (Some (u "0.5")) (Some (between_dollars s)) tt) = Ret false.
Proof. exists (u "50\%"). split; [discriminate|]. split; vm. Qed.
Print Assumptions C126_percent_refuted.
Example C126_ex ints : between_dollars (u "(x+1)/2=y") = u "$(x+1)/2=y$" /\
  string_normalize ints (u "$(x+1)/2=y$") = string_normalize ints (u "(x+1)/2=y").
Proof. split; [vm|]. apply (C126_dollars ints (u "(x+1)/2=y")). vm. Qed.
Example C126_percent_ex : string_normalize (fun s => s) (u "$12.5\%$") = NStr (u "12.5") /\
  string_normalize (fun s => s) (u "12.5\%") = NSet [u "0.125"; u "12.5"].
Proof. split; [|vm]. etransitivity; [apply (C126_percent (fun s => s) (u "12.5") (u "\%")); [right; reflexivity|vm]|vm]. Qed.
