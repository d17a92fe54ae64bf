(** Property C125: what written evaluation bars are read as (/repo/latex2sympy/PS.g4, latex2sympy2.py). *)
From Coq Require Import String List NArith ZArith QArith Qcanon Bool Lia.
From Verif Require Import PyStr Regex RegexTheory Normalize Monad L2S L2SValue L2SCalc CalcFindings DemoL2S DemoCalc
  Lexer Grammar GrammarFindings Arith ArithLex WrittenAt Props_Grammar Props_Read.
Import ListNotations.
Local Close Scope Qc_scope. Local Close Scope Q_scope.
Local Open Scope N_scope.
Local Ltac vm := vm_compute; reflexivity.
Local Notation rules O := (forall s t, parse_text s = Found t -> o_parse _ O s = Ret t).

(** ** C125 *)
Theorem C125_bars gap A (K : calculus A) V (O : LSympy V) den rho vs n e l st : gap = [] \/ gap = [32] ->
  faithful_calc K V den vs (o_md5 _ O) O -> rules O -> bars_wf e l -> g_var st = [] ->
  exists v, fst (latex2sympy O (Datatypes.S n) (bars_latex gap e l) vs st) = Ret (LV v) /\ worth V (den rho) O v (bars_value K rho e l).
Proof. exact (latex2sympy_bars gap K V O den rho vs n e l st). Qed.
Print Assumptions C125_bars.
(* the bars are applied from the left: x becomes y+1, then every y becomes 3 *)
Definition e125 : arith := Bin Plus (Sym (u "x")) (Bin Cdot (num "10") (Sym (u "y"))).
Definition l125 : list (pystr * arith) := [(u "x", Bin Plus (Sym (u "y")) (num "1")); (u "y", num "3")].
Example C125_ex : bars_wf e125 l125 /\ bars_latex [32] e125 l125 = u "(x+10\cdot y)|^{x=y+1}|^{y=3}" /\
  bars_value QcCalc (fun _ => Q2Qc 7) e125 l125 = Q2Qc 34 /\
  exists v, fst (latex2sympy OG 3 (bars_latex [32] e125 l125) [] fresh) = Ret (LV v) /\ den2 (fun _ => Q2Qc 7) v = Q2Qc 34.
Proof.
  split. { split; [cbn; repeat split; try tauto; try (repeat constructor; discriminate); discriminate|]. split; [|discriminate].
    constructor; [split; [vm_compute; tauto|]|constructor; [split; [vm_compute; tauto|]|constructor]];
      cbn; repeat split; try tauto; try (repeat constructor; discriminate); discriminate. }
  split; [vm|]. split; [apply Qc_is_canon; vm|]. eexists. split; [vm|]. apply Qc_is_canon. vm.
Qed.
