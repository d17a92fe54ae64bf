(** Property C116: accented and subscripted symbols (/repo/latex2sympy/PS.g4:529-534, latex2sympy2.py:591-665). *)
From Coq Require Import String List NArith ZArith QArith Qcanon Bool Lia.
From Verif Require Import PyStr Regex RegexTheory Normalize Monad L2S L2SValue L2SFindings DemoL2S Lexer LexTheory Vocabulary VocabTheory
  Grammar GrammarFindings Arith ArithLex Symbols Props_Grammar.
Import ListNotations.
Local Close Scope Qc_scope. Local Close Scope Q_scope.
Local Open Scope N_scope.
Local Ltac vm := vm_compute; reflexivity.
Local Notation rules O := (forall s t, parse_text s = Found t -> o_parse _ O s = Ret t).

(** ** C116: the symbol an accented or subscripted letter is read as *)
Theorem C116_symbol gap V (O : LSympy V) n vs y (st : globals V) : gap = [] \/ gap = [32] -> rules O -> symbol_wf y -> g_var st = [] ->
  fst (latex2sympy O (Datatypes.S n) (symbol_latex gap y) vs st) = Ret (LV (o_symbol _ O (symbol_name y) (g_real st))).
Proof. exact (latex2sympy_symbol gap V O n vs y st). Qed.
Print Assumptions C116_symbol.
(* only synonymous accents, spaces, and braces around a subscript are not told apart *)
Theorem C116_apart y z : symbol_wf y -> symbol_wf z -> symbol_name y = symbol_name z <-> same_symbol y z.
Proof. exact (symbol_names_apart y z). Qed.
Print Assumptions C116_apart.
(* no accent of the grammar is missing, except one the preparation of the text may take away *)
Theorem C116_complete k w : In (k, w) vocabulary -> In k accents -> w = u "\mathrm" \/ In w (map fst suffixes ++ kept).
Proof. exact (accents_complete k w). Qed.
Print Assumptions C116_complete.
Definition y116 : symbol := Accented (u "\overrightarrow") (Bin Cdot (Sym (u "a")) (Sym (u "b"))).
Definition z116 : symbol := Scripted (u "\alpha") (Braced (Bin Plus (Sym (u "n")) (num "1"))).
Example C116_ex : symbol_wf y116 /\ symbol_wf z116 /\ symbol_latex [32] y116 = u "\overrightarrow{a\cdot b}" /\ symbol_latex [32] z116 = u "\alpha_{n+1}" /\
  fst (latex2sympy OG 3 (u "\overrightarrow{a\cdot b}") [] fresh) = Ret (LV (ES (u "a\cdotbvec"))) /\
  fst (latex2sympy OG 3 (u "\alpha_{n+1}") [] fresh) = Ret (LV (ES (u "alpha_{n+1}"))) /\
  (* digits without braces are all taken *)
  fst (latex2sympy OG 3 (u "x_12") [] fresh) = Ret (LV (ES (u "x_{12}"))) /\ fst (latex2sympy OG 3 (u "x_1") [] fresh) = fst (latex2sympy OG 3 (u "x_{1}") [] fresh).
Proof.
  split; [|split; [|repeat split; vm]].
  - split; [cbn; tauto|]. cbn; repeat split; tauto.
  - split; [cbn; tauto|]. cbn; repeat split; try tauto; try (repeat constructor; discriminate); discriminate.
Qed.
