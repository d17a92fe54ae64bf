(** Properties C74-C81: the lexer and the grammar of LaTeX (/repo/latex2sympy/PS.g4). *)
From Coq Require Import String List NArith ZArith QArith Qcanon Bool Lia.
From Verif Require Import PyStr Regex RegexTheory Normalize Monad L2S L2SValue DemoL2S
  Lexer LexTheory Grammar GrammarTheory GrammarFindings Arith ArithLex ArithPrep ArithParse.
Import ListNotations.
Local Close Scope Qc_scope. Local Close Scope Q_scope. Local Open Scope N_scope.
Local Ltac vm := vm_compute; reflexivity.

(** ** C74 *)
Theorem C74_cut s ts : lex s = Some ts -> cut s ts.
Proof. exact (lex_cut s ts). Qed.
Print Assumptions C74_cut.
Theorem C74_unique s k w k' w' : longest s k w -> longest s k' w' -> k = k' /\ w = w'.
Proof. exact (longest_unique s k w k' w'). Qed.
Print Assumptions C74_unique.
Theorem C74_stuck s : lex s = None ->
  exists a b, s = a ++ b /\ b <> [] /\ forall k r w rest, In (k, r) rules -> b = w ++ rest -> spells r w -> w = [].
Proof. exact (lex_stuck s). Qed.
Print Assumptions C74_stuck.
Example C74_ex : lex (u "2 \$ \sinh x\leq") =
  Some [Tok K_DIGIT (u "2") []; Tok K_FUNC_SINH (u "\sinh") (u " \$ "); Tok K_LETTER_NO_E (u "x") (u " "); Tok K_LTE (u "\leq") []].
Proof. vm. Qed.
Example C74_ex2 : lex (u "2\sinc") = Some [Tok K_DIGIT (u "2") []; Tok K_FUNC_SIN (u "\sin") []; Tok K_LETTER_NO_E (u "c") []].
Proof. vm. Qed.
Example C74_ex3 : lex (u "x\foo") = None.
Proof. vm. Qed.

(** ** C75 *)
Theorem C75_braces ts t : parse ts = Found t -> opens ts = closes ts /\ (forall a b, ts = a ++ b -> (closes a <= opens a)%nat).
Proof. exact (parse_braces ts t). Qed.
Print Assumptions C75_braces.
Theorem C75_answer ts : parse ts = Unknown -> Exists (fun t => kind t = K_UNDERSCORE \/ kind t = K_MATRIX_XRIGHTARROW) ts.
Proof. exact (parse_unknown ts). Qed.
Print Assumptions C75_answer.
Definition tokens_of (s : pystr) : list token := match lex s with Some ts => ts | None => [] end.
Example C75_ex : exists t, parse (tokens_of (u "\frac{x_{1}^{2}}{{y}}+\sqrt{z}")) = Found t /\ opens (tokens_of (u "\frac{x_{1}^{2}}{{y}}+\sqrt{z}")) = 6%nat.
Proof. eexists. split; vm. Qed.
Example C75_ex2 : parse (tokens_of (u "\frac{x}{y")) = NoParse /\ parse (tokens_of (u "x}{")) = NoParse.
Proof. split; vm. Qed.
(* an indexed function with a list as index is outside the model *)
Example C75_ex3 : parse (tokens_of (u "\log_{a,b}x")) = Unknown.
Proof. vm. Qed.

(** ** C76 *)
Theorem C76_reading A (K : arithmetic A) V (den : V -> A) rho values hash e : wf e ->
  exists t, parse_text (latex e) = Found (MRel (RExpr t)) /\ Reads K V den rho values hash t (value K rho e).
Proof. exact (parse_latex K V den rho values hash e). Qed.
Print Assumptions C76_reading.
(* without the spaces *)
Theorem C76_spaceless A (K : arithmetic A) V (den : V -> A) rho values hash e : wf e ->
  exists t, parse_text (tight e) = Found (MRel (RExpr t)) /\ Reads K V den rho values hash t (value K rho e).
Proof. exact (parse_body [] K V den rho values hash e (or_introl eq_refl)). Qed.
Print Assumptions C76_spaceless.
Definition num (s : string) : arith := Num (u s).
Definition sym (s : string) : arith := Sym (u s).
Definition e76 : arith := Bin Minus (Bin Minus (sym "x") (Bin Slash (Bin Cdot (num "2") (Pow (sym "\alpha") (Bin Plus (sym "n") (num "1")))) (Scale (u "3") (sym "y"))))
  (Neg (Pow (Fact (Bin Plus (sym "n") (Dec (u "0") (u "5")))) (num "2"))).
Example C76_ex : wf e76 /\ latex e76 = u "x-2\cdot \alpha^{n+1}/3y--((n+0.5)!)^{2}".
Proof. split; [|vm]. cbn; repeat split; try (unfold symbols, letters, greeks; cbn; tauto); repeat constructor; discriminate. Qed.
Definition e76' : arith := Frac (Sqrt (Root (num "3") (Binom (sym "n") (num "2")))) (Bin Times (Fn (u "arcsin") (Abs (Neg (sym "t")))) (Floor (Exp (Ceil (Bin Modulo Pi (Pct (u "50"))))))).
Example C76_ex2 : wf e76' /\ latex e76' = u "\frac{\sqrt{\sqrt[3]{\binom{n}{2}}}}{\arcsin(\left|-t\right|)\times \lfloor e^{\lceil \pi\mod 50\%\rceil}\rfloor}".
Proof. split; [|vm]. cbn; repeat split; try (unfold symbols, letters, greeks; cbn; tauto); repeat constructor; discriminate. Qed.
(* products without a sign, and parentheses that need not be there; a name is not applied, and letters do not run together to a word *)
Definition e76'' : arith := Bin Plus (Juxt (num "2") (Juxt Pi (Juxt (Pow (sym "r") (num "2")) (Sqrt (num "3"))))) (Juxt (Group (Bin Minus (sym "x") (num "1"))) (Juxt (sym "x") (Group (Bin Plus (sym "x") (num "1"))))).
Example C76_ex3 : wf e76'' /\ latex e76'' = u "2 \pi r^{2} \sqrt{3}+(x-1) (x) (x+1)" /\ tight e76'' = u "2\pir^{2}\sqrt{3}+(x-1)(x)(x+1)" /\
  value QcArith (fun _ => Q2Qc 0) (Juxt (num "2") (Juxt (Group (num "3")) (num "5"))) = Q2Qc 30 /\ latex (Juxt (sym "t") (sym "r")) = u "(t) r".
Proof.
  split; [cbn; repeat split; try (unfold symbols, letters, greeks; cbn; tauto); repeat constructor; discriminate|]. split; [vm|]. split; [vm|]. split; [apply Qc_is_canon; vm|vm].
Qed.

(** ** C77 *)
Theorem C77_prepare e : wf e -> prepare (latex e) = latex e.
Proof. exact (prepare_latex [32] (or_intror eq_refl) e). Qed.
Print Assumptions C77_prepare.
Theorem C77_value A (K : arithmetic A) V (O : LSympy V) den rho vs n e st :
  faithful K V den rho vs (o_md5 _ O) O -> (forall s t, parse_text s = Found t -> o_parse _ O s = Ret t) -> wf e -> g_var st = [] ->
  exists v, fst (latex2sympy O (S n) (latex e) vs st) = Ret (LV v) /\ worth V den O v (value K rho e).
Proof. exact (latex2sympy_arith K V O den rho vs n e st). Qed.
Print Assumptions C77_value.
(* a backend that meets the hypotheses *)
Definition the_parser (s : pystr) : res mtree := match parse_text s with Found t => Ret t | _ => Raise ValueError end.
Definition OG := ESympy the_parser.
Example C77_met rho : faithful QcArith ex (DemoL2S.den rho) rho [] (o_md5 _ OG) OG /\ (forall s t, parse_text s = Found t -> o_parse _ OG s = Ret t).
Proof. split; [apply ESympy_faithful; intros x v []|]. intros s t H. cbn. unfold the_parser. rewrite H. reflexivity. Qed.
Definition e77 : arith := Bin Minus (Bin Minus (num "10") (num "4")) (Bin Cdot (num "3") (Neg (Frac (num "1") (Bin Plus (num "1") (num "5"))))).
Example C77_ex : wf e77 /\ latex e77 = u "10-4-3\cdot -\frac{1}{1+5}" /\ value QcArith (fun _ => Q2Qc 0) e77 = Q2Qc (13 # 2) /\
  exists v, fst (latex2sympy OG 3 (latex e77) [] fresh) = Ret (LV v) /\ DemoL2S.den (fun _ => Q2Qc 0) v = Q2Qc (13 # 2).
Proof.
  split; [cbn; repeat split; repeat constructor; discriminate|]. split; [vm|]. split; [apply Qc_is_canon; vm|].
  eexists. split; [vm|]. apply Qc_is_canon. vm.
Qed.

(** ** C78: a letter after the letter d is swallowed *)
Theorem C78_d_and_letter x : In x alphabet_letters ->
  parse_text (100 :: [x]) = Found (MRel (RExpr (TJuxt [TDiff (100 :: [x])]))).
Proof. exact (d_and_letter x). Qed.
Print Assumptions C78_d_and_letter.
Theorem C78_dot_swallowed : exists a b, parse_text (a ++ u "\cdot " ++ b) = Found (MRel (RExpr (TTimes (one_letter a) (one_letter b)))) /\
  parse_text (b ++ u "\cdot " ++ a) = Found (MRel (RExpr (TJuxt [TDiff (u "d\cdot"); TSymbol (NLetter a) None None]))).
Proof. exact dot_swallowed. Qed.
Print Assumptions C78_dot_swallowed.
Example C78_ex : In 120 alphabet_letters /\ fst (latex2sympy OG 3 (u "c\cdot d") [] fresh) = Ret (LV (EMul [ES (u "c"); ES (u "d")])) /\
  fst (latex2sympy OG 3 (u "d\cdot c") [] fresh) = Ret (LV (EMul [ES (u "dcdot"); ES (u "c")])).
Proof. split; [cbn; tauto|]. split; vm. Qed.

(** ** C79: one capital letter is no expression *)
Theorem C79_letters x : In x alphabet_letters -> (exists t, parse_text [x] = Found t) <-> x <> 69.
Proof. exact (single_letters x). Qed.
Print Assumptions C79_letters.
Example C79_ex : In 69 alphabet_letters /\ parse_text (u "E") = NoParse /\ fst (latex2sympy OG 3 (u "E") [] fresh) = Raise ValueError.
Proof. split; [cbn; tauto|]. split; vm. Qed.

(** ** C80: application or product *)
Theorem C80_symbol_in_parens x y : In x letters -> In y letters ->
  parse_text ([x] ++ u "(" ++ [y] ++ u ")") = Found (MRel (RExpr (TJuxt [TApply [x] None [y]]))).
Proof. exact (symbol_in_parens x y). Qed.
Print Assumptions C80_symbol_in_parens.
Theorem C80_sum_in_parens x y : In x letters -> In y letters ->
  parse_text ([x] ++ u "(" ++ [y] ++ u "+0)") =
  Found (MRel (RExpr (TJuxt [TSymbol (NLetter [x]) None None; TGroup (TAdd (one_letter [y]) (TJuxt [TNumber (u "0")]))]))).
Proof. exact (sum_in_parens x y). Qed.
Print Assumptions C80_sum_in_parens.
Example C80_ex : In 120 letters /\ fst (latex2sympy OG 3 (u "x(y)") [] fresh) <> fst (latex2sympy OG 3 (u "x(y+0)") [] fresh) /\
  fst (latex2sympy OG 3 (u "x(y)") [] fresh) = Ret (LV (EF (u "x") [ES (u "y")])).
Proof. split; [cbn; tauto|]. split; [|vm]. vm_compute. discriminate. Qed.

(** ** C81: a function without parentheses takes the product that follows, but not the sum *)
Theorem C81_function_takes_product f x y : In f functions -> In x letters -> In y letters ->
  parse_text (u "\" ++ f ++ u " " ++ [x] ++ u "\cdot " ++ [y]) = Found (MRel (RExpr (TJuxt [TFunc f [] None None (TTimes (one_letter [x]) (one_letter [y]))]))) /\
  parse_text (u "\" ++ f ++ u "(" ++ [x] ++ u ")\cdot " ++ [y]) = Found (MRel (RExpr (TTimes (TJuxt [TFunc f [] None None (one_letter [x])]) (one_letter [y])))).
Proof. exact (function_takes_product f x y). Qed.
Print Assumptions C81_function_takes_product.
Theorem C81_function_leaves_sum f x y : In f functions -> In x letters -> In y letters ->
  parse_text (u "\" ++ f ++ u " " ++ [x] ++ u "+" ++ [y]) = Found (MRel (RExpr (TAdd (TJuxt [TFunc f [] None None (one_letter [x])]) (one_letter [y])))).
Proof. exact (function_leaves_sum f x y). Qed.
Print Assumptions C81_function_leaves_sum.
Example C81_ex : In (u "sin") functions /\
  fst (latex2sympy OG 3 (u "\sin x\cdot y") [] fresh) = Ret (LV (EF (u "sin") [EMul [ES (u "x"); ES (u "y")]])) /\
  fst (latex2sympy OG 3 (u "\sin(x)\cdot y") [] fresh) = Ret (LV (EMul [EF (u "sin") [ES (u "x")]; ES (u "y")])).
Proof. split; [unfold functions; cbn; tauto|]. split; vm. Qed.
