(** The lexer of /repo/latex2sympy/PS.g4.

    Token numbers are those of gen/PSLexer.tokens.  ANTLR's rule: the longest match wins, among equal
    lengths the first rule; the 45 literals that only occur in parser rules come first.  [WS] and
    [DOLLAR_SIGN] tokens are skipped (lines 7-8).  The only non-greedy loop (line 160) is followed by
    characters that it cannot match, so it makes no difference. *)
From Coq Require Import String List NArith Bool Lia.
From Verif Require Import PyStr Regex Normalize.
Import ListNotations.
Local Open Scope N_scope.

Definition T_acute := 1. Definition T_bar := 2. Definition T_overline := 3. Definition T_breve := 4.
Definition T_check := 5. Definition T_widecheck := 6. Definition T_dot := 7. Definition T_ddot := 8.
Definition T_grave := 9. Definition T_hat := 10. Definition T_tilde := 11. Definition T_widetilde := 12.
Definition T_vec := 13. Definition T_overrightarrow := 14. Definition T_bm := 15. Definition T_boldsymbol := 16.
Definition T_text := 17. Definition T_textit := 18. Definition T_mathbb := 19. Definition T_mathbin := 20.
Definition T_mathbf := 21. Definition T_mathcal := 22. Definition T_mathclap := 23. Definition T_mathclose := 24.
Definition T_mathellipsis := 25. Definition T_mathfrak := 26. Definition T_mathinner := 27. Definition T_mathnormal := 28.
Definition T_mathop := 29. Definition T_mathopen := 30. Definition T_mathord := 31. Definition T_mathpunct := 32.
Definition T_mathrel := 33. Definition T_mathring := 34. Definition T_mathrlap := 35. Definition T_mathrm := 36.
Definition T_mathscr := 37. Definition T_mathsf := 38. Definition T_mathsterling := 39. Definition T_mathtt := 40.
Definition T_caretT := 41. Definition T_caretBT := 42. Definition T_caretTop := 43. Definition T_caretBTop := 44.
Definition T_prime := 45. Definition K_WS := 46. Definition K_DOLLAR_SIGN := 47. Definition K_ADD := 48.
Definition K_SUB := 49. Definition K_MUL := 50. Definition K_DIV := 51. Definition K_L_PAREN := 52.
Definition K_R_PAREN := 53. Definition K_L_GROUP := 54. Definition K_R_GROUP := 55. Definition K_L_BRACE := 56.
Definition K_R_BRACE := 57. Definition K_L_BRACE_VISUAL := 58. Definition K_R_BRACE_VISUAL := 59. Definition K_L_BRACE_CMD := 60.
Definition K_R_BRACE_CMD := 61. Definition K_L_BRACKET := 62. Definition K_R_BRACKET := 63. Definition K_L_BRACK := 64.
Definition K_R_BRACK := 65. Definition K_BAR := 66. Definition K_L_VERT := 67. Definition K_R_VERT := 68.
Definition K_VERT := 69. Definition K_NORM := 70. Definition K_L_FLOOR := 71. Definition K_R_FLOOR := 72.
Definition K_LL_CORNER := 73. Definition K_LR_CORNER := 74. Definition K_L_CEIL := 75. Definition K_R_CEIL := 76.
Definition K_UL_CORNER := 77. Definition K_UR_CORNER := 78. Definition K_L_LEFT := 79. Definition K_R_RIGHT := 80.
Definition K_ML_LEFT := 81. Definition K_MR_RIGHT := 82. Definition K_FUNC_LIM := 83. Definition K_LIM_APPROACH_SYM := 84.
Definition K_FUNC_INT := 85. Definition K_FUNC_SUM := 86. Definition K_FUNC_PROD := 87. Definition K_FUNC_LOG := 88.
Definition K_FUNC_LN := 89. Definition K_FUNC_EXP := 90. Definition K_FUNC_SIN := 91. Definition K_FUNC_COS := 92.
Definition K_FUNC_TAN := 93. Definition K_FUNC_CSC := 94. Definition K_FUNC_SEC := 95. Definition K_FUNC_COT := 96.
Definition K_FUNC_ARCSIN := 97. Definition K_FUNC_ARCCOS := 98. Definition K_FUNC_ARCTAN := 99. Definition K_FUNC_ARCCSC := 100.
Definition K_FUNC_ARCSEC := 101. Definition K_FUNC_ARCCOT := 102. Definition K_FUNC_SINH := 103. Definition K_FUNC_COSH := 104.
Definition K_FUNC_TANH := 105. Definition K_FUNC_ARSINH := 106. Definition K_FUNC_ARCOSH := 107. Definition K_FUNC_ARTANH := 108.
Definition K_FUNC_ARCSINH := 109. Definition K_FUNC_ARCCOSH := 110. Definition K_FUNC_ARCTANH := 111. Definition K_FUNC_ARSINH_NAME := 112.
Definition K_FUNC_ARCSINH_NAME := 113. Definition K_FUNC_ARCOSH_NAME := 114. Definition K_FUNC_ARCCOSH_NAME := 115. Definition K_FUNC_ARTANH_NAME := 116.
Definition K_FUNC_ARCTANH_NAME := 117. Definition K_FUNC_GCD_NAME := 118. Definition K_FUNC_LCM_NAME := 119. Definition K_FUNC_FLOOR_NAME := 120.
Definition K_FUNC_CEIL_NAME := 121. Definition K_FUNC_SQRT := 122. Definition K_FUNC_GCD := 123. Definition K_FUNC_LCM := 124.
Definition K_FUNC_FLOOR := 125. Definition K_FUNC_CEIL := 126. Definition K_FUNC_MAX := 127. Definition K_FUNC_MIN := 128.
Definition K_FUNC_DET := 129. Definition K_FUNC_EYE_NAME := 130. Definition K_FUNC_ZEROS_NAME := 131. Definition K_FUNC_ONES_NAME := 132.
Definition K_FUNC_COLS_NAME := 133. Definition K_FUNC_ROWS_NAME := 134. Definition K_FUNC_DIAG_NAME := 135. Definition K_FUNC_NORM_NAME := 136.
Definition K_FUNC_RANK_NAME := 137. Definition K_FUNC_TRACE_NAME := 138. Definition K_FUNC_RREF_NAME := 139. Definition K_FUNC_HSTACK_NAME := 140.
Definition K_FUNC_VSTACK_NAME := 141. Definition K_FUNC_ORTHOGONALIZE_NAME := 142. Definition K_FUNC_NULLSPACE_NAME := 143. Definition K_FUNC_DIAGONALIZE_NAME := 144.
Definition K_FUNC_EIGENVALS_NAME := 145. Definition K_FUNC_EIGENVECTORS_NAME := 146. Definition K_FUNC_SVD_NAME := 147. Definition K_CMD_TIMES := 148.
Definition K_CMD_CDOT := 149. Definition K_CMD_DIV := 150. Definition K_CMD_FRAC := 151. Definition K_CMD_BINOM := 152.
Definition K_CMD_CHOOSE := 153. Definition K_CMD_MOD := 154. Definition K_CMD_MATHIT := 155. Definition K_CMD_OPERATORNAME := 156.
Definition K_MATRIX_TYPE_MATRIX := 157. Definition K_MATRIX_TYPE_PMATRIX := 158. Definition K_MATRIX_TYPE_BMATRIX := 159. Definition K_MATRIX_TYPE_DET := 160.
Definition K_MATRIX_TYPES := 161. Definition K_CMD_MATRIX_START := 162. Definition K_CMD_MATRIX_END := 163. Definition K_CMD_DET_START := 164.
Definition K_CMD_DET_END := 165. Definition K_MATRIX_DEL_COL := 166. Definition K_MATRIX_DEL_ROW := 167. Definition K_UNDERSCORE := 168.
Definition K_CARET := 169. Definition K_COLON := 170. Definition K_SEMICOLON := 171. Definition K_COMMA := 172.
Definition K_PERIOD := 173. Definition K_DIFFERENTIAL := 174. Definition K_EXP_E := 175. Definition K_E_NOTATION_E := 176.
Definition K_LETTER_NO_E := 177. Definition K_DIGIT := 178. Definition K_MATRIX_XRIGHTARROW := 179. Definition K_TRANSFORM_EXCHANGE := 180.
Definition K_IN := 181. Definition K_ASSIGNMENT := 182. Definition K_EQUAL := 183. Definition K_LT := 184.
Definition K_LTE := 185. Definition K_GT := 186. Definition K_GTE := 187. Definition K_UNEQUAL := 188.
Definition K_BANG := 189. Definition K_PERCENT_SIGN := 190. Definition K_GREEK_CMD := 191. Definition K_OTHER_SYMBOL_CMD := 192.
Definition K_SYMBOL := 193. Definition K_VARIABLE := 194. 

(** Line 159 *)
Definition ws_char : cls := COr (CLit 32) (COr (CLit 9) (COr (CLit 13) (CLit 10))).
(** Lines 164-167 *)
Definition letter : cls := COr (CRange 97 122) (CRange 65 90).
Definition letter_no_e : cls := COr (CRange 97 100) (COr (CRange 102 122) (COr (CRange 65 68) (CRange 70 90))).
Definition digit_c : cls := CRange 48 57.
Fixpoint ralts (l : list regex) : regex :=
  match l with [] => RChr (CNot CAny) | [r] => r | r :: l' => RAlt r (ralts l') end.
(** Line 160 *)
Definition differential_re : regex :=
  rseq [lit 100; RStar false (RChr ws_char); RAlt (RChr letter) (RSeq (lit 92) (RPlus (RChr letter)));
        ROpt (RSeq (lit 95) (RAlt (RChr digit_c) (rseq [lit 123; RPlus (RChr digit_c); lit 125])))].
(** Lines 193-246 *)
Definition greek_letters : list pystr :=
  [u "\char""000391"; u "\alpha"; u "\char""000392"; u "\beta"; u "\Gamma"; u "\gamma"; u "\Delta"; u "\delta";
   u "\char""000190"; u "\epsilon"; u "\varepsilon"; u "\char""000396"; u "\zeta"; u "\char""000397"; u "\eta"; u "\Theta";
   u "\theta"; u "\vartheta"; u "\char""000399"; u "\iota"; u "\char""00039A"; u "\kappa"; u "\Lambda"; u "\lambda";
   u "\char""00039C"; u "\mu"; u "\char""00039D"; u "\nu"; u "\Xi"; u "\xi"; u "\char""00039F"; u "\omicron";
   u "\Pi"; u "\varpi"; u "\char""0003A1"; u "\rho"; u "\varrho"; u "\Sigma"; u "\sigma"; u "\varsigma";
   u "\char""0003A4"; u "\tau"; u "\Upsilon"; u "\upsilon"; u "\Phi"; u "\phi"; u "\varphi"; u "\char""0003A7";
   u "\chi"; u "\Psi"; u "\psi"; u "\Omega"; u "\omega"].
Definition greek : regex := ralts (map rstr greek_letters).
(** Lines 250-293 *)
Definition other_symbols : list pystr :=
  [u "\Bbbk"; u "\wp"; u "\nabla"; u "\bigstar"; u "\angle"; u "\nexists"; u "\diagdown"; u "\measuredangle";
   u "\eth"; u "\diagup"; u "\sphericalangle"; u "\clubsuit"; u "\varnothing"; u "\Diamond"; u "\complement"; u "\diamondsuit";
   u "\imath"; u "\Finv"; u "\triangledown"; u "\heartsuit"; u "\jmath"; u "\Game"; u "\triangle"; u "\spadesuit";
   u "\ell"; u "\hbar"; u "\vartriangle"; u "\hslash"; u "\blacklozenge"; u "\lozenge"; u "\blacksquare"; u "\mho";
   u "\blacktriangle"; u "\sharp"; u "\prime"; u "\Im"; u "\flat"; u "\square"; u "\backprime"; u "\Re";
   u "\natural"; u "\surd"; u "\circledS"].
Definition other_symbol : regex := ralts (map rstr other_symbols).
(** Lines 303-305 *)
Definition var_part : list regex := [RSeq greek (ROpt (lit 32)); RSeq other_symbol (ROpt (lit 32)); RChr letter; RChr digit_c].
Definition variable_re : regex :=
  rseq [rstr (u "\variable"); lit 123; RPlus (ralts var_part);
        ROpt (RSeq (lit 95) (RAlt (rseq [lit 123; RPlus (ralts (var_part ++ [lit 44])); lit 125]) (ralts var_part)));
        lit 125; ROpt (rstr (u "\%"))].

Inductive lrule := Lits (l : list pystr) | Chars (k : cls) | Pat (r : regex).

(** The rules in order of priority.  Lines of PS.g4: implicit literals 308-353; the others 7-305. *)
Definition rules : list (N * lrule) := [
  (T_acute, Lits [u "\acute"]);
  (T_bar, Lits [u "\bar"]);
  (T_overline, Lits [u "\overline"]);
  (T_breve, Lits [u "\breve"]);
  (T_check, Lits [u "\check"]);
  (T_widecheck, Lits [u "\widecheck"]);
  (T_dot, Lits [u "\dot"]);
  (T_ddot, Lits [u "\ddot"]);
  (T_grave, Lits [u "\grave"]);
  (T_hat, Lits [u "\hat"]);
  (T_tilde, Lits [u "\tilde"]);
  (T_widetilde, Lits [u "\widetilde"]);
  (T_vec, Lits [u "\vec"]);
  (T_overrightarrow, Lits [u "\overrightarrow"]);
  (T_bm, Lits [u "\bm"]);
  (T_boldsymbol, Lits [u "\boldsymbol"]);
  (T_text, Lits [u "\text"]);
  (T_textit, Lits [u "\textit"]);
  (T_mathbb, Lits [u "\mathbb"]);
  (T_mathbin, Lits [u "\mathbin"]);
  (T_mathbf, Lits [u "\mathbf"]);
  (T_mathcal, Lits [u "\mathcal"]);
  (T_mathclap, Lits [u "\mathclap"]);
  (T_mathclose, Lits [u "\mathclose"]);
  (T_mathellipsis, Lits [u "\mathellipsis"]);
  (T_mathfrak, Lits [u "\mathfrak"]);
  (T_mathinner, Lits [u "\mathinner"]);
  (T_mathnormal, Lits [u "\mathnormal"]);
  (T_mathop, Lits [u "\mathop"]);
  (T_mathopen, Lits [u "\mathopen"]);
  (T_mathord, Lits [u "\mathord"]);
  (T_mathpunct, Lits [u "\mathpunct"]);
  (T_mathrel, Lits [u "\mathrel"]);
  (T_mathring, Lits [u "\mathring"]);
  (T_mathrlap, Lits [u "\mathrlap"]);
  (T_mathrm, Lits [u "\mathrm"]);
  (T_mathscr, Lits [u "\mathscr"]);
  (T_mathsf, Lits [u "\mathsf"]);
  (T_mathsterling, Lits [u "\mathsterling"]);
  (T_mathtt, Lits [u "\mathtt"]);
  (T_caretT, Lits [u "^T"]);
  (T_caretBT, Lits [u "^{T}"]);
  (T_caretTop, Lits [u "^\top"]);
  (T_caretBTop, Lits [u "^{\top}"]);
  (T_prime, Lits [u "'"]);
  (K_WS, Pat (RPlus (RChr ws_char)));
  (K_DOLLAR_SIGN, Lits [u "\$"]);
  (K_ADD, Lits [u "+"]);
  (K_SUB, Lits [u "-"]);
  (K_MUL, Lits [u "*"]);
  (K_DIV, Lits [u "/"; u "\over"]);
  (K_L_PAREN, Lits [u "("]);
  (K_R_PAREN, Lits [u ")"]);
  (K_L_GROUP, Lits [u "\lgroup"]);
  (K_R_GROUP, Lits [u "\rgroup"]);
  (K_L_BRACE, Lits [u "{"]);
  (K_R_BRACE, Lits [u "}"]);
  (K_L_BRACE_VISUAL, Lits [u "\{"]);
  (K_R_BRACE_VISUAL, Lits [u "\}"]);
  (K_L_BRACE_CMD, Lits [u "\lbrace"]);
  (K_R_BRACE_CMD, Lits [u "\rbrace"]);
  (K_L_BRACKET, Lits [u "["]);
  (K_R_BRACKET, Lits [u "]"]);
  (K_L_BRACK, Lits [u "\lbrack"]);
  (K_R_BRACK, Lits [u "\rbrack"]);
  (K_BAR, Lits [u "|"]);
  (K_L_VERT, Lits [u "\lvert"]);
  (K_R_VERT, Lits [u "\rvert"]);
  (K_VERT, Lits [u "\vert"]);
  (K_NORM, Lits [u "\|"]);
  (K_L_FLOOR, Lits [u "\lfloor"]);
  (K_R_FLOOR, Lits [u "\rfloor"]);
  (K_LL_CORNER, Lits [u "\llcorner"]);
  (K_LR_CORNER, Lits [u "\lrcorner"]);
  (K_L_CEIL, Lits [u "\lceil"]);
  (K_R_CEIL, Lits [u "\rceil"]);
  (K_UL_CORNER, Lits [u "\ulcorner"]);
  (K_UR_CORNER, Lits [u "\urcorner"]);
  (K_L_LEFT, Lits [u "\left"]);
  (K_R_RIGHT, Lits [u "\right"]);
  (K_ML_LEFT, Lits [u "\mleft"]);
  (K_MR_RIGHT, Lits [u "\mright"]);
  (K_FUNC_LIM, Lits [u "\lim"]);
  (K_LIM_APPROACH_SYM, Lits [u "\to"; u "\rightarrow"; u "\Rightarrow"; u "\longrightarrow"; u "\Longrightarrow"]);
  (K_FUNC_INT, Lits [u "\int"]);
  (K_FUNC_SUM, Lits [u "\sum"]);
  (K_FUNC_PROD, Lits [u "\prod"]);
  (K_FUNC_LOG, Lits [u "\log"]);
  (K_FUNC_LN, Lits [u "\ln"]);
  (K_FUNC_EXP, Lits [u "\exp"]);
  (K_FUNC_SIN, Lits [u "\sin"]);
  (K_FUNC_COS, Lits [u "\cos"]);
  (K_FUNC_TAN, Lits [u "\tan"]);
  (K_FUNC_CSC, Lits [u "\csc"]);
  (K_FUNC_SEC, Lits [u "\sec"]);
  (K_FUNC_COT, Lits [u "\cot"]);
  (K_FUNC_ARCSIN, Lits [u "\arcsin"]);
  (K_FUNC_ARCCOS, Lits [u "\arccos"]);
  (K_FUNC_ARCTAN, Lits [u "\arctan"]);
  (K_FUNC_ARCCSC, Lits [u "\arccsc"]);
  (K_FUNC_ARCSEC, Lits [u "\arcsec"]);
  (K_FUNC_ARCCOT, Lits [u "\arccot"]);
  (K_FUNC_SINH, Lits [u "\sinh"]);
  (K_FUNC_COSH, Lits [u "\cosh"]);
  (K_FUNC_TANH, Lits [u "\tanh"]);
  (K_FUNC_ARSINH, Lits [u "\arsinh"]);
  (K_FUNC_ARCOSH, Lits [u "\arcosh"]);
  (K_FUNC_ARTANH, Lits [u "\artanh"]);
  (K_FUNC_ARCSINH, Lits [u "\arcsinh"]);
  (K_FUNC_ARCCOSH, Lits [u "\arccosh"]);
  (K_FUNC_ARCTANH, Lits [u "\arctanh"]);
  (K_FUNC_ARSINH_NAME, Lits [u "arsinh"]);
  (K_FUNC_ARCSINH_NAME, Lits [u "arcsinh"]);
  (K_FUNC_ARCOSH_NAME, Lits [u "arcosh"]);
  (K_FUNC_ARCCOSH_NAME, Lits [u "arccosh"]);
  (K_FUNC_ARTANH_NAME, Lits [u "artanh"]);
  (K_FUNC_ARCTANH_NAME, Lits [u "arctanh"]);
  (K_FUNC_GCD_NAME, Lits [u "gcd"]);
  (K_FUNC_LCM_NAME, Lits [u "lcm"]);
  (K_FUNC_FLOOR_NAME, Lits [u "floor"]);
  (K_FUNC_CEIL_NAME, Lits [u "ceil"]);
  (K_FUNC_SQRT, Lits [u "\sqrt"]);
  (K_FUNC_GCD, Lits [u "\gcd"]);
  (K_FUNC_LCM, Lits [u "\lcm"]);
  (K_FUNC_FLOOR, Lits [u "\floor"]);
  (K_FUNC_CEIL, Lits [u "\ceil"]);
  (K_FUNC_MAX, Lits [u "\max"]);
  (K_FUNC_MIN, Lits [u "\min"]);
  (K_FUNC_DET, Lits [u "\det"]);
  (K_FUNC_EYE_NAME, Lits [u "eye"]);
  (K_FUNC_ZEROS_NAME, Lits [u "zeros"]);
  (K_FUNC_ONES_NAME, Lits [u "ones"]);
  (K_FUNC_COLS_NAME, Lits [u "cols"]);
  (K_FUNC_ROWS_NAME, Lits [u "rows"]);
  (K_FUNC_DIAG_NAME, Lits [u "diag"]);
  (K_FUNC_NORM_NAME, Lits [u "norm"]);
  (K_FUNC_RANK_NAME, Lits [u "rank"]);
  (K_FUNC_TRACE_NAME, Lits [u "trace"; u "tr"]);
  (K_FUNC_RREF_NAME, Lits [u "rref"]);
  (K_FUNC_HSTACK_NAME, Lits [u "hstack"]);
  (K_FUNC_VSTACK_NAME, Lits [u "vstack"]);
  (K_FUNC_ORTHOGONALIZE_NAME, Lits [u "orth"; u "ortho"; u "orthogonal"; u "orthogonalize"]);
  (K_FUNC_NULLSPACE_NAME, Lits [u "nullspace"]);
  (K_FUNC_DIAGONALIZE_NAME, Lits [u "eig"; u "eigen"; u "diagonalize"]);
  (K_FUNC_EIGENVALS_NAME, Lits [u "eigenvals"; u "eigenvalues"]);
  (K_FUNC_EIGENVECTORS_NAME, Lits [u "eigenvects"; u "eigenvectors"]);
  (K_FUNC_SVD_NAME, Lits [u "svd"; u "SVD"]);
  (K_CMD_TIMES, Lits [u "\times"]);
  (K_CMD_CDOT, Lits [u "\cdot"]);
  (K_CMD_DIV, Lits [u "\div"]);
  (K_CMD_FRAC, Lits [u "\frac"]);
  (K_CMD_BINOM, Lits [u "\binom"; u "\tbinom"; u "\dbinom"]);
  (K_CMD_CHOOSE, Lits [u "\choose"]);
  (K_CMD_MOD, Lits [u "\mod"]);
  (K_CMD_MATHIT, Lits [u "\mathit"]);
  (K_CMD_OPERATORNAME, Lits [u "\operatorname"]);
  (K_MATRIX_TYPE_MATRIX, Lits [u "matrix"]);
  (K_MATRIX_TYPE_PMATRIX, Lits [u "pmatrix"]);
  (K_MATRIX_TYPE_BMATRIX, Lits [u "bmatrix"]);
  (K_MATRIX_TYPE_DET, Lits [u "vmatrix"]);
  (K_MATRIX_TYPES, Lits [u "matrix"; u "pmatrix"; u "bmatrix"]);
  (K_CMD_MATRIX_START, Lits [u "\begin{matrix}"; u "\begin{pmatrix}"; u "\begin{bmatrix}"]);
  (K_CMD_MATRIX_END, Lits [u "\end{matrix}"; u "\end{pmatrix}"; u "\end{bmatrix}"]);
  (K_CMD_DET_START, Lits [u "\begin{vmatrix}"]);
  (K_CMD_DET_END, Lits [u "\end{vmatrix}"]);
  (K_MATRIX_DEL_COL, Lits [u "&"]);
  (K_MATRIX_DEL_ROW, Lits [u "\\"]);
  (K_UNDERSCORE, Lits [u "_"]);
  (K_CARET, Lits [u "^"]);
  (K_COLON, Lits [u ":"]);
  (K_SEMICOLON, Lits [u ";"]);
  (K_COMMA, Lits [u ","]);
  (K_PERIOD, Lits [u "."]);
  (K_DIFFERENTIAL, Pat differential_re);
  (K_EXP_E, Lits [u "e"; u "\exponentialE"]);
  (K_E_NOTATION_E, Lits [u "E"]);
  (K_LETTER_NO_E, Chars letter_no_e);
  (K_DIGIT, Chars (CRange 48 57));
  (K_MATRIX_XRIGHTARROW, Lits [u "\xrightarrow"; u "\xRightarrow"]);
  (K_TRANSFORM_EXCHANGE, Lits [u "<->"; u "<=>"; u "\leftrightarrow"; u "\Leftrightarrow"]);
  (K_IN, Lits [u "\in"]);
  (K_ASSIGNMENT, Lits [u "="]);
  (K_EQUAL, Lits [u "=="; u "\equiv"]);
  (K_LT, Lits [u "<"]);
  (K_LTE, Lits [u "\leq"; u "\le"; u "\leqslant"]);
  (K_GT, Lits [u ">"]);
  (K_GTE, Lits [u "\geq"; u "\ge"; u "\geqslant"]);
  (K_UNEQUAL, Lits [u "!="; u "!=="; u "\ne"; u "\neq"; u "\not\equiv"]);
  (K_BANG, Lits [u "!"]);
  (K_PERCENT_SIGN, Lits [u "\%"]);
  (K_GREEK_CMD, Pat (RSeq greek (ROpt (lit 32))));
  (K_OTHER_SYMBOL_CMD, Pat (RSeq other_symbol (ROpt (lit 32))));
  (K_SYMBOL, Lits [u "\pi"; u "\partial"; u "\infty"; u "\$\infty"; u "\infty\%"; u "\emptyset"]);
  (K_VARIABLE, Pat variable_re)].

(** Length of the longest match of a rule, 0 for none *)
Definition lits_len (l : list pystr) (s : pystr) : nat :=
  fold_left (fun m x => if starts_with x s then Nat.max m (List.length x) else m) l 0%nat.
Definition rule_len (r : lrule) (s : pystr) : nat :=
  match r with
  | Lits l => lits_len l s
  | Chars k => match s with c :: _ => if cls_in k c then 1%nat else 0%nat | [] => 0%nat end
  | Pat r => fold_left (fun m st => Nat.max m (List.length (before st))) (matches r (MSt [] s [])) 0%nat
  end.
(** The token at the beginning of [s]: its kind and length *)
Fixpoint best (l : list (N * lrule)) (s : pystr) (k : N) (m : nat) : N * nat :=
  match l with
  | [] => (k, m)
  | (k', r) :: l' => let n := rule_len r s in if Nat.ltb m n then best l' s k' n else best l' s k m
  end.
Definition lex_one (s : pystr) : option (N * nat) :=
  match best rules s 0 0 with (_, O) => None | (k, n) => Some (k, n) end.

(** Tokens: kind, text, and the skipped text before them *)
Record token := Tok { kind : N; text : pystr; lead : pystr }.
Definition skipped (k : N) : bool := (k =? K_WS) || (k =? K_DOLLAR_SIGN).
Fixpoint lex_go (n : nat) (pre s : pystr) : option (list token) :=
  match n, s with
  | _, [] => Some []
  | O, _ => None
  | S n', _ =>
    match lex_one s with
    | None => None
    | Some (k, m) =>
      let t := firstn m s in let s' := skipn m s in
      if skipped k then lex_go n' (pre ++ t) s'
      else match lex_go n' [] s' with None => None | Some l => Some (Tok k t pre :: l) end
    end
  end.
(** All tokens of a text; [None]: token recognition error, reported by MathErrorListener as an exception *)
Definition lex (s : pystr) : option (list token) := lex_go (List.length s) [] s.
