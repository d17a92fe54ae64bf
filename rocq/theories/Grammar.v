(** The parser of /repo/latex2sympy/PS.g4, producing the trees of L2S.v.

    ANTLR's ALL-star prediction takes at every decision the first alternative that can still lead to a
    parse of the input.  So, if the whole input can be parsed, the tree is the first one
    in the order of a backtracking parser that tries alternatives from left to right, enters optional
    parts and loops before it skips them, and is satisfied only by a parse that consumes all tokens.
    The model is this parser.  Left-recursive rules are loops, as ANTLR rewrites them.

    [Found t]: the input has a complete parse and t is ANTLR's tree.
    [NoParse]: there is none.  The grammar has no EOF (line 351), so ANTLR then
    either reports a syntax error or parses a prefix; the model does not say which.
    [Unknown]: a tree that L2S.v does not represent, namely elementary transformations (lines 355-360, 366),
    and several comma-separated subscripts on functions and integrals. *)
From Coq Require Import String List NArith Bool Lia.
From Verif Require Import PyStr Regex Normalize Monad L2S Lexer.
Import ListNotations.
Local Open Scope N_scope.

Inductive outcome := Found (t : mtree) | NoParse | Unknown.
Definition K A := A -> list token -> outcome.
Definition P A := list token -> K A -> outcome.
Definition pret {A} (a : A) : P A := fun ts k => k a ts.
Definition pfail {A} : P A := fun _ _ => NoParse.
Definition punk {A} : P A := fun _ _ => Unknown.
Definition pbind {A B} (p : P A) (f : A -> P B) : P B := fun ts k => p ts (fun a ts' => f a ts' k).
Definition palt {A} (p q : P A) : P A := fun ts k => match p ts k with NoParse => q ts k | r => r end.
Declare Scope par_scope.
Delimit Scope par_scope with par.
Notation "x <~ p ;; q" := (pbind p (fun x => q)) (at level 61, p at next level, right associativity) : par_scope.
Notation "p <|> q" := (palt p q) (at level 62, right associativity) : par_scope.
Local Open Scope par_scope.
Definition pmap {A B} (f : A -> B) (p : P A) : P B := x <~ p ;; pret (f x).
Definition popt {A} (p : P A) : P (option A) := pmap Some p <|> pret None.
Definition mem (k : N) (l : list N) : bool := existsb (N.eqb k) l.
(** One token of one of the given kinds *)
Definition pone (ks : list N) : P token := fun ts k =>
  match ts with t :: ts' => if mem (kind t) ks then k t ts' else NoParse | [] => NoParse end.
Definition ptok (k : N) : P token := pone [k].
Fixpoint ptoks (ks : list N) : P unit :=
  match ks with [] => pret tt | k :: ks' => _ <~ ptok k ;; ptoks ks' end.
(** [p*], greedy; every iteration takes at least one token *)
Fixpoint pmany_n {A} (n : nat) (p : P A) : P (list A) :=
  match n with
  | O => pret []
  | S n' => (a <~ p ;; l <~ pmany_n n' p ;; pret (a :: l)) <|> pret []
  end.
Definition pmany {A} (p : P A) : P (list A) := fun ts => pmany_n (List.length ts) p ts.
Definition pplus {A} (p : P A) : P (list A) := a <~ p ;; l <~ pmany p ;; pret (a :: l).
Fixpoint palts {A} (l : list (P A)) : P A :=
  match l with [] => pfail | [p] => p | p :: l' => p <|> palts l' end.
(** The tokens that a rule consumed *)
Definition pspan {A} (p : P A) : P (A * list token) := fun ts k =>
  p ts (fun a r => k (a, firstn (List.length ts - List.length r) ts) r).
(** ANTLR's [ctx.getText()]: without the skipped text *)
Definition get_text (l : list token) : pystr := flat_map text l.
(** [rule2text] (latex2sympy2.py:737-744): the source text *)
Definition source_text (l : list token) : pystr :=
  match l with [] => [] | t :: l' => text t ++ flat_map (fun t => lead t ++ text t) l' end.
Definition ptext {A} (p : P A) : P pystr := pmap (fun r => get_text (snd r)) (pspan p).

(** Lines 172-176, 190 *)
Definition pdigit : P token := ptok K_DIGIT.
Definition p_number_toks : P unit :=
  (_ <~ pplus pdigit ;; _ <~ pmany (_ <~ ptok K_COMMA ;; _ <~ pdigit ;; _ <~ pdigit ;; pdigit) ;;
   _ <~ popt (_ <~ ptok K_PERIOD ;; pplus pdigit) ;; pret tt)
  <|> (_ <~ ptok K_PERIOD ;; _ <~ pplus pdigit ;; pret tt).
Definition p_number : P tree := pmap TNumber (ptext p_number_toks).
Definition p_e_notation : P tree :=
  pmap TNumber (ptext (_ <~ p_number_toks ;; _ <~ ptok K_E_NOTATION_E ;; _ <~ popt (pone [K_SUB; K_ADD]) ;; pplus pdigit)).
Definition p_percent : P tree := pmap TPercent (ptext (_ <~ p_number_toks ;; ptok K_PERCENT_SIGN)).

(** The bracket pairs of lines 468-525 *)
Definition around (open close : list N) (p : P tree) : P tree :=
  _ <~ ptoks open ;; t <~ p ;; _ <~ ptoks close ;; pret t.
Definition brackets (wrap : tree -> tree) (pairs : list (list N * list N)) (p : P tree) : P tree :=
  palts (map (fun oc => pmap wrap (around (fst oc) (snd oc) p)) pairs).
(** each pair also with left/right and with mleft/mright *)
Definition sized (pairs : list (N * N)) : list (list N * list N) :=
  map (fun oc => ([fst oc], [snd oc])) pairs
  ++ map (fun oc => ([K_L_LEFT; fst oc], [K_R_RIGHT; snd oc])) pairs
  ++ map (fun oc => ([K_ML_LEFT; fst oc], [K_MR_RIGHT; snd oc])) pairs.
Definition group_pairs : list (list N * list N) :=
  sized [(K_L_PAREN, K_R_PAREN); (K_L_GROUP, K_R_GROUP); (K_L_BRACE, K_R_BRACE);
         (K_L_BRACE_VISUAL, K_R_BRACE_VISUAL); (K_L_BRACE_CMD, K_R_BRACE_CMD);
         (K_L_BRACKET, K_R_BRACKET); (K_L_BRACK, K_R_BRACK)].
Definition norm_pairs := sized [(K_NORM, K_NORM)].
Definition abs_pairs := sized [(K_BAR, K_BAR); (K_L_VERT, K_R_VERT); (K_VERT, K_VERT)].
Definition floor_pairs := sized [(K_L_FLOOR, K_R_FLOOR); (K_LL_CORNER, K_LR_CORNER)].
Definition ceil_pairs := sized [(K_L_CEIL, K_R_CEIL); (K_UL_CORNER, K_UR_CORNER)].

(** Lines 308-349; CMD_MATHIT is one of the literals *)
Definition accents : list N :=
  [T_acute; T_bar; T_overline; T_breve; T_check; T_widecheck; T_dot; T_ddot; T_grave; T_hat; T_tilde; T_widetilde;
   T_vec; T_overrightarrow; T_bm; T_boldsymbol; T_text; T_textit; T_mathbb; T_mathbin; T_mathbf; T_mathcal; T_mathclap;
   T_mathclose; T_mathellipsis; T_mathfrak; T_mathinner; K_CMD_MATHIT; T_mathnormal; T_mathop; T_mathopen; T_mathord;
   T_mathpunct; T_mathrel; T_mathring; T_mathrlap; T_mathrm; T_mathscr; T_mathsf; T_mathsterling; T_mathtt].
(** Line 353 *)
Definition transposes : list N := [T_caretT; T_caretBT; T_caretTop; T_caretBTop; T_prime].
(** Lines 558-581 *)
Definition single_funcs : list N :=
  [K_FUNC_LOG; K_FUNC_LN; K_FUNC_EXP; K_FUNC_SIN; K_FUNC_COS; K_FUNC_TAN; K_FUNC_CSC; K_FUNC_SEC; K_FUNC_COT;
   K_FUNC_ARCSIN; K_FUNC_ARCCOS; K_FUNC_ARCTAN; K_FUNC_ARCCSC; K_FUNC_ARCSEC; K_FUNC_ARCCOT;
   K_FUNC_SINH; K_FUNC_COSH; K_FUNC_TANH; K_FUNC_ARSINH; K_FUNC_ARCOSH; K_FUNC_ARTANH;
   K_FUNC_ARCSINH; K_FUNC_ARCCOSH; K_FUNC_ARCTANH; K_FUNC_FLOOR; K_FUNC_CEIL; K_FUNC_DET].
Definition multi_funcs : list N := [K_FUNC_GCD; K_FUNC_LCM; K_FUNC_MAX; K_FUNC_MIN].
Definition single_names : list N :=
  [K_FUNC_ARSINH_NAME; K_FUNC_ARCOSH_NAME; K_FUNC_ARTANH_NAME; K_FUNC_ARCSINH_NAME; K_FUNC_ARCCOSH_NAME;
   K_FUNC_ARCTANH_NAME; K_FUNC_FLOOR_NAME; K_FUNC_CEIL_NAME; K_FUNC_EYE_NAME; K_FUNC_RANK_NAME; K_FUNC_TRACE_NAME;
   K_FUNC_RREF_NAME; K_FUNC_NULLSPACE_NAME; K_FUNC_DIAGONALIZE_NAME; K_FUNC_NORM_NAME; K_FUNC_EIGENVALS_NAME;
   K_FUNC_EIGENVECTORS_NAME; K_FUNC_SVD_NAME; K_FUNC_COLS_NAME; K_FUNC_ROWS_NAME].
Definition multi_names : list N :=
  [K_FUNC_GCD_NAME; K_FUNC_LCM_NAME; K_FUNC_ZEROS_NAME; K_FUNC_ORTHOGONALIZE_NAME; K_FUNC_ONES_NAME; K_FUNC_DIAG_NAME;
   K_FUNC_HSTACK_NAME; K_FUNC_VSTACK_NAME].
Definition mul_ops : list N := [K_MUL; K_CMD_TIMES; K_CMD_CDOT; K_DIV; K_CMD_DIV; K_COLON; K_CMD_MOD].
Definition rel_ops : list N := [K_IN; K_ASSIGNMENT; K_EQUAL; K_LT; K_LTE; K_GT; K_GTE; K_UNEQUAL].
(** latex2sympy2.py:404, 412, 419 *)
Definition mul_node (op : N) (a b : tree) : tree :=
  if mem op [K_MUL; K_CMD_TIMES; K_CMD_CDOT] then TTimes a b
  else if mem op [K_DIV; K_CMD_DIV; K_COLON] then TDivide a b else TMod a b.
Definition add_node (op : N) (a b : tree) : tree := if op =? K_ADD then TAdd a b else TSub a b.
(** latex2sympy2.py:144-197 *)
Definition rel_node (op : N) (a b : rtree) : rtree :=
  if op =? K_IN then RIn a b
  else RRel (if op =? K_ASSIGNMENT then RAssign else if op =? K_EQUAL then REq else if op =? K_LT then RLt
             else if op =? K_LTE then RLe else if op =? K_GT then RGt else if op =? K_GTE then RGe else RNe) a b.

(** What [convert_frac] sees of the two parts (latex2sympy2.py:749-775) *)
Definition is_partial (t : token) : bool := (kind t =? K_SYMBOL) && str_eqb (text t) (u "\partial").
Definition lower_info (l : list token) : dlower :=
  match l with
  | [t] => if kind t =? K_DIFFERENTIAL then DDiff (text t) else DNone
  | [t; v] => if is_partial t then
                if kind v =? K_LETTER_NO_E then DPartial (text v)
                else if kind v =? K_SYMBOL then DPartial (skipn 1 (text v)) else DNone
              else DNone
  | _ => DNone
  end.
Definition upper_info (l : list token) : dupper :=
  match l with
  | [t] => if (kind t =? K_LETTER_NO_E) && str_eqb (text t) (u "d") then UOperator false
           else if is_partial t then UOperator true
           else UText (str_eqb (text t) (u "\partial")) (source_text l)
  | t :: _ => UText (str_eqb (text t) (u "\partial")) (source_text l)
  | [] => UText false []
  end.

(** The recursive rules, one level of the call stack at a time.  Every recursive call comes after
    at least one token. *)
Record rules_at := { r_expr : P tree; r_mp : P tree; r_mp_nofunc : P tree; r_atom : P tree }.
Section Level.
Variable rec : rules_at.
Notation expr := (r_expr rec).
Notation braced := (fun p => _ <~ ptok K_L_BRACE ;; x <~ p ;; _ <~ ptok K_R_BRACE ;; pret x).

(** [expr (',' expr)*] without a tree: line 621 [args], line 635 [func_multi_arg] *)
Definition commas : P unit := _ <~ expr ;; _ <~ pmany (_ <~ ptok K_COMMA ;; expr) ;; pret tt.
(** Line 638; the text inside (latex2sympy2.py:625-631), and the tree unless it is a list *)
Definition subexpr : P (pystr * option tree) :=
  _ <~ ptok K_UNDERSCORE ;;
  (pmap (fun r => (get_text (snd r), Some (fst r))) (pspan (r_atom rec))
   <|> (_ <~ ptok K_L_BRACE ;;
        r <~ (pmap (fun r => (get_text (snd r), Some (fst r))) (pspan expr)
              <|> pmap (fun s => (s, None)) (ptext commas)) ;;
        _ <~ ptok K_R_BRACE ;; pret r)).
(** Line 639 *)
Definition supexpr : P tree := _ <~ ptok K_CARET ;; (r_atom rec <|> braced expr).

(** Lines 529-531 *)
Definition accent : P sname :=
  a <~ pone accents ;; b <~ braced (ptext expr) ;; pret (NAccent (text a) b).
Definition name_part : P sname :=
  pmap (fun t => NLetter (text t)) (ptok K_LETTER_NO_E)
  <|> pmap (fun t => NGreek (text t)) (ptok K_GREEK_CMD)
  <|> pmap (fun t => NOther (text t)) (ptok K_OTHER_SYMBOL_CMD)
  <|> accent.
(** Line 534 *)
Definition atom_expr : P tree :=
  n <~ name_part ;;
  ((p <~ supexpr ;; s <~ subexpr ;; pret (TSymbol n (Some (fst s)) (Some p)))
   <|> (s <~ subexpr ;; p <~ supexpr ;; pret (TSymbol n (Some (fst s)) (Some p)))
   <|> (s <~ subexpr ;; pret (TSymbol n (Some (fst s)) None))
   <|> (p <~ supexpr ;; pret (TSymbol n None (Some p)))
   <|> pret (TSymbol n None None)).
(** Lines 549-550 *)
Definition frac : P tree :=
  let part : P (tree * option (list token)) :=
    pmap (fun t => (TNumber (text t), None)) pdigit
    <|> pmap (fun r => (fst r, Some (snd r))) (braced (pspan expr)) in
  _ <~ ptok K_CMD_FRAC ;; a <~ part ;; b <~ part ;;
  pret (match snd a, snd b with
        | Some la, Some lb => TFrac (fst a) (fst b) (upper_info la) (lower_info lb)
        | _, _ => TFracD (fst a) (fst b)
        end).
(** Lines 535-538 *)
Definition mathit : P tree :=
  _ <~ ptok K_CMD_MATHIT ;;
  s <~ braced (pmap source_text (pplus (pone [K_LETTER_NO_E; K_E_NOTATION_E; K_EXP_E]))) ;; pret (TMathit s).
Definition atom : P tree :=
  atom_expr <|> pmap (fun t => TConst (text t)) (ptok K_SYMBOL) <|> p_e_notation <|> p_percent <|> p_number
  <|> pmap (fun t => TDiff (text t)) (ptok K_DIFFERENTIAL) <|> mathit <|> frac
  <|> pmap (fun t => TVariable (text t)) (ptok K_VARIABLE).

(** Lines 554-556 *)
Definition binom : P tree :=
  (_ <~ ptok K_L_BRACE ;; a <~ expr ;; _ <~ ptok K_CMD_CHOOSE ;; b <~ expr ;; _ <~ ptok K_R_BRACE ;; pret (TBinom a b))
  <|> (_ <~ ptok K_CMD_BINOM ;; a <~ braced expr ;; b <~ braced expr ;; pret (TBinom a b)).

(** Lines 362-374 *)
Definition row : P (list tree) := a <~ expr ;; l <~ pmany (_ <~ ptok K_MATRIX_DEL_COL ;; expr) ;; pret (a :: l).
Definition rows : P (list (list tree)) :=
  a <~ row ;; l <~ pmany (_ <~ ptok K_MATRIX_DEL_ROW ;; row) ;; _ <~ popt (ptok K_MATRIX_DEL_ROW) ;; pret (a :: l).
Definition matrix : P tree :=
  _ <~ ptok K_CMD_MATRIX_START ;; l <~ rows ;; _ <~ ptok K_CMD_MATRIX_END ;;
  ((_ <~ ptok K_MATRIX_XRIGHTARROW ;; punk) <|> pret (TMatrix l [])).
Definition det : P tree :=
  _ <~ ptok K_CMD_DET_START ;; l <~ rows ;; _ <~ ptok K_CMD_DET_END ;; pret (TDet l).

(** Lines 583-591: name without backslash, and the operator name *)
Definition func_name (funcs names : list N) : P (pystr * pystr) :=
  pmap (fun t => (skipn 1 (text t), [])) (pone funcs)
  <|> (c <~ ptok K_CMD_OPERATORNAME ;; o <~ braced (pone names) ;; pret (skipn 1 (text c), text o)).
(** Lines 595, 599 *)
Definition scripts : P (option (pystr * option tree) * option tree) :=
  (s <~ popt subexpr ;; p <~ popt supexpr ;; pret (s, p))
  <|> (p <~ popt supexpr ;; s <~ popt subexpr ;; pret (s, p)).
(** Lines 596, 600 *)
Definition in_parens {A} (p : P A) : P A :=
  (_ <~ popt (ptok K_L_LEFT) ;; _ <~ ptok K_L_PAREN ;; x <~ p ;; _ <~ popt (ptok K_R_RIGHT) ;; _ <~ ptok K_R_PAREN ;; pret x)
  <|> (_ <~ popt (ptok K_ML_LEFT) ;; _ <~ ptok K_L_PAREN ;; x <~ p ;; _ <~ popt (ptok K_MR_RIGHT) ;; _ <~ ptok K_R_PAREN ;; pret x).
(** The subscript as a tree; unrepresented if it is a list *)
Definition sub_tree (s : option (pystr * option tree)) : P (option tree) :=
  match s with
  | None => pret None
  | Some (_, Some t) => pret (Some t)
  | Some (_, None) => punk
  end.
Definition func_single : P tree :=
  n <~ func_name single_funcs single_names ;; sp <~ scripts ;; s <~ sub_tree (fst sp) ;;
  a <~ (in_parens expr <|> r_mp_nofunc rec) ;;
  pret (TFunc (fst n) (snd n) s (snd sp) a).
Definition func_multi : P tree :=
  n <~ func_name multi_funcs multi_names ;; sp <~ scripts ;;
  a <~ (pmap Some (in_parens (ptext commas)) <|> pmap (fun _ => None) (r_mp_nofunc rec)) ;;
  pret (TFuncs (fst n) (snd n) (snd sp) a).
(** Lines 533, 602-605, 623 *)
Definition func_common_args : P pystr :=
  ptext (r_atom rec) <|> ptext (_ <~ expr ;; ptok K_COMMA) <|> ptext (_ <~ expr ;; _ <~ ptok K_COMMA ;; commas).
Definition apply_args : P pystr :=
  _ <~ popt (ptok K_L_LEFT) ;; _ <~ pone [K_L_PAREN; K_L_BRACKET] ;; s <~ func_common_args ;;
  _ <~ pone [K_R_PAREN; K_R_BRACKET] ;; _ <~ popt (ptok K_R_RIGHT) ;; pret s.
Definition func_apply : P tree :=
  let head := ptext (_ <~ name_part ;; popt subexpr) in
  (f <~ head ;; p <~ popt supexpr ;; s <~ apply_args ;; pret (TApply f p s))
  <|> (f <~ head ;; p <~ popt supexpr ;; s <~ braced apply_args ;; pret (TApply f p s)).
(** Lines 607-609 *)
Definition empty_script (k : N) : P unit := ptoks [k; K_L_BRACE; K_R_BRACE].
Definition int_limits : P (option (tree * tree)) :=
  (s <~ subexpr ;; p <~ supexpr ;; t <~ sub_tree (Some s) ;; pret (match t with Some t => Some (t, p) | None => None end))
  <|> (p <~ supexpr ;; s <~ subexpr ;; t <~ sub_tree (Some s) ;; pret (match t with Some t => Some (t, p) | None => None end))
  <|> (_ <~ empty_script K_UNDERSCORE ;; _ <~ empty_script K_CARET ;; pret None)
  <|> (_ <~ empty_script K_CARET ;; _ <~ empty_script K_UNDERSCORE ;; pret None)
  <|> pret None.
Definition func_int : P tree :=
  _ <~ ptok K_FUNC_INT ;; lims <~ int_limits ;;
  ((b <~ popt expr ;; d <~ ptok K_DIFFERENTIAL ;; pret (TInt (Some (text d)) lims b))
   <|> (b <~ frac ;; pret (TInt None lims (Some b)))
   <|> (b <~ expr ;; pret (TInt None lims (Some b)))).
(** Lines 611-613 *)
Definition func_sqrt : P tree :=
  _ <~ ptok K_FUNC_SQRT ;;
  r <~ popt (_ <~ ptok K_L_BRACKET ;; x <~ expr ;; _ <~ ptok K_R_BRACKET ;; pret x) ;;
  b <~ (pmap (fun t => TNumber (text t)) pdigit <|> braced expr) ;;
  pret (TSqrt b r).
(** Lines 394-395, 615-617, 641 *)
Definition equality : P (tree * tree) := a <~ expr ;; _ <~ pone [K_EQUAL; K_ASSIGNMENT] ;; b <~ expr ;; pret (a, b).
Definition subeq : P (tree * tree) := _ <~ ptok K_UNDERSCORE ;; braced equality.
Definition func_sum : P tree :=
  o <~ pone [K_FUNC_SUM; K_FUNC_PROD] ;;
  lims <~ ((e <~ subeq ;; p <~ supexpr ;; pret (e, p)) <|> (p <~ supexpr ;; e <~ subeq ;; pret (e, p))) ;;
  b <~ r_mp rec ;;
  pret (TSum (kind o =? K_FUNC_PROD) (fst (fst lims)) (snd (fst lims)) (snd lims) b).
(** Lines 618, 625-630 and latex2sympy2.py:1049-1063 *)
Definition func_lim : P tree :=
  _ <~ ptok K_FUNC_LIM ;; _ <~ ptok K_UNDERSCORE ;;
  vad <~ braced (v <~ pone [K_LETTER_NO_E; K_GREEK_CMD; K_OTHER_SYMBOL_CMD] ;; _ <~ ptok K_LIM_APPROACH_SYM ;;
                 a <~ expr ;; d <~ popt (_ <~ ptok K_CARET ;; braced (pone [K_ADD; K_SUB])) ;; pret (v, a, d)) ;;
  b <~ r_mp rec ;;
  let '(v, a, d) := vad in
  pret (TLim (if kind v =? K_LETTER_NO_E then text v
              else if kind v =? K_GREEK_CMD then strip (skipn 1 (text v)) else strip (text v))
             (match d with Some d => kind d =? K_SUB | None => false end) a b).
(** Line 619 *)
Definition func_e : P tree := _ <~ ptok K_EXP_E ;; p <~ popt supexpr ;; pret (TExp p).
(** Lines 593-619 *)
Definition func : P tree :=
  func_single <|> func_multi <|> func_apply <|> func_int <|> func_sqrt <|> func_sum <|> func_lim <|> func_e.

(** Lines 445-466 *)
Definition comp (with_func : bool) : P tree :=
  brackets TGroup group_pairs expr <|> brackets TNorm norm_pairs expr <|> brackets TAbs abs_pairs expr
  <|> brackets TFloor floor_pairs expr <|> brackets TCeil ceil_pairs expr
  <|> (if with_func then func else pfail) <|> atom <|> binom <|> matrix <|> det.
(** Lines 437-443; the converter ignores the last subscript (latex2sympy2.py:541-557) *)
Definition exp_op : P tree :=
  _ <~ ptok K_CARET ;; e <~ (atom <|> braced expr) ;; _ <~ popt subexpr ;; pret e.
Definition exp (with_func : bool) : P tree :=
  c <~ comp with_func ;; l <~ pmany exp_op ;; pret (fold_left TPow l c).
(** Lines 420-435 *)
Definition at_part (k : N) : P (tree * option tree) :=
  _ <~ ptok k ;; braced (pmap (fun t => (t, None)) expr <|> pmap (fun e => (fst e, Some (snd e))) equality).
Definition eval_at : P (tree -> tree) :=
  _ <~ ptok K_BAR ;;
  (pmap (fun p t => TAt t (Some p) None) (at_part K_CARET)
   <|> pmap (fun s t => TAt t None (Some s)) (at_part K_UNDERSCORE)
   <|> (p <~ at_part K_CARET ;; s <~ at_part K_UNDERSCORE ;; pret (fun t => TAt t (Some p) (Some s)))).
Definition postfix_op : P (tree -> tree) :=
  pmap (fun _ => TBang) (ptok K_BANG) <|> eval_at <|> pmap (fun _ => TTranspose) (pone transposes).
Definition postfix (with_func : bool) : P tree :=
  e <~ exp with_func ;; l <~ pmany postfix_op ;; pret (fold_left (fun t f => f t) l e).
(** Lines 412-418: signs, then factors *)
Definition sign_node (t : tree) (op : token) : tree := if kind op =? K_ADD then TPlus t else TMinus t.
Definition unary : P tree :=
  s <~ pmany (pone [K_ADD; K_SUB]) ;; l <~ pplus (postfix true) ;; pret (fold_left sign_node (rev s) (TJuxt l)).
Definition unary_nofunc : P tree :=
  s <~ pmany (pone [K_ADD; K_SUB]) ;; a <~ postfix true ;; l <~ pmany (postfix false) ;;
  pret (fold_left sign_node (rev s) (TJuxt (a :: l))).
(** Lines 397-410 *)
Definition chain (p : P tree) (ops : list N) (node : N -> tree -> tree -> tree) : P tree :=
  a <~ p ;; l <~ pmany (o <~ pone ops ;; b <~ p ;; pret (kind o, b)) ;;
  pret (fold_left (fun t ob => node (fst ob) t (snd ob)) l a).
Definition mp : P tree := chain unary mul_ops mul_node.
Definition mp_nofunc : P tree := chain unary_nofunc mul_ops mul_node.
Definition additive : P tree := chain mp [K_ADD; K_SUB] add_node.
Definition level : rules_at := {| r_expr := additive; r_mp := mp; r_mp_nofunc := mp_nofunc; r_atom := atom |}.
End Level.

Fixpoint rules_upto (n : nat) : rules_at :=
  match n with
  | O => {| r_expr := punk; r_mp := punk; r_mp_nofunc := punk; r_atom := punk |}
  | S n' => level (rules_upto n')
  end.

Section Math.
Variable expr : P tree.
(** Lines 376-378 *)
Definition relation : P rtree :=
  a <~ expr ;; l <~ pmany (o <~ pone rel_ops ;; b <~ expr ;; pret (kind o, b)) ;;
  pret (fold_left (fun t ob => rel_node (fst ob) t (RExpr (snd ob))) l (RExpr a)).
(** Lines 380-392 *)
Definition relations (sep : N) : P (list rtree) :=
  a <~ relation ;; _ <~ ptok sep ;; b <~ relation ;; l <~ pmany (_ <~ ptok sep ;; relation) ;; pret (a :: b :: l).
Definition relation_list_content : P (list rtree) := relations K_COMMA <|> relations K_SEMICOLON.
Definition list_pairs : list (list N * list N) :=
  [([], []); ([K_L_BRACKET], [K_R_BRACKET]); ([K_L_BRACE], [K_R_BRACE]); ([K_L_BRACE_VISUAL], [K_R_BRACE_VISUAL]);
   ([K_L_LEFT; K_L_BRACKET], [K_R_RIGHT; K_R_BRACKET]); ([K_L_LEFT; K_L_BRACE_VISUAL], [K_R_RIGHT; K_R_BRACE_VISUAL]);
   ([K_ML_LEFT; K_L_BRACKET], [K_MR_RIGHT; K_R_BRACKET]); ([K_ML_LEFT; K_L_BRACE_VISUAL], [K_MR_RIGHT; K_R_BRACE_VISUAL])].
Definition relation_list : P (list rtree) :=
  palts (map (fun oc => _ <~ ptoks (fst oc) ;; l <~ relation_list_content ;; _ <~ ptoks (snd oc) ;; pret l) list_pairs).
(** Line 351 *)
Definition math : P mtree := pmap MRel relation <|> pmap MList relation_list.
End Math.

(** All of the input *)
Definition complete : K mtree := fun t rest => match rest with [] => Found t | _ => NoParse end.
Definition parse (ts : list token) : outcome := math (r_expr (rules_upto (S (List.length ts)))) ts complete.
Definition parse_text (s : pystr) : outcome := match lex s with Some ts => parse ts | None => NoParse end.
