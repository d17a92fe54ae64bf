(** Properties C110-C113: the words of the lexer, and functions by their names (/repo/latex2sympy/PS.g4, latex2sympy2.py:806-947). *)
From Coq Require Import String List NArith ZArith QArith Qcanon Bool Lia.
From Verif Require Import PyStr Regex RegexTheory Normalize Monad L2S L2SValue L2SFindings DemoL2S Lexer LexTheory Vocabulary VocabTheory
  Grammar GrammarNames GrammarFindings Arith ArithLex Named NamedMany Props_Grammar.
Import ListNotations.
Local Close Scope Qc_scope. Local Close Scope Q_scope.
Local Open Scope N_scope.
Local Ltac vm := vm_compute; reflexivity.
Local Notation rules O := (forall s t, parse_text s = Found t -> o_parse _ O s = Ret t).

(** ** C110: the first word of a text is a word of the grammar's vocabulary, and the longest one is taken *)
Theorem C110_only s k m : lex_one s = Some (k, m) -> In (k, firstn m s) vocabulary \/ special k (firstn m s).
Proof. exact (lex_one_words s k m). Qed.
Print Assumptions C110_only.
Theorem C110_longest s k w rest : In (k, w) vocabulary -> s = w ++ rest -> w <> u "d" -> (forall x, s <> u "\variable{" ++ x) ->
  (forall k' w' rest', In (k', w') vocabulary -> s = w' ++ rest' -> (List.length w' <= List.length w)%nat) -> lex_one s = Some (k, List.length w).
Proof. exact (lex_one_word s k w rest). Qed.
Print Assumptions C110_longest.
Example C110_ex : In (K_FUNC_SINH, u "\sinh") vocabulary /\ lex_one (u "\sinhx") = Some (K_FUNC_SINH, 5%nat) /\ lex_one (u "\sin hx") = Some (K_FUNC_SIN, 4%nat) /\
  lex_one (u "!==1") = Some (K_UNEQUAL, 3%nat) /\ lex_one (u "floor") = Some (K_FUNC_FLOOR_NAME, 5%nat) /\ lex_one (u "flour") = Some (K_LETTER_NO_E, 1%nat).
Proof. split; [|repeat split; vm]. apply (find_some_in (fun kw => str_eqb (snd kw) (u "\sinh"))). vm. Qed.

(** ** C111: names of functions only stand inside \operatorname{…} *)
Theorem C111_guarded ts t a n b : parse ts = Found t -> ts = a ++ n :: b -> In (kind n) (single_names ++ multi_names) ->
  exists a' o l r b', a = a' ++ [o; l] /\ b = r :: b' /\ kind o = K_CMD_OPERATORNAME /\ kind l = K_L_BRACE /\ kind r = K_R_BRACE.
Proof. exact (names_guarded ts t a n b). Qed.
Print Assumptions C111_guarded.
(* the letters t and r next to each other are such a name; the letters r and t are a product *)
Example C111_ex : parse_text (u "\operatorname{tr}(A)+1") <> NoParse /\ parse_text (u "tr+1") = NoParse /\ parse_text (u "rt+1") <> NoParse /\ parse_text (u "t r+1") <> NoParse.
Proof. repeat split; vm_compute; discriminate. Qed.

(** ** C112: functions of one argument *)
Theorem C112_call gap A (K : arithmetic A) V (O : LSympy V) den rho vs n w f e st : gap = [] \/ gap = [32] ->
  faithful K V den rho vs (o_md5 _ O) O -> rules O -> In (w, f) function_table -> wf e -> g_var st = [] ->
  exists v, worth V den O v (value K rho e) /\
    let got := fst (latex2sympy O (Datatypes.S n) (w ++ u "(" ++ body gap e ++ u ")") vs st) in
    match o_call _ O f [LV v] with
    | Raise x => got = Raise x
    | Ret (LV y) => got = Ret (LV y)
    | Ret (LTD y) => got = Ret (LTD y)
    | Ret _ => exists x, got = Raise x
    end.
Proof. exact (latex2sympy_applied gap K V O den rho vs n w f e st). Qed.
Print Assumptions C112_call.
(* the table is complete *)
Theorem C112_complete k w : In (k, w) vocabulary ->
  (In k single_funcs -> w = u "\log" \/ w = u "\ln" \/ In w (map fst function_table)) /\ (In k single_names -> In (operator w) (map fst function_table)).
Proof. exact (function_table_complete k w). Qed.
Print Assumptions C112_complete.
Definition e112 : arith := Bin Plus (Sym (u "x")) (num "1").
Example C112_ex : wf e112 /\ In (u "\operatorname{arcsinh}", u "asinh") function_table /\
  fst (latex2sympy OG 3 (u "\operatorname{arcsinh}(x+1)") [] fresh) = Ret (LV (EF (u "asinh") [EAdd [ES (u "x"); EQ (Q2Qc 1)]])) /\
  fst (latex2sympy OG 3 (u "\ceil(x+1)") [] fresh) = Ret (LV (EF (u "ceiling") [EAdd [ES (u "x"); EQ (Q2Qc 1)]])).
Proof.
  split; [cbn; repeat split; try tauto; try (repeat constructor; discriminate); discriminate|]. split; [|split; vm].
  apply in_or_app. right. apply in_map_iff. exists (u "arcsinh", u "asinh"). split; [reflexivity|]. cbn; tauto.
Qed.

(** ** C113: functions of several arguments *)
Theorem C113_call A (K : arithmetic A) V (O : LSympy V) den rho vs n w f es st :
  faithful K V den rho vs (o_md5 _ O) O -> rules O -> In (w, f) multi_table -> es <> [] -> Forall simple es -> g_var st = [] ->
  exists ws, Forall2 (fun e v => worth V den O v (value K rho e)) es ws /\
    let got := fst (latex2sympy O (Datatypes.S (Datatypes.S n)) (w ++ u "(" ++ listed es ++ u ")") vs st) in
    match o_call _ O f (map LV ws) with
    | Raise x => got = Raise x
    | Ret (LV y) => got = Ret (LV y)
    | Ret (LTD y) => got = Ret (LTD y)
    | Ret _ => exists x, got = Raise x
    end.
Proof. exact (latex2sympy_many K V O den rho vs n w f es st). Qed.
Print Assumptions C113_call.
Theorem C113_complete k w : In (k, w) vocabulary ->
  (In k multi_funcs -> In w (map fst multi_table)) /\ (In k multi_names -> In (operator w) (map fst multi_table)).
Proof. exact (multi_table_complete k w). Qed.
Print Assumptions C113_complete.
(* the two arguments read as one number with a thousands separator are still two *)
Example C113_ex : Forall simple [num "12"; num "345"] /\ listed [num "12"; num "345"] = u "12,345" /\
  fst (latex2sympy OG 3 (u "\operatorname{lcm}(12,345)") [] fresh) = Ret (LV (EF (u "lcm") [EQ (Q2Qc 12); EQ (Q2Qc 345)])) /\
  parse_text (u "\gcd(12,345)") = Found (MRel (RExpr (TJuxt [TFuncs (u "gcd") [] None (Some (u "12,345"))]))).
Proof. split; [repeat constructor; discriminate|]. repeat split; vm. Qed.
