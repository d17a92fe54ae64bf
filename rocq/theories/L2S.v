(** /repo/latex2sympy/latex2sympy2.py over an arbitrary ANTLR parser and SymPy.

    Parse trees: the chain rules of the grammar PS.g4 (additive: mp; mp: unary; ...) are
    collapsed, so one type holds the trees of all rules, and the tests "which alternative is it" of
    the convert functions become a match.  The _nofunc variants of the rules are the same trees. *)
From Coq Require Import String List NArith ZArith Bool.
From Verif Require Import PyStr Regex Normalize Monad.
Import ListNotations.
Local Open Scope mon_scope.

(** PS.g4 [relation] *)
Inductive lrel := RLt | RLe | RGt | RGe | REq | RAssign | RNe.

(** First part of [atom_expr] (latex2sympy2.py:597-621) *)
Inductive sname :=
| NLetter (s : pystr)            (* LETTER_NO_E *)
| NGreek (s : pystr)             (* GREEK_CMD, text with its backslash *)
| NOther (s : pystr)             (* OTHER_SYMBOL_CMD *)
| NAccent (name base : pystr).   (* accent: command with its backslash, text of the base *)

(** What [convert_frac] asks about the tokens of a fraction (latex2sympy2.py:749-784): whether [lower]
    is one DIFFERENTIAL token (its text), or the two tokens \partial and a letter or symbol (the
    name without backslash); whether [upper] is the single token d or \partial ([UOperator], true for \partial), else whether it starts with
    the token \partial, and its source text. *)
Inductive dlower := DNone | DDiff (text : pystr) | DPartial (name : pystr).
Inductive dupper := UOperator (partial : bool) | UText (starts_partial : bool) (text : pystr).

Inductive tree : Type :=
(* additive *)
| TAdd (a b : tree) | TSub (a b : tree)
(* mp: the operators of lines 404, 412 and 419 *)
| TTimes (a b : tree) | TDivide (a b : tree) | TMod (a b : tree)
(* unary *)
| TPlus (a : tree) | TMinus (a : tree) | TJuxt (l : list tree)
(* postfix, one operator at a time *)
| TBang (a : tree) | TTranspose (a : tree)
| TAt (a : tree) (sup sub : option (tree * option tree))     (* eval_at: an expression or an equality *)
(* exp *)
| TPow (base exponent : tree)
(* comp *)
| TGroup (a : tree) | TNorm (a : tree) | TAbs (a : tree) | TFloor (a : tree) | TCeil (a : tree)
| TBinom (a b : tree)
| TMatrix (rows : list (list tree)) (transforms : list (option tree))   (* elementary transformations in order of execution, see [transform] *)
| TDet (rows : list (list tree))
(* atom *)
| TSymbol (n : sname) (sub : option pystr) (sup : option tree)
| TConst (s : pystr) | TNumber (s : pystr) | TPercent (s : pystr)
| TDiff (s : pystr) | TMathit (s : pystr)
| TFrac (up lo : tree) (du : dupper) (dl : dlower)
| TFracD (up lo : tree)                 (* a fraction with an unbraced digit above or below *)
| TVariable (s : pystr)
(* func *)
| TFunc (name op : pystr) (sub sup : option tree) (arg : tree)
| TFuncs (name op : pystr) (sup : option tree) (args : option pystr)   (* text of the arguments, None without parentheses *)
| TApply (f : pystr) (sup : option tree) (args : pystr)
| TInt (d : option pystr) (lims : option (tree * tree)) (body : option tree)
| TSqrt (base : tree) (root : option tree)
| TSum (prod : bool) (i start stop body : tree)
| TLim (v : pystr) (minus : bool) (at_ body : tree)
| TExp (sup : option tree).

Inductive rtree := RExpr (t : tree) | RRel (op : lrel) (a b : rtree) | RIn (a b : rtree).
(** PS.g4 [math] *)
Inductive mtree := MRel (r : rtree) | MList (l : list rtree).

(** Python values of the converters.  [LV]: SymPy expressions, matrices and EmptySet;
    [LTD]: tuples and dicts; [LL]: lists; [LInt]: Python ints; [LNone]: None. *)
Inductive lv (V : Type) : Type := LV (v : V) | LTD (v : V) | LL (l : list (lv V)) | LInt (z : Z) | LNone.
Arguments LV {V}. Arguments LTD {V}. Arguments LL {V}. Arguments LInt {V}. Arguments LNone {V}.

(** Values the user passes for variables: SymPy objects, other objects whose class says which
    module it is from (with their str), and objects without __module__ such as ints and floats. *)
Inductive pv (V : Type) : Type := PSym (v : V) | PObj (s : pystr) | PPlain.
Arguments PSym {V}. Arguments PObj {V}. Arguments PPlain {V}.

(** The globals of the module (lines 22-29, 747-748).  [None]: not yet assigned. *)
Record globals (V : Type) := {
  g_real : option bool;
  g_frac : pystr;
  g_variances : list (V * V);
  g_var : list (pystr * V);
  g_values : list (pystr * pv V);
  g_diff : option bool;
  g_partial : option bool
}.
Arguments g_real {V}. Arguments g_frac {V}. Arguments g_variances {V}. Arguments g_var {V}.
Arguments g_values {V}. Arguments g_diff {V}. Arguments g_partial {V}.

(** The parser and SymPy.  They are functions of their arguments; they may raise. *)
Record LSympy (V : Type) := {
  o_parse : pystr -> res mtree;                 (* parser.math() on the prepared text *)
  o_int : Z -> V;                               (* sympify of a Python int *)
  o_symbol : pystr -> option bool -> V;         (* Symbol(name, real=..) *)
  o_I : V; o_oo : V; o_pi : V; o_empty : V; o_half : V; o_E : V;
  o_number : pystr -> res V;                    (* Rational(s), else Number(s) *)
  o_percent : V -> res V;                       (* Rational(number, 100) *)
  o_is_Matrix : V -> bool;
  o_is_Add : V -> bool; o_is_MatAdd : V -> bool; o_is_Mul : V -> bool; o_is_MatMul : V -> bool;
  o_args : V -> list V;
  o_number_class : V -> bool;                   (* v.func.is_Number *)
  o_neg : V -> res V;
  o_doit : V -> res V;
  o_Add : list V -> res V; o_Mul : list V -> res V;              (* evaluate=False *)
  o_MatAdd : list V -> res V; o_MatMul : list V -> res V;
  o_Pow : V -> V -> res V;
  o_recip : V -> res V;                         (* 1 / v *)
  o_Derivative : lv V -> V -> res V;
  o_matrix : list (list (lv V)) -> res V;
  o_det_subs : V -> list (V * V) -> res (lv V); (* M.subs(variances).det() *)
  o_call : pystr -> list (lv V) -> res (lv V);  (* a named SymPy function or method *)
  o_apply : pystr -> list (lv V) -> res (lv V);  (* Function(name) applied *)
  o_truthy : lv V -> res bool;
  o_is_minus_one : lv V -> res bool;            (* v == -1 *)
  o_first_symbol : lv V -> res (option V);      (* next(iter(v.atoms(Symbol))), None if empty *)
  o_subs : lv V -> lv V -> lv V -> res (lv V);
  o_transpose : lv V -> res (lv V);
  o_integral_var : lv V -> option bool -> res (option (V * V));  (* lines 1006-1013 *)
  o_md5 : pystr -> pystr;
  o_parse_expr : pystr -> res V;
  o_rel : lrel -> lv V -> lv V -> res (lv V);
  o_pow_exp_args : V -> option (list V);        (* rh.exp.args if rh.is_Pow *)
  o_matrix_symbol : lv V -> V -> V -> res V;
  o_shape : V -> res (V * V);
  o_str : lv V -> pystr;
  o_same : V -> V -> bool;                      (* key equality in a dict *)
  o_latex : lv V -> res pystr;                  (* sympy.latex *)
  o_simplified : lv V -> list (V * V) -> res (lv V)   (* simplify(v.subs(variances).doit().doit()) *)
}.

Section L2S.
Context {V : Type}.
Variable O : LSympy V.
Notation G := (globals V).
Notation val := (lv V).

Definition lift_res {A} (r : res A) : M G A := fun st => (r, st).
Definition gets {A} (f : G -> A) : M G A := fun st => (Ret (f st), st).
Definition set_flags (d p : option bool) : M G unit := fun st =>
  (Ret tt, {| g_real := g_real st; g_frac := g_frac st; g_variances := g_variances st; g_var := g_var st;
              g_values := g_values st; g_diff := d; g_partial := p |}).
Definition set_values (vs : list (pystr * pv V)) : M G unit := fun st =>
  (Ret tt, {| g_real := g_real st; g_frac := g_frac st; g_variances := g_variances st; g_var := g_var st;
              g_values := vs; g_diff := g_diff st; g_partial := g_partial st |}).
Definition set_frac (f : pystr) : M G unit := fun st =>
  (Ret tt, {| g_real := g_real st; g_frac := f; g_variances := g_variances st; g_var := g_var st;
              g_values := g_values st; g_diff := g_diff st; g_partial := g_partial st |}).
Definition add_variance (k v : V) : M G unit := fun st =>
  (Ret tt, {| g_real := g_real st; g_frac := g_frac st; g_variances := (k, v) :: g_variances st; g_var := g_var st;
              g_values := g_values st; g_diff := g_diff st; g_partial := g_partial st |}).
Definition add_var (k : pystr) (v : V) : M G unit := fun st =>
  (Ret tt, {| g_real := g_real st; g_frac := g_frac st; g_variances := g_variances st; g_var := (k, v) :: g_var st;
              g_values := g_values st; g_diff := g_diff st; g_partial := g_partial st |}).
Definition lookup_v (l : list (V * V)) (k : V) : option V :=
  match find (fun p => o_same _ O (fst p) k) l with Some p => Some (snd p) | None => None end.
Definition lookup_s {A} (l : list (pystr * A)) (k : pystr) : option A :=
  match find (fun p => str_eqb (fst p) k) l with Some p => Some (snd p) | None => None end.

(** [v.is_Matrix]: only SymPy objects have the attribute *)
Definition is_matrix (v : val) : M G bool :=
  match v with LV v => ret (o_is_Matrix _ O v) | _ => raise AttributeError end.
(** [lh.is_Matrix or rh.is_Matrix] *)
Definition some_matrix (a b : val) : M G bool := m <- is_matrix a ;; if m then ret true else is_matrix b.
(** An argument of a SymPy constructor (_sympify); lists, tuples and None are refused. *)
Definition sympify (v : val) : M G V :=
  match v with LV v => ret v | LInt z => ret (o_int _ O z) | _ => raise ValueError end.
Fixpoint sympify_all (l : list val) : M G (list V) :=
  match l with [] => ret [] | a :: l' => x <- sympify a ;; xs <- sympify_all l' ;; ret (x :: xs) end.
(** [arg.doit()]: ints have no such method *)
Definition doit (v : val) : M G val :=
  match v with LV v => w <- lift_res (o_doit _ O v) ;; ret (LV w) | _ => raise AttributeError end.
Fixpoint doit_all (l : list val) : M G (list val) :=
  match l with [] => ret [] | a :: l' => x <- doit a ;; xs <- doit_all l' ;; ret (x :: xs) end.
Definition build (f : list V -> res V) (l : list val) : M G val :=
  xs <- sympify_all l ;; v <- lift_res (f xs) ;; ret (LV v).
(** [hasattr(v, 'is_X') and v.is_X] *)
Definition flag (p : V -> bool) (v : val) : bool := match v with LV v => p v | _ => false end.
(** [list(v.args)] if the flag is set, else [[v]] *)
Definition flat (p : V -> bool) (v : val) : list val :=
  match v with LV w => if p w then map LV (o_args _ O w) else [v] | _ => [v] end.

(** latex2sympy2.py:298-311 [add_flat]; without an Add operand the argument lists are the same *)
Definition add_flat (a b : val) : M G val := build (o_Add _ O) (flat (o_is_Add _ O) a ++ flat (o_is_Add _ O) b).
(** latex2sympy2.py:314-327 [mat_add_flat] *)
Definition mat_add_flat (a b : val) : M G val :=
  l <- doit_all (flat (o_is_MatAdd _ O) a ++ flat (o_is_MatAdd _ O) b) ;; build (o_MatAdd _ O) l.
(** latex2sympy2.py:330-343 [mul_flat] *)
Definition mul_flat (a b : val) : M G val := build (o_Mul _ O) (flat (o_is_Mul _ O) a ++ flat (o_is_Mul _ O) b).
(** latex2sympy2.py:346-366 [mat_mul_flat] *)
Definition doit_maybe (v : val) : M G val := match v with LV _ => doit v | _ => ret v end.
Definition mat_mul_flat (a b : val) : M G val :=
  if flag (o_is_MatMul _ O) a || flag (o_is_MatMul _ O) b
  then l <- doit_all (flat (o_is_MatMul _ O) a ++ flat (o_is_MatMul _ O) b) ;; build (o_MatMul _ O) l
  else x <- doit_maybe a ;; y <- doit_maybe b ;; build (o_MatMul _ O) [x; y].

(** latex2sympy2.py:374-377 *)
Definition do_add (a b : val) : M G val :=
  m <- some_matrix a b ;; if m then mat_add_flat a b else add_flat a b.
(** -rh for numbers, else the product with -1 (latex2sympy2.py:387-390, 452-455) *)
Definition negate (v : val) : M G val :=
  match v with
  | LV w => if o_number_class _ O w then x <- lift_res (o_neg _ O w) ;; ret (LV x) else mul_flat (LInt (-1)) v
  | _ => raise AttributeError
  end.
(** latex2sympy2.py:382-391 *)
Definition do_sub (a b : val) : M G val :=
  m <- some_matrix a b ;;
  if m then n <- mat_mul_flat (LInt (-1)) b ;; mat_add_flat a n
  else n <- negate b ;; add_flat a n.
(** latex2sympy2.py:408-411 and 473-476 *)
Definition do_mul (a b : val) : M G val :=
  m <- some_matrix a b ;; if m then mat_mul_flat a b else mul_flat a b.
(** latex2sympy2.py:415-418 and 793-796 *)
Definition do_div (a b : val) : M G val :=
  m <- some_matrix a b ;;
  x <- sympify b ;;
  i <- lift_res (o_Pow _ O x (o_int _ O (-1))) ;;
  y <- sympify a ;;
  v <- lift_res ((if m then o_MatMul _ O else o_Mul _ O) [y; i]) ;; ret (LV v).
(** sympy.Pow(a, b, evaluate=False) *)
Definition pow (a b : val) : M G val :=
  x <- sympify a ;; y <- sympify b ;; v <- lift_res (o_Pow _ O x y) ;; ret (LV v).
Definition call (f : pystr) (l : list val) : M G val := lift_res (o_call _ O f l).
(** latex2sympy2.py:422-425 *)
Definition do_mod (a b : val) : M G val :=
  m <- is_matrix b ;; if m then raise (ExcOther 0) else call (u "Mod") [a; b].
(** latex2sympy2.py:449-455.  [mat_mul_flat] has no parameter evaluate: TypeError *)
Definition do_neg (a : val) : M G val :=
  m <- is_matrix a ;; if m then raise TypeError else negate a.

(** latex2sympy2.py:460-486 [convert_postfix_list], the elements being converted on demand *)
Definition read_flag (f : option bool) : M G bool :=
  match f with Some b => ret b | None => raise (ExcOther 1) end.      (* NameError *)
(** [assert diff_op or partial_op] *)
Definition check_derivative : M G unit :=
  d <- bind (gets g_diff) read_flag ;;
  ok <- (if d then ret true else bind (gets g_partial) read_flag) ;;
  if ok then ret tt else raise AssertionError.
Definition juxtapose {T} (conv : T -> M G val) : list T -> M G val := fix juxtapose l :=
  match l with
  | [] => raise (ExcOther 0)
  | t :: l' =>
    r <- conv t ;;
    match r with
    | LV _ => match l' with [] => ret r | _ => rh <- juxtapose l' ;; do_mul r rh end
    | LTD _ => ret r
    | _ =>
      _ <- check_derivative ;;
      match r with
      | LL (wrt :: _) =>
        match l' with
        | [] => raise (ExcOther 0)
        | _ => e <- juxtapose l' ;;
               w <- sympify wrt ;;
               v <- lift_res (o_Derivative _ O e w) ;; ret (LV v)
        end
      | LL [] => raise IndexError
      | _ => raise TypeError
      end
    end
  end.

(** latex2sympy2.py:595-638: the name of a symbol *)
Definition atom_text (n : sname) : pystr :=
  match n with
  | NLetter s => s
  | NGreek s => strip (skipn 1 s)
  | NOther s => strip s
  | NAccent name base =>
    let n := skipn 1 name in
    if str_eqb n (u "bar") || str_eqb n (u "overline") then base ++ u "bar"
    else if str_eqb n (u "vec") || str_eqb n (u "overrightarrow") then base ++ u "vec"
    else if str_eqb n (u "tilde") || str_eqb n (u "widetilde") then base ++ u "tilde"
    else name ++ u "{" ++ base ++ u "}"
  end.
Definition subscript_text (sub : option pystr) : pystr :=
  match sub with
  | None => []
  | Some s => let s := strip s in if Nat.ltb 1 (List.length s) then u "_{" ++ s ++ u "}" else u "_" ++ s
  end.
Definition is_imaginary (n : sname) : bool := match n with NLetter s => str_eqb s (u "I") | _ => false end.
(** latex2sympy2.py:641-652: the symbol and, if one was declared, the matrix symbol (always truthy, line 664) *)
Definition make_symbol (name : pystr) : M G (V * option V) :=
  real <- gets g_real ;;
  let s := o_symbol _ O name real in
  declared <- gets g_var ;;
  match lookup_s declared name with
  | None => ret (s, None)
  | Some rh =>
    m <- try_bare (sh <- lift_res (o_shape _ O rh) ;;
                   m <- lift_res (o_matrix_symbol _ O (LV (o_symbol _ O name None)) (fst sh) (snd sh)) ;; ret (Some m))
                  (ret None) ;;
    match m with
    | None => ret (s, None)
    | Some m =>
      known <- gets g_variances ;;
      match lookup_v known s with
      | Some v => _ <- add_variance m v ;; ret (s, Some m)
      | None => ret (s, Some m)                                   (* KeyError, passed *)
      end
    end
  end.

(** latex2sympy2.py:665-674 *)
Definition const (s : pystr) : M G val :=
  let s := replace (u "\%") [] (replace (u "\$") [] s) in
  if str_eqb s (u "\infty") then ret (LV (o_oo _ O))
  else if str_eqb s (u "\pi") then ret (LV (o_pi _ O))
  else if str_eqb s (u "\emptyset") then ret (LV (o_empty _ O))
  else raise (ExcOther 0).
(** latex2sympy2.py:675-688 *)
Definition number (s : pystr) : M G V := lift_res (o_number _ O (replace (u ",") [] s)).
(** latex2sympy2.py:1117-1126 [get_differential_var_str] *)
Definition is_blank (c : N) : bool := (N.eqb c 32 || N.eqb c 13 || N.eqb c 10 || N.eqb c 9)%N.
Fixpoint skip_blanks (s : pystr) : option pystr :=
  match s with [] => None | c :: s' => if is_blank c then skip_blanks s' else Some s end.
Definition differential_var (text : pystr) : M G pystr :=
  match skip_blanks (skipn 1 text) with
  | None => raise (ExcOther 2)                                    (* UnboundLocalError *)
  | Some (92%N :: s) => ret s
  | Some s => ret s
  end.
(** latex2sympy2.py:697-724: a \variable *)
Definition variable (text : pystr) : M G val :=
  let percent := ends_with (u "\%") text in
  let name := skipn 10 text in
  let name := firstn (List.length name - (if percent then 3 else 1)) name in
  values <- gets g_values ;;
  real <- gets g_real ;;
  v <- (match lookup_s values name with
        | Some (PSym v) => ret v
        | Some (PObj s) => lift_res (o_parse_expr _ O s)
        | Some PPlain => raise AttributeError
        | None => ret (o_symbol _ O (name ++ o_md5 _ O name) real)
        end) ;;
  if percent then
    i <- lift_res (o_Pow _ O (o_int _ O 100) (o_int _ O (-1))) ;;
    w <- lift_res (o_Mul _ O [v; i]) ;; ret (LV w)
  else ret (LV v).

(** Derivative fractions, latex2sympy2.py:747-783.  [Some v]: the fraction is the derivative v
    (or the operator [wrt]); [None]: an ordinary fraction. *)
Definition derivative (l2s : pystr -> list (pystr * pv V) -> M G val) (du : dupper) (dl : dlower) : M G (option val) :=
  _ <- set_flags (Some false) (Some false) ;;
  let go (wrt : pystr) (partial : bool) : M G (option val) :=
    _ <- set_flags (Some (negb partial)) (Some partial) ;;
    real <- gets g_real ;;
    let w := o_symbol _ O wrt real in
    match du with
    | UOperator p => if Bool.eqb p partial then ret (Some (LL [LV w])) else ret None   (* lines 778-783 do not apply *)
    | UText starts_partial text =>
      top <- (if negb partial && starts_with (u "d") text then l2s (skipn 1 text) []
              else if partial && starts_partial then l2s (skipn (List.length (u "\partial")) text) []
              else ret LNone) ;;
      b <- (match top with LNone => ret false | _ => lift_res (o_truthy _ O top) end) ;;
      if b then v <- lift_res (o_Derivative _ O top w) ;; ret (Some (LV v)) else ret None
    end in
  match dl with
  | DNone => ret None
  | DDiff text => wrt <- differential_var text ;; go wrt false
  | DPartial name => go name true
  end.

Definition one_of (s : pystr) (l : list pystr) : bool := existsb (str_eqb s) l.
Definition trig : list pystr := map u ["sin"; "cos"; "tan"; "csc"; "sec"; "cot"; "sinh"; "cosh"; "tanh"]%string.
Definition arc3 : list pystr := map u ["arcsin"; "arccos"; "arctan"; "arccsc"; "arcsec"; "arccot"; "arcsinh"; "arccosh"; "arctanh"]%string.
Definition ar2 : list pystr := map u ["arsinh"; "arcosh"; "artanh"]%string.
Definition arch3 : list pystr := map u ["arcsinh"; "arccosh"; "arctanh"]%string.
(** latex2sympy2.py:836-861: functions and methods of the argument, by what is called; rows and cols
    are the lists of them, rref the matrix without the pivots *)
Definition op_calls : list (pystr * pystr) := map (fun p => (u (fst p), u (snd p)))
  [("floor", "floor"); ("ceil", "ceiling"); ("eye", "eye"); ("rank", "rank"); ("trace", "trace"); ("tr", "trace"); ("rref", "rref");
   ("nullspace", "nullspace"); ("norm", "norm"); ("cols", "cols"); ("rows", "rows"); ("eig", "diagonalize"); ("eigen", "diagonalize");
   ("diagonalize", "diagonalize"); ("eigenvals", "eigenvals"); ("eigenvalues", "eigenvals"); ("eigenvects", "eigenvects");
   ("eigenvectors", "eigenvects"); ("svd", "singular_value_decomposition"); ("SVD", "singular_value_decomposition")]%string.
Definition pick (x : pystr) (l : list (pystr * pystr)) : option pystr :=
  match find (fun p => str_eqb x (fst p)) l with Some p => Some (snd p) | None => None end.
(** latex2sympy2.py:815-880: the function itself; None for the trigonometric functions of line 890 *)
Definition apply_func (name op : pystr) (base : option val) (arg : val) : M G (option val) :=
  let some f l := v <- call f l ;; ret (Some v) in
  if one_of name arc3 then some (u "a" ++ skipn 3 name) [arg]
  else if one_of name ar2 then some (u "a" ++ skipn 2 name) [arg]
  else if str_eqb name (u "operatorname") then
    if one_of op ar2 then some (u "a" ++ skipn 2 op) [arg]
    else if one_of op arch3 then some (u "a" ++ skipn 3 op) [arg]
    else match pick op op_calls with Some f => some f [arg] | None => ret None end
  else if one_of name (map u ["log"; "ln"]%string) then
    let b := match base with Some b => b | None => if str_eqb name (u "log") then LInt 10 else LV (o_E _ O) end in
    some (u "log") [arg; b]
  else if one_of name (map u ["exp"; "exponentialE"]%string) then some (u "exp") [arg]
  else if one_of name (map u ["floor"; "det"]%string) then some name [arg]
  else if str_eqb name (u "ceil") then some (u "ceiling") [arg]
  else ret None.
(** latex2sympy2.py:882-899: the power of a function *)
Definition func_power (name : pystr) (f : option val) (arg : val) (p : option val) : M G val :=
  inv <- (match p with
          | Some p => if one_of name trig then lift_res (o_is_minus_one _ O p) else ret false
          | None => ret false
          end) ;;
  f <- (if one_of name trig then v <- call (if inv then u "a" ++ name else name) [arg] ;; ret (Some v) else ret f) ;;
  t <- (match p with Some p => lift_res (o_truthy _ O p) | None => ret false end) ;;
  match f with
  | None => raise (ExcOther 2)                                    (* UnboundLocalError *)
  | Some e => match p with
              | Some p => if t && negb inv then pow e p else ret e
              | None => ret e
              end
  end.
(** latex2sympy2.py:908-934; GramSchmidt of one argument takes the columns of it *)
Definition op_multi_calls : list (pystr * pystr) := map (fun p => (u (fst p), u (snd p)))
  [("gcd", "gcd"); ("lcm", "lcm"); ("zeros", "zeros"); ("ones", "ones"); ("diag", "diag"); ("hstack", "hstack"); ("vstack", "vstack");
   ("orth", "GramSchmidt"); ("ortho", "GramSchmidt"); ("orthogonal", "GramSchmidt"); ("orthogonalize", "GramSchmidt")]%string.
Definition multi_calls : list (pystr * pystr) := map (fun p => (u (fst p), u (snd p)))
  [("gcd", "gcd"); ("lcm", "lcm"); ("max", "Max"); ("min", "Min")]%string.
Definition apply_funcs (name op : pystr) (args : list val) : M G val :=
  match (if str_eqb name (u "operatorname") then pick op op_multi_calls else pick name multi_calls) with
  | Some f => call f args
  | None => raise (ExcOther 2)                                    (* UnboundLocalError *)
  end.
Fixpoint map_l2s (l2s : pystr -> M G val) (l : list pystr) : M G (list val) :=
  match l with [] => ret [] | t :: l' => v <- l2s t ;; vs <- map_l2s l2s l' ;; ret (v :: vs) end.
(** latex2sympy2.py:953-954 *)
Definition drop_last_empty (l : list pystr) : list pystr :=
  match List.last l [1%N] with [] => removelast l | _ => l end.

(** latex2sympy2.py:489-501 [do_subs] once the trees are converted *)
Definition subst (e : val) (a : val) (b : option val) : M G val :=
  match b with
  | None => s <- lift_res (o_first_symbol _ O a) ;;
            match s with None => ret e | Some s => lift_res (o_subs _ O e (LV s) a) end
  | Some b => lift_res (o_subs _ O e a b)
  end.

(** latex2sympy2.py:205-264 [convert_elementary_transform]: every branch calls
    [transform_atom.NUMBER()], which the generated parser does not define (gen/PSParser.py:1249-1275).
    An assignment whose scale is an expression or a group converts it first (lines 244-252): [Some t]. *)
Definition transform (conv : tree -> M G val) (t : option tree) (m : V) : M G V :=
  match t with
  | Some t => _ <- conv t ;; raise AttributeError
  | None => raise AttributeError
  end.
Definition map_conv {T} (conv : T -> M G val) : list T -> M G (list val) := fix go l :=
  match l with [] => ret [] | t :: l' => v <- conv t ;; vs <- go l' ;; ret (v :: vs) end.
Definition opt_conv {T} (conv : T -> M G val) (o : option T) : M G (option val) :=
  match o with None => ret None | Some t => v <- conv t ;; ret (Some v) end.
Definition map_rows {T} (conv : T -> M G val) : list (list T) -> M G (list (list val)) := fix go l :=
  match l with [] => ret [] | r :: l' => v <- map_conv conv r ;; vs <- go l' ;; ret (v :: vs) end.
Definition transforms (conv : tree -> M G val) : list (option tree) -> V -> M G V := fix go l m :=
  match l with [] => ret m | t :: l' => m <- transform conv t m ;; go l' m end.
(** latex2sympy2.py:490-501: [(a, None)] is an expression, [(a, Some b)] an equality *)
Definition at_side {T} (conv : T -> M G val) (e : val) (p : T * option T) : M G val :=
  a <- conv (fst p) ;; b <- opt_conv conv (snd p) ;; subst e a b.
Definition is_list (v : val) : bool := match v with LL _ => true | _ => false end.

(** The convert functions, latex2sympy2.py:200-295 and 369-1110, for one parse tree.
    [l2s]: nested calls of [latex2sympy]. *)
Section Conv.
Variable l2s : pystr -> list (pystr * pv V) -> M G val.
(** [latex2sympy(arg, VARIABLE_VALUES)], lines 907 and 955 *)
Definition l2s_here (t : pystr) : M G val := values <- gets g_values ;; l2s t values.

Fixpoint conv (t : tree) {struct t} : M G val :=
  match t with
  | TAdd a b => x <- conv a ;; y <- conv b ;; do_add x y                   (* 370-377 *)
  | TSub a b => x <- conv a ;; y <- conv b ;; do_sub x y                   (* 378-391 *)
  | TTimes a b => x <- conv a ;; y <- conv b ;; do_mul x y                 (* 404-411 *)
  | TDivide a b => x <- conv a ;; y <- conv b ;; do_div x y                (* 412-418 *)
  | TMod a b => x <- conv a ;; y <- conv b ;; do_mod x y                   (* 419-425 *)
  | TPlus a => conv a                                                      (* 445-446 *)
  | TMinus a => x <- conv a ;; do_neg x                                    (* 447-455 *)
  | TJuxt l => juxtapose conv l                                            (* 456-486 *)
  | TBang a => x <- conv a ;;                                              (* 512-515 *)
               if is_list x then raise (ExcOther 0) else call (u "factorial") [x]
  | TTranspose a => x <- conv a ;; try_bare (lift_res (o_transpose _ O x)) (ret x)   (* 530-538 *)
  | TAt a sup sub =>                                                       (* 516-529 *)
    x <- conv a ;;
    b <- opt_conv (at_side conv x) sup ;;
    a <- opt_conv (at_side conv x) sub ;;
    match b, a with
    | Some b, Some a => m <- mul_flat a (LInt (-1)) ;; add_flat b m
    | Some b, None => ret b
    | None, Some a => ret a
    | None, None => ret x
    end
  | TPow b e =>                                                            (* 549-557 *)
    x <- conv b ;;
    if is_list x then raise (ExcOther 0) else
    y <- conv e ;; pow x y
  | TGroup a => conv a                                                     (* 566-575 *)
  | TNorm a => x <- conv a ;; call (u "norm") [x]
  | TAbs a => x <- conv a ;; call (u "Abs") [x]
  | TFloor a => x <- conv a ;; call (u "floor") [x]
  | TCeil a => x <- conv a ;; call (u "ceiling") [x]
  | TBinom a b => x <- conv a ;; y <- conv b ;; call (u "binomial") [x; y]  (* 799-802 *)
  | TMatrix rows ts =>                                                     (* 267-295 *)
    rs <- map_rows conv rows ;;
    m <- lift_res (o_matrix _ O rs) ;;
    m <- transforms conv ts m ;; ret (LV m)
  | TDet rows =>                                                           (* 584-586 *)
    rs <- map_rows conv rows ;;
    m <- lift_res (o_matrix _ O rs) ;;
    known <- gets g_variances ;; lift_res (o_det_subs _ O m known)
  | TSymbol n sub sup =>                                                   (* 592-664 *)
    if is_imaginary n then ret (LV (o_I _ O)) else
    p <- make_symbol (atom_text n ++ subscript_text sub) ;;
    match sup with
    | Some e => y <- conv e ;; pow (LV (fst p)) y
    | None => ret (LV (match snd p with Some m => m | None => fst p end))
    end
  | TConst s => const s
  | TNumber s => v <- number s ;; ret (LV v)
  | TPercent s => v <- number (replace (u "\%") [] s) ;; w <- lift_res (o_percent _ O v) ;; ret (LV w)   (* 726-733 *)
  | TDiff s => v <- differential_var s ;; real <- gets g_real ;; ret (LV (o_symbol _ O (u "d" ++ v) real))
  | TMathit s => real <- gets g_real ;; ret (LV (o_symbol _ O s real))
  | TFrac up lo du dl =>
    d <- derivative l2s du dl ;;
    match d with
    | Some v => ret v
    | None => x <- conv up ;; y <- conv lo ;; do_div x y
    end
  | TFracD up lo =>
    _ <- set_flags (Some false) (Some false) ;;
    x <- conv up ;; y <- conv lo ;; do_div x y
  | TVariable s => variable s
  | TFunc name op sub sup arg =>                                           (* 806-899 *)
    x <- conv arg ;;
    base <- (if one_of name (map u ["log"; "ln"]%string) then opt_conv conv sub else ret None) ;;
    f <- apply_func name op base x ;;
    p <- opt_conv conv sup ;;
    func_power name f x p
  | TFuncs name op sup args =>                                             (* 901-947 *)
    match args with
    | None => raise AttributeError
    | Some text =>
      vs <- map_l2s l2s_here (split_on (u ",") text) ;;
      e <- apply_funcs name op vs ;;
      p <- opt_conv conv sup ;;
      match p with
      | None => ret e
      | Some p => t <- lift_res (o_truthy _ O p) ;; if t then pow e p else ret e
      end
    end
  | TApply f sup args =>                                                   (* 948-964 *)
    vs <- map_l2s l2s_here (drop_last_empty (split_on (u ",") args)) ;;
    p <- opt_conv conv sup ;;
    e <- lift_res (o_apply _ O f vs) ;;
    match p with None => ret e | Some p => pow e p end
  | TInt d lims body =>                                                    (* 994-1031 *)
    i <- (match body with Some b => conv b | None => ret (LInt 1) end) ;;
    real <- gets g_real ;;
    iv <- (match d with
           | Some text => v <- differential_var text ;; ret (i, o_symbol _ O v real)
           | None => r <- lift_res (o_integral_var _ O i real) ;;
                     match r with
                     | Some (v, s) => i <- lift_res (o_subs _ O i (LV s) (LInt 1)) ;; ret (i, v)
                     | None => ret (i, o_symbol _ O (u "x") real)
                     end
           end) ;;
    match lims with
    | Some (lo, hi) => x <- conv lo ;; y <- conv hi ;; call (u "Integral") [fst iv; LV (snd iv); x; y]
    | None => call (u "Integral") [fst iv; LV (snd iv)]
    end
  | TSqrt b root =>                                                        (* 967-976; an unbraced digit is a TNumber *)
    x <- conv b ;;
    match root with
    | Some r => y <- conv r ;; y <- sympify y ;; i <- lift_res (o_recip _ O y) ;; pow x (LV i)
    | None => pow x (LV (o_half _ O))
    end
  | TSum prod i start stop body =>                                         (* 1034-1046 *)
    x <- conv body ;; v <- conv i ;; a <- conv start ;; b <- conv stop ;;
    call (if prod then u "Product" else u "Sum") [x; v; a; b]
  | TLim v minus at_ body =>                                               (* 1049-1066 *)
    real <- gets g_real ;;
    a <- conv at_ ;; x <- conv body ;;
    call (if minus then u "Limit-" else u "Limit+") [x; LV (o_symbol _ O v real); a]
  | TExp sup =>                                                            (* 1069-1077 *)
    p <- opt_conv conv sup ;;
    call (u "exp") [match p with Some p => p | None => LInt 1 end]
  end.

(** lines 191-192 *)
Definition declare (k rh : V) : M G unit := _ <- add_variance k rh ;; add_var (o_str _ O (LV k)) rh.
(** latex2sympy2.py:144-197 [convert_relation] *)
Fixpoint conv_rel (r : rtree) : M G val :=
  match r with
  | RExpr t => conv t
  | RRel op a b => x <- conv_rel a ;; y <- conv_rel b ;; lift_res (o_rel _ O op x y)
  | RIn a b =>
    x <- conv_rel a ;; y <- conv_rel b ;;
    match y with
    | LV rh =>
      match o_pow_exp_args _ O rh with
      | Some (n :: m :: _) =>
        known <- gets g_variances ;;
        let val_of k := match lookup_v known k with Some v => v | None => k end in
        rh <- lift_res (o_matrix_symbol _ O x (val_of n) (val_of m)) ;;
        match x with
        | LV l => _ <- declare l rh ;; ret x
        | _ => raise TypeError
        end
      | Some _ => raise IndexError
      | None => raise (ExcOther 0)
      end
    | _ => raise (ExcOther 0)
    end
  end.
End Conv.

(** latex2sympy2.py:48-54 *)
Definition frac_of (s : pystr) (cur : pystr) : pystr :=
  let f := if contains (u "\frac") s then u "\frac" else cur in
  let f := if contains (u "\dfrac") s then u "\dfrac" else f in
  if contains (u "\tfrac") s then u "\tfrac" else f.
(** latex2sympy2.py:66: an argument list and a subscript, rewritten as a permutation *)
Definition perm_cls : cls :=
  COr (CRange 97 122) (COr (CRange 65 90) (COr (CRange 48 57) (COr (CLit 43) (COr (CLit 45)
    (COr (CLit 42) (COr (CLit 47) (COr (CLit 92) (CLit 32)))))))).
Definition lazy_plus (k : cls) : regex := RSeq (RChr k) (RStar false (RChr k)).
Definition perm_re : regex :=
  rseq [rs "("; RGrp 1 (lazy_plus perm_cls); rs ")_{"; RGrp 2 (lazy_plus perm_cls); rs "}"].
(** latex2sympy2.py:55-71 *)
Definition prepare (s : pystr) : pystr :=
  let s := replace (u "\dfrac") (u "\frac") s in
  let s := replace (u "\tfrac") (u "\frac") s in
  let s := replace (u "\mathrm{T}") (u "T") s in
  let s := replace (u "{\rm d}") (u "d") (replace (u "\mathrm{d}") (u "d") s) in
  let s := replace (u "\end{matrix}\right]") (u "\end{bmatrix}") (replace (u "\left[\begin{matrix}") (u "\begin{bmatrix}") s) in
  let s := re_sub perm_re [PLit (u "\frac{("); PGrp 1; PLit (u ")!}{(("); PGrp 1; PLit (u ")-("); PGrp 2; PLit (u "))!}")] s in
  let s := replace (u "\displaystyle") (u " ") s in
  let s := replace (u "\,") (u " ") (replace (u "~") (u " ") (replace (u "\qquad") (u " ") (replace (u "\quad") (u " ") s))) in
  replace (u "$") (u " ") s.

(** latex2sympy2.py:46-113 [latex2sympy]; [n]: depth of nested calls still available *)
Fixpoint latex2sympy (n : nat) (s : pystr) (vs : list (pystr * pv V)) : M G val :=
  match n with
  | 0 => raise RecursionError
  | S n' =>
    frac <- gets g_frac ;;
    _ <- set_frac (frac_of s frac) ;;
    _ <- set_values vs ;;
    t <- lift_res (o_parse _ O (prepare s)) ;;
    match t with
    | MList l => rs <- map_conv (conv_rel (latex2sympy n')) l ;; ret (LL rs)
    | MRel r => conv_rel (latex2sympy n') r
    end
  end.

(** latex2sympy2.py:32-34 [set_real] and 37-44 [set_variances] *)
Definition set_real (b : option bool) : M G unit := fun st =>
  (Ret tt, {| g_real := b; g_frac := g_frac st; g_variances := g_variances st; g_var := g_var st;
              g_values := g_values st; g_diff := g_diff st; g_partial := g_partial st |}).
Definition set_variances (l : list (V * V)) : M G unit := fun st =>
  (Ret tt, {| g_real := g_real st; g_frac := g_frac st; g_variances := l;
              g_var := rev (map (fun p => (o_str _ O (LV (fst p)), snd p)) l);
              g_values := g_values st; g_diff := g_diff st; g_partial := g_partial st |}).
(** latex2sympy2.py:1129-1137 [latex]; [frac]: the global frac_type *)
Definition relatex (frac s : pystr) : pystr :=
  let s := replace (u "\tfrac") frac (replace (u "\dfrac") frac (replace (u "\frac") frac s)) in
  let s := replace (u "\end{matrix}\right]") (u "\end{bmatrix}") (replace (u "\left[\begin{matrix}") (u "\begin{bmatrix}") s) in
  let s := replace (u "\right") [] (replace (u "\left") [] s) in
  replace (u "\log") (u "\ln") (replace (u " )") (u ")") s).
Definition latex (v : val) : M G pystr :=
  frac <- gets g_frac ;; s <- lift_res (o_latex _ O v) ;; ret (relatex frac s).
(** latex2sympy2.py:1140-1146 [latex2latex] *)
Definition latex2latex (n : nat) (s : pystr) : M G pystr :=
  r <- latex2sympy n s [] ;;
  match r with
  | LL _ | LTD _ => latex r
  | _ => known <- gets g_variances ;; v <- lift_res (o_simplified _ O r known) ;; latex v
  end.
(** The state after importing the module *)
Definition fresh : G :=
  {| g_real := None; g_frac := u "\frac"; g_variances := []; g_var := []; g_values := []; g_diff := None; g_partial := None |}.
End L2S.
