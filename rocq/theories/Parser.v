(** /repo/math_evaluation/core/latex_parser.py over an arbitrary SymPy. *)
From Coq Require Import String List NArith ZArith Bool Lia.
From Verif Require Import PyStr Monad.
Import ListNotations.
Local Open Scope mon_scope.

Inductive relop := OpLt | OpLe | OpGt | OpGe | OpNe.

(** Python values that reach the comparison.  [E] is the type of SymPy expressions,
    [Ob] of any other objects.  Sets are given in iteration order, matrices by
    their entries.  [VNone] is Python's None (the result of a failed evalf). *)
Inductive pyval (E Ob : Type) : Type :=
| VList (l : list (pyval E Ob))
| VSet (l : list (pyval E Ob))
| VTuple (l : list (pyval E Ob))
| VEq (lhs rhs : pyval E Ob)
| VRel (op : relop) (lhs rhs : pyval E Ob)
| VExpr (e : E)
| VMat (rows cols : nat) (entry : nat -> nat -> pyval E Ob)
| VNone
| VOther (o : Ob).
Arguments VList {E Ob}. Arguments VSet {E Ob}. Arguments VTuple {E Ob}. Arguments VEq {E Ob}.
Arguments VRel {E Ob}. Arguments VExpr {E Ob}. Arguments VMat {E Ob}. Arguments VNone {E Ob}. Arguments VOther {E Ob}.

(** constants.py:4-12 *)
Inductive atype := TCplx | TVec | TSet | TMat | TFunc | TEqul | TExpr | TIneq | TOths.
Definition atype_eqb (a b : atype) : bool :=
  match a, b with
  | TCplx, TCplx | TVec, TVec | TSet, TSet | TMat, TMat | TFunc, TFunc
  | TEqul, TEqul | TExpr, TExpr | TIneq, TIneq | TOths, TOths => true
  | _, _ => false
  end.

(** The two thresholds used: EPSILON = 1e-3 (constants.py:16) and 5 * EPSILON. *)
Inductive thr := Eps | Eps5.
(** Which random function: random.randint or random.uniform, both on (1, 10). *)
Inductive rngfun := RandInt | Uniform.

(** What the code asks of SymPy.  Every operation may raise and may change the state.
    [option bool] is the outcome of an order comparison: [None] is an unevaluated
    relational, whose [bool()] raises TypeError. *)
Record Sympy (St E Ob Sym Num : Type) := {
  op_latex2sympy : pystr -> M St (pyval E Ob);         (* latex2sympy(expr) *)
  op_parse_latex : pystr -> M St (pyval E Ob);         (* parse_latex(expr).subs({pi}) *)
  op_parse_expr : pystr -> M St (pyval E Ob);          (* sympy_parser.parse_expr(..) *)
  op_truthy : pyval E Ob -> M St bool;                 (* bool(v) *)
  op_eq : pyval E Ob -> pyval E Ob -> M St bool;        (* v == w *)
  op_sub : pyval E Ob -> pyval E Ob -> M St (pyval E Ob);
  op_neg : pyval E Ob -> M St (pyval E Ob);
  op_div : pyval E Ob -> pyval E Ob -> M St (pyval E Ob);
  op_inv : pyval E Ob -> M St (pyval E Ob);             (* 1/v *)
  op_named_function : pyval E Ob -> M St bool;         (* v.is_Function and getattr(v, "name", None) *)
  op_is_symbol : pyval E Ob -> M St bool;
  op_has_I : E -> M St bool;
  op_matrix : list (pyval E Ob) -> M St (nat * nat * (nat -> nat -> pyval E Ob));  (* Matrix(list) *)
  op_re : pyval E Ob -> M St (pyval E Ob);
  op_im : pyval E Ob -> M St (pyval E Ob);
  op_free_symbols : pyval E Ob -> M St (list Sym);
  op_same_symbols : list Sym -> list Sym -> bool;      (* equality of the two sets *)
  op_sym_name : Sym -> pystr;
  op_subs_I : pyval E Ob -> Sym -> M St (pyval E Ob);    (* v.subs(sym, I) *)
  op_is_number : pyval E Ob -> M St bool;
  op_is_Integer : pyval E Ob -> M St bool;
  op_evalf : pyval E Ob -> list (Sym * Num) -> M St (pyval E Ob);  (* v.evalf(subs=..) under the timeout *)
  op_expand_equal : pyval E Ob -> pyval E Ob -> M St bool; (* a.expand(trig=True) == b.expand(trig=True) *)
  op_simplify : pyval E Ob -> M St (pyval E Ob);
  op_abs : pyval E Ob -> M St (pyval E Ob);
  op_eq0 : pyval E Ob -> M St bool;                    (* v == 0 *)
  op_is_zero : pyval E Ob -> M St (option bool);       (* v.is_zero, v.is_zero_matrix *)
  op_lt : pyval E Ob -> thr -> M St (option bool);     (* v < threshold *)
  op_ge1 : pyval E Ob -> M St (option bool);           (* v >= 1 *)
  op_gt0 : pyval E Ob -> M St (option bool);           (* v > 0 *)
  op_rng : rngfun -> M St Num                         (* rng(1, 10) *)
}.

Section Parser.
Context {St E Ob Sym Num : Type}.
Variable SP : Sympy St E Ob Sym Num.
Notation val := (pyval E Ob).

(** bool() of an order comparison *)
Definition as_bool (b : option bool) : M St bool :=
  match b with Some b => ret b | None => raise TypeError end.

(** Attribute access on a Python list, set, tuple or None raises AttributeError. *)
Definition attr {A} (v : val) (m : M St A) : M St A :=
  match v with
  | VList _ | VSet _ | VTuple _ | VNone => raise AttributeError
  | _ => m
  end.

(** latex_parser.py:22-74 [_sympy_parse] *)
Definition sympy_parse (expr : pystr) : M St (list (option val)) :=
  l2s <- try_bare (v <- op_latex2sympy _ _ _ _ _ SP expr ;; ret (Some v)) (ret None) ;;
  sp <- match l2s with
        | None => try_bare (v <- op_parse_latex _ _ _ _ _ SP expr ;; ret (Some v)) (ret None)
        | Some _ => ret None
        end ;;
  let dedup (other : option val) (cur : option val) : M St (option val) :=
    match other with
    | None => ret cur
    | Some o =>
      t <- op_truthy _ _ _ _ _ SP o ;;
      if t then
        match cur with
        | None => ret None
        | Some c => b <- op_eq _ _ _ _ _ SP c o ;; ret (if b then None else Some c)
        end
      else ret cur
    end in
  py <- try_bare
          (v <- op_parse_expr _ _ _ _ _ SP (replace (u "^") (u "**") expr) ;;
           let v := match v with
                    | VTuple l => if Nat.ltb 2 (List.length l) then VList l else v
                    | _ => v
                    end in
           c <- dedup l2s (Some v) ;;
           dedup sp c)
          (ret None) ;;
  ret [l2s; sp; py].

(** latex_parser.py:100-105 [_is_sympy_zero], as a truth value *)
Definition is_sympy_zero (v : val) : M St bool :=
  match v with
  | VExpr _ =>
    b <- op_eq0 _ _ _ _ _ SP v ;;
    if b then ret true
    else z <- op_is_zero _ _ _ _ _ SP v ;; ret (match z with Some true => true | _ => false end)
  | VMat _ _ _ => z <- op_is_zero _ _ _ _ _ SP v ;; ret (match z with Some true => true | _ => false end)
  | _ => ret false
  end.

(** latex_parser.py:108-140 [_get_sympy_type] *)
Definition get_sympy_type (v : val) : M St atype :=
  match v with
  | VList _ => ret TVec
  | VSet _ => ret TSet
  | VEq lhs _ =>
    inv <- op_inv _ _ _ _ _ SP lhs ;;
    f <- op_named_function _ _ _ _ _ SP lhs ;;
    if f then ret TFunc else
    g <- op_named_function _ _ _ _ _ SP inv ;;
    if g then ret TFunc else
    s <- op_is_symbol _ _ _ _ _ SP lhs ;;
    ret (if s then TFunc else TEqul)
  | VRel _ _ _ => ret TIneq
  | VExpr e => b <- op_has_I _ _ _ _ _ SP e ;; ret (if b then TCplx else TExpr)
  | VMat _ _ _ => ret TMat
  | VTuple _ | VNone | VOther _ => ret TOths
  end.

(** latex_parser.py:143-151 [_list_to_mat] *)
Definition list_to_mat (l : list val) (exp_rows exp_cols : nat) : M St val :=
  m <- op_matrix _ _ _ _ _ SP l ;;
  let '(r, c, f) := m in
  if Nat.eqb r exp_rows && Nat.eqb c exp_cols then ret (VMat r c f)
  else if (Nat.eqb exp_rows 1 && Nat.eqb r exp_cols) || (Nat.eqb exp_cols 1 && Nat.eqb c exp_rows)
       then ret (VMat c r (fun i j => f j i))
       else raise ValueError.

Definition is_le_ge (op : relop) : bool := match op with OpLe | OpGe => true | _ => false end.
Definition is_lt_gt (op : relop) : bool := match op with OpLt | OpGt => true | _ => false end.

(** latex_parser.py:154-160 [_ineq_to_expr] *)
Definition ineq_to_expr (op : relop) (lhs rhs : val) : M St val :=
  match op with
  | OpLe | OpLt => op_sub _ _ _ _ _ SP lhs rhs
  | OpGe | OpGt => op_sub _ _ _ _ _ SP rhs lhs
  | OpNe => raise ValueError
  end.

(** latex_parser.py:163-167 [_uneq_to_set]; a Python set has no attribute rel_op. *)
Definition uneq_to_set (v : val) : M St val :=
  match v with
  | VRel OpNe l r => ret (VSet [l; r])
  | VRel _ _ _ => raise ValueError
  | _ => raise AttributeError
  end.

(** latex_parser.py:170-178 [expr_with_only_i] *)
Definition expr_with_only_i (v : val) : M St (val * bool) :=
  fs <- op_free_symbols _ _ _ _ _ SP v ;;
  match fs with
  | [s] => if str_eqb (op_sym_name _ _ _ _ _ SP s) (u "i")
           then w <- op_subs_I _ _ _ _ _ SP v s ;; ret (w, true)
           else ret (v, false)
  | _ => ret (v, false)
  end.

(** latex_parser.py:181-193 [sympy_simplify]: any Exception becomes RuntimeError *)
Definition sympy_simplify (v : val) : M St val :=
  try_except
    (attr v (b <- op_is_number _ _ _ _ _ SP v ;;
             if b then op_evalf _ _ _ _ _ SP v [] else op_simplify _ _ _ _ _ SP v))
    (raise RuntimeError).

(** latex_parser.py:196-206 [sympy_expand_equal] *)
Definition sympy_expand_equal (a b : val) : M St bool :=
  try_except (attr a (attr b (op_expand_equal _ _ _ _ _ SP a b))) (ret false).

(** latex_parser.py:209-220 [sympy_abs] *)
Definition sympy_abs (v : val) : M St val :=
  try_except (op_abs _ _ _ _ _ SP v) (raise RuntimeError).

(** latex_parser.py:223-236 [sympy_evalf]: None on any Exception *)
Definition sympy_evalf (v : val) (sub : list (Sym * Num)) : M St val :=
  try_except (attr v (op_evalf _ _ _ _ _ SP v sub)) (ret VNone).

(** latex_parser.py:266-271 [abs_smaller_than_threshold]: the comparison object
    is returned without forcing its truth value if the first test is false. *)
Definition abs_smaller (v : val) (t : thr) : M St (option bool) :=
  try_bare
    (a <- sympy_abs v ;;
     c <- op_lt _ _ _ _ _ SP a t ;;
     b <- as_bool c ;;
     if b then ret (Some true)
     else e <- sympy_evalf a [] ;;
          match e with VNone => raise TypeError | _ => op_lt _ _ _ _ _ SP e t end)
    (ret (Some false)).

(** latex_parser.py:259-283 [_diff_equal] *)
Definition diff_equal (gt diff : val) : M St (option bool) :=
  z <- is_sympy_zero diff ;;
  if z then ret (Some true) else
  n <- attr diff (op_is_number _ _ _ _ _ SP diff) ;;
  if n then
    fs <- attr gt (op_free_symbols _ _ _ _ _ SP gt) ;;
    i <- (match fs with [] => attr gt (op_is_Integer _ _ _ _ _ SP gt) | _ => ret true end) ;;
    if i then abs_smaller diff Eps else
    a <- sympy_abs gt ;;
    g <- op_ge1 _ _ _ _ _ SP a ;;
    g <- as_bool g ;;
    if g then abs_smaller diff Eps5 else
    gn <- op_is_number _ _ _ _ _ SP gt ;;
    if gn then
      a <- sympy_abs gt ;;
      p <- op_gt0 _ _ _ _ _ SP a ;;
      p <- as_bool p ;;
      if p then q <- op_div _ _ _ _ _ SP diff gt ;; abs_smaller q Eps
      else ret (Some false)
    else ret (Some false)
  else ret (Some false).

(** latex_parser.py:250: one draw per symbol *)
Fixpoint draw (rng : rngfun) (syms : list Sym) : M St (list (Sym * Num)) :=
  match syms with
  | [] => ret []
  | s :: syms' => x <- op_rng _ _ _ _ _ SP rng ;; l <- draw rng syms' ;; ret ((s, x) :: l)
  end.

(** latex_parser.py:249-255; [n] iterations left *)
Fixpoint sample (rng : rngfun) (gt gv : val) (syms : list Sym) (n : nat) : M St bool :=
  match n with
  | O => ret true
  | S n' =>
    env <- draw rng syms ;;
    a <- sympy_evalf gt env ;;
    b <- sympy_evalf gv env ;;
    match a, b with
    | VNone, _ => ret false
    | _, VNone => ret false
    | _, _ =>
      d <- op_sub _ _ _ _ _ SP a b ;;
      r <- diff_equal a d ;;
      r <- as_bool r ;;
      if r then sample rng gt gv syms n' else ret false
    end
  end.

(** latex_parser.py:239-256 [_numerical_equal] *)
Definition numerical_equal (rng : rngfun) (gt gv : val) : M St bool :=
  f1 <- attr gt (op_free_symbols _ _ _ _ _ SP gt) ;;
  f2 <- attr gv (op_free_symbols _ _ _ _ _ SP gv) ;;
  if negb (op_same_symbols _ _ _ _ _ SP f1 f2) then ret false
  else sample rng gt gv f1 10.

(** latex_parser.py:409-450: the scalar comparison.  The value None of the fall-through
    at line 450 is as false as False for all callers. *)
Definition scalar_equal (gt gv : val) : M St bool :=
  n1 <- attr gt (op_is_number _ _ _ _ _ SP gt) ;;
  gt <- (if n1 then sympy_evalf gt [] else ret gt) ;;
  n2 <- attr gv (op_is_number _ _ _ _ _ SP gv) ;;
  gv <- (if n2 then sympy_evalf gv [] else ret gv) ;;
  e <- try_bare (sympy_expand_equal gt gv) (ret false) ;;
  if e then ret true else
  d <- try_bare (w <- op_sub _ _ _ _ _ SP gt gv ;; s <- sympy_simplify w ;; diff_equal gt s) (ret (Some false)) ;;
  d <- as_bool d ;;
  if d then ret true else
  try_bare
    (f1 <- attr gt (op_free_symbols _ _ _ _ _ SP gt) ;;
     f2 <- (match f1 with [] => ret [] | _ => attr gv (op_free_symbols _ _ _ _ _ SP gv) end) ;;
     match f1, f2 with
     | _ :: _, _ :: _ =>
       b <- numerical_equal RandInt gt gv ;;
       if b then ret true else numerical_equal Uniform gt gv
     | _, _ => ret false
     end)
    (ret false).

Definition both (a b t : atype) : bool := atype_eqb a t && atype_eqb b t.
Definition vec_or_set (t : atype) : bool := atype_eqb t TVec || atype_eqb t TSet.

(** Comparison of two values after computing their types *)
Definition typed (rec : val -> val -> atype -> atype -> M St bool) (a b : val) : M St bool :=
  t1 <- get_sympy_type a ;; t2 <- get_sympy_type b ;; rec a b t1 t2.

(** latex_parser.py:299-305 *)
Fixpoint vec_all (cmp : val -> val -> M St bool) (l1 l2 : list val) : M St bool :=
  match l1, l2 with
  | a :: l1', b :: l2' => r <- cmp a b ;; if r then vec_all cmp l1' l2' else ret false
  | _, _ => ret true
  end.
(** latex_parser.py:314-318; the type of [_gt] is computed once per outer iteration *)
Fixpoint set_any (cmp : val -> M St bool) (l : list val) : M St bool :=
  match l with
  | [] => ret false
  | b :: l' => r <- cmp b ;; if r then ret true else set_any cmp l'
  end.
(** latex_parser.py:311-322 *)
Fixpoint set_all (rec : val -> val -> atype -> atype -> M St bool) (l1 l2 : list val) : M St bool :=
  match l1 with
  | [] => ret true
  | a :: l1' =>
    t1 <- get_sympy_type a ;;
    r <- set_any (fun b => t2 <- get_sympy_type b ;; rec a b t1 t2) l2 ;;
    if r then set_all rec l1' l2 else ret false
  end.

(** latex_parser.py:354-361: row-major list of entry positions *)
Definition positions (r c : nat) : list (nat * nat) := list_prod (seq 0 r) (seq 0 c).
Fixpoint mat_all (cmp : val -> val -> M St bool) (f g : nat -> nat -> val) (ps : list (nat * nat)) : M St bool :=
  match ps with
  | [] => ret true
  | (i, j) :: ps' => r <- cmp (f i j) (g i j) ;; if r then mat_all cmp f g ps' else ret false
  end.

(** Attributes lhs/rhs/rel_op/rows/cols of a value whose type tag promises them; the
    tags always come from [get_sympy_type] on the same value except where noted. *)
Definition body (rec : val -> val -> atype -> atype -> M St bool)
                (gt gv : val) (t1 t2 : atype) : M St bool :=
  (* 292-293 *)
  if vec_or_set t1 && vec_or_set t2 && negb (atype_eqb t1 t2) then ret false
  (* 295-305 *)
  else if both t1 t2 TVec then
    match gt, gv with
    | VList l1, VList l2 =>
      if negb (Nat.eqb (List.length l1) (List.length l2)) then ret false
      else vec_all (typed rec) l1 l2
    | _, _ => raise TypeError
    end
  (* 307-322 *)
  else if both t1 t2 TSet then
    match gt, gv with
    | VSet l1, VSet l2 =>
      if negb (Nat.eqb (List.length l1) (List.length l2)) then ret false
      else set_all rec l1 l2
    | _, _ => raise TypeError
    end
  (* 324-330 *)
  else if both t1 t2 TEqul then
    match gt, gv with
    | VEq l1 r1, VEq l2 r2 =>
      a <- op_sub _ _ _ _ _ SP l1 r1 ;;
      b <- op_sub _ _ _ _ _ SP l2 r2 ;;
      ta <- get_sympy_type a ;;
      tb <- get_sympy_type b ;;
      x <- rec a b ta tb ;;
      if x then ret true else na <- op_neg _ _ _ _ _ SP a ;; rec na b ta tb
    | _, _ => raise AttributeError
    end
  (* 332-347 *)
  else if both t1 t2 TIneq then
    match gt, gv with
    | VRel o1 l1 r1, VRel o2 l2 r2 =>
      if (is_le_ge o1 && is_le_ge o2) || (is_lt_gt o1 && is_lt_gt o2) then
        a <- ineq_to_expr o1 l1 r1 ;;
        b <- ineq_to_expr o2 l2 r2 ;;
        typed rec a b
      else
        s <- uneq_to_set gt ;;
        s <- uneq_to_set s ;;
        typed rec s gv
    | _, _ => raise AttributeError
    end
  (* 349-362 *)
  else if both t1 t2 TMat then
    match gt, gv with
    | VMat r1 c1 f, VMat r2 c2 g =>
      if negb (Nat.eqb r2 r1) || negb (Nat.eqb c2 c1) then ret false
      else mat_all (typed rec) f g (positions r1 c1)
    | _, _ => raise AttributeError
    end
  (* 364-372 *)
  else if atype_eqb t1 TMat && atype_eqb t2 TVec then
    match gt, gv with
    | VMat r c _, VList l =>
      try_bare (m <- list_to_mat l r c ;; rec gt m TMat TMat) (ret false)
    | _, _ => raise AttributeError
    end
  (* 373-380 *)
  else if atype_eqb t2 TMat && atype_eqb t1 TVec then
    match gt, gv with
    | VList l, VMat r c _ =>
      try_bare (m <- list_to_mat l r c ;; rec m gv TMat TMat) (ret false)
    | _, _ => raise AttributeError
    end
  (* 382-392 *)
  else if both t1 t2 TCplx then
    a1 <- op_re _ _ _ _ _ SP gt ;;
    b1 <- op_im _ _ _ _ _ SP gt ;;
    a2 <- op_re _ _ _ _ _ SP gv ;;
    b2 <- op_im _ _ _ _ _ SP gv ;;
    ta1 <- get_sympy_type a1 ;;
    tb1 <- get_sympy_type b1 ;;
    ta2 <- get_sympy_type a2 ;;
    tb2 <- get_sympy_type b2 ;;
    x <- rec a1 a2 ta1 ta2 ;;
    if x then rec b1 b2 tb1 tb2 else ret false
  else
  (* 394-398 *)
    p <- (if both t1 t2 TExpr then
            p1 <- expr_with_only_i gt ;;
            p2 <- expr_with_only_i gv ;;
            ret (fst p1, fst p2, snd p1 || snd p2)
          else ret (gt, gv, false)) ;;
    let '(gt, gv, cplx) := p in
    if cplx then rec gt gv TCplx TCplx
  (* 400-407 *)
    else if atype_eqb t1 TFunc || atype_eqb t2 TFunc then
      p1 <- (match gt with VEq _ r => t <- get_sympy_type r ;; ret (r, t) | _ => ret (gt, t1) end) ;;
      p2 <- (match gv with VEq _ r => t <- get_sympy_type r ;; ret (r, t) | _ => ret (gv, t2) end) ;;
      rec (fst p1) (fst p2) (snd p1) (snd p2)
  (* 409-450 *)
    else scalar_equal gt gv.

(** latex_parser.py:286-450 [_are_equal_latex_sympy]; [n] = remaining stack depth *)
Fixpoint equal_sympy (n : nat) (gt gv : val) (t1 t2 : atype) : M St bool :=
  match n with
  | O => raise RecursionError
  | S n' => body (equal_sympy n') gt gv t1 t2
  end.

(** latex_parser.py:466-484 *)
Fixpoint any_gv (cmp : val -> val -> M St bool) (g : val) (l : list (option val)) : M St bool :=
  match l with
  | [] => ret false
  | None :: l' => any_gv cmp g l'
  | Some v :: l' => b <- cmp g v ;; if b then ret true else any_gv cmp g l'
  end.
Fixpoint any_gt (cmp : val -> val -> M St bool) (l1 l2 : list (option val)) : M St bool :=
  match l1 with
  | [] => ret false
  | None :: l1' => any_gt cmp l1' l2
  | Some g :: l1' => b <- any_gv cmp g l2 ;; if b then ret true else any_gt cmp l1' l2
  end.

(** latex_parser.py:453-484 [are_equal_with_simplify] *)
Definition are_equal_with_simplify (n : nat) (gt gv : pystr) : M St bool :=
  c1 <- sympy_parse gt ;;
  c2 <- sympy_parse gv ;;
  any_gt (typed (equal_sympy n)) c1 c2.

(** latex_parser.py:487-540 [are_equal_under_sympy] *)
Definition are_equal_under_sympy_repo (n : nat) (gt gv : pystr) : M St bool :=
  try_bare (b <- are_equal_with_simplify n gt gv ;; ret b) (ret false).
End Parser.
