(** Arithmetic in LaTeX, independently of the lexer, the parser and the converter: expressions, how
    they are written, and what they are worth. *)
From Coq Require Import String List NArith ZArith QArith Bool Lia.
From Verif Require Import PyStr NumTheory L2SValue.
Import ListNotations.
Local Open Scope N_scope.

Inductive op := Plus | Minus | Star | Cdot | Times | Slash | Obelus | Colon | Modulo.
(** [Scale n e]: a number written directly before a factor, as in 2x; [Juxt a b]: a product written without a sign,
    as in x y; [Group e]: parentheses that need not be there *)
Inductive arith :=
| Num (ds : pystr) | Dec (ds fs : pystr) | Pct (ds : pystr) | Sym (x : pystr) | Pi
| Bin (o : op) (a b : arith) | Neg (a : arith) | Scale (ds : pystr) (a : arith) | Fact (a : arith) | Pow (a b : arith)
| Exp (a : arith) | Frac (a b : arith) | Binom (a b : arith) | Sqrt (a : arith) | Root (n a : arith)
| Abs (a : arith) | Floor (a : arith) | Ceil (a : arith) | Fn (f : pystr) (a : arith)
| Group (a : arith) | Juxt (a b : arith).

(** Symbols: letters except d, e, E, I and T; Greek letters *)
Definition letters : list N := map Ascii.N_of_ascii (list_ascii_of_string "abcfghijklmnopqrstuvwxyzABCDFGHJKLMNOPQRSUVWXYZ").
Definition greeks : list pystr :=
  map u ["\alpha"; "\beta"; "\gamma"; "\delta"; "\epsilon"; "\zeta"; "\eta"; "\theta"; "\lambda"; "\mu"; "\nu"; "\xi"; "\rho";
         "\sigma"; "\tau"; "\phi"; "\chi"; "\psi"; "\omega"]%string.
Definition symbols : list pystr := map (fun c => [c]) letters ++ greeks.
(** Functions of one argument *)
Definition functions : list pystr := trig_names ++ map fst arc_names ++ map u ["log"; "ln"; "exp"]%string.
Definition numeral (s : pystr) : Prop := Forall ascii_digit s /\ s <> [].
Fixpoint wf (e : arith) : Prop :=
  match e with
  | Num ds | Pct ds => numeral ds
  | Dec ds fs => numeral ds /\ numeral fs
  | Sym x => In x symbols
  | Pi => True
  | Bin _ a b | Pow a b | Frac a b | Binom a b | Root a b | Juxt a b => wf a /\ wf b
  | Scale ds a => numeral ds /\ wf a
  | Neg a | Fact a | Exp a | Sqrt a | Abs a | Floor a | Ceil a | Group a => wf a
  | Fn f a => In f functions /\ wf a
  end.

(** Writing.  0: sums; 1: products; 2: signs; 3: products without a sign; 4: factorials; 5: powers; 6: the rest *)
Definition prec (e : arith) : nat :=
  match e with
  | Bin Plus _ _ | Bin Minus _ _ => 0
  | Bin _ _ _ => 1
  | Neg _ => 2
  | Scale _ _ | Juxt _ _ => 3
  | Fact _ => 4
  | Pow _ _ | Exp _ => 5
  | _ => 6
  end.
Definition op_prec (o : op) : nat := match o with Plus | Minus => 0 | _ => 1 end.
(** what is written between a command and what follows it *)
Section Writing.
Variable gap : pystr.
Definition op_latex (o : op) : pystr :=
  match o with
  | Plus => u "+" | Minus => u "-" | Star => u "*" | Cdot => u "\cdot" ++ gap | Times => u "\times" ++ gap | Slash => u "/"
  | Obelus => u "\div" ++ gap | Colon => u ":" | Modulo => u "\mod" ++ gap
  end.
Definition digit_first (s : pystr) : bool := match s with c :: _ => (48 <=? c) && (c <=? 57) | [] => false end.
Definition parens (s : pystr) : pystr := u "(" ++ s ++ u ")".
(** a name, perhaps with an exponent, would be applied to what is in parentheses after it *)
Definition ends_name (e : arith) : bool := match e with Sym _ | Pow (Sym _) _ => true | _ => false end.
(** a Greek letter takes the space after it *)
Definition is_greek (e : arith) : bool := match e with Sym (92 :: _) => true | _ => false end.
Definition open_first (s : pystr) : bool := str_eqb (firstn 1 s) (u "(") || str_eqb (firstn 5 s) (u "\left").
(** two letters that begin a word of the grammar, in either case *)
Definition word_starts : list (N * N) :=
  map (fun s => match s with [c; d] => (c, d) | _ => (0, 0) end)
    (map u ["ar"; "gc"; "lc"; "fl"; "ce"; "ey"; "ze"; "on"; "co"; "ro"; "di"; "no"; "ra"; "tr"; "rr"; "hs"; "vs"; "or"; "nu"; "ei"; "sv"; "ma"; "pm"; "bm"; "vm"]%string).
Definition one_small (s : pystr) (c : N) : bool := match s with [d] => (d =? c) || (d + 32 =? c) | _ => false end.
Definition risky (s t : pystr) : bool :=
  existsb (fun p => one_small [last s 0] (fst p) && one_small (firstn 1 t) (snd p)) word_starts.
Fixpoint body (e : arith) : pystr :=
  (** parentheses where the level asks for them *)
  let at_level (l : nat) (e : arith) := if Nat.leb l (prec e) then body e else parens (body e) in
  match e with
  | Num ds => ds
  | Dec ds fs => ds ++ u "." ++ fs
  | Pct ds => ds ++ u "\%"
  | Sym x => x
  | Pi => u "\pi"
  | Bin o a b => at_level (op_prec o) a ++ op_latex o ++ at_level (S (op_prec o)) b
  | Neg a => u "-" ++ at_level 3%nat a
  | Scale ds a => ds ++ (if digit_first (at_level 4%nat a) then parens (body a) else at_level 4%nat a)
  | Fact a => at_level 4%nat a ++ u "!"
  | Pow a b => at_level 6%nat a ++ u "^{" ++ body b ++ u "}"
  | Exp a => u "e^{" ++ body a ++ u "}"
  | Frac a b => u "\frac{" ++ body a ++ u "}{" ++ body b ++ u "}"
  | Binom a b => u "\binom{" ++ body a ++ u "}{" ++ body b ++ u "}"
  | Sqrt a => u "\sqrt{" ++ body a ++ u "}"
  | Root n a => u "\sqrt[" ++ body n ++ u "]{" ++ body a ++ u "}"
  | Abs a => u "\left|" ++ body a ++ u "\right|"
  | Floor a => u "\lfloor" ++ gap ++ body a ++ u "\rfloor"
  | Ceil a => u "\lceil" ++ gap ++ body a ++ u "\rceil"
  | Fn f a => u "\" ++ f ++ u "(" ++ body a ++ u ")"
  | Group a => parens (body a)
  | Juxt a b =>
    let right := if digit_first (at_level 3%nat b) then parens (body b) else at_level 3%nat b in
    (if is_greek a || ends_name a && open_first right || risky (body a) right then parens (body a) else at_level 4%nat a) ++ gap ++ right
  end.
Definition text_level (l : nat) (e : arith) : pystr := if Nat.leb l (prec e) then body e else parens (body e).
(** what is written after another factor *)
Definition right_text (b : arith) : pystr := if digit_first (text_level 3 b) then parens (body b) else text_level 3 b.
End Writing.
(** with a space after commands, and without *)
Definition latex (e : arith) : pystr := body [32] e.
Definition tight (e : arith) : pystr := body [] e.

(** Worth *)
Section Value.
Context {A : Type}.
Variable K : arithmetic A.
Variable rho : pystr -> A.
Definition int_value (ds : pystr) : A := of_Q K (inject_Z (Z.of_N (dec_value ds))).
Definition dec_fraction (ds fs : pystr) : Q := (Z.of_N (dec_value (ds ++ fs)) # Pos.pow 10 (Pos.of_nat (List.length fs)))%Q.
Definition op_value (o : op) (x y : A) : A :=
  match o with
  | Plus => add K x y | Minus => sub K x y
  | Star | Cdot | Times => mul K x y
  | Slash | Obelus | Colon => div K x y
  | Modulo => fn K (u "Mod") [x; y]
  end.
Definition fn_value (f : pystr) (x : A) : A :=
  if str_eqb f (u "log") then fn K (u "log") [x; of_Q K 10]
  else if str_eqb f (u "ln") then fn K (u "log") [x; const_E K]
  else match find (fun p => str_eqb (fst p) f) arc_names with
       | Some (_, g) => fn K g [x]
       | None => fn K f [x]
       end.
(** the name of a symbol: Greek letters without backslash *)
Definition sym_name (x : pystr) : pystr := match x with 92 :: y => y | _ => x end.
Fixpoint value (e : arith) : A :=
  match e with
  | Num ds => int_value ds
  | Dec ds fs => of_Q K (dec_fraction ds fs)
  | Pct ds => div K (int_value ds) (of_Q K 100)
  | Sym x => rho (sym_name x)
  | Pi => const_pi K
  | Bin o a b => op_value o (value a) (value b)
  | Neg a => opp K (value a)
  | Scale ds a => mul K (int_value ds) (value a)
  | Fact a => fn K (u "factorial") [value a]
  | Pow a b => power K (value a) (value b)
  | Exp a => fn K (u "exp") [value a]
  | Frac a b => div K (value a) (value b)
  | Binom a b => fn K (u "binomial") [value a; value b]
  | Sqrt a => power K (value a) (of_Q K (1 # 2))
  | Root n a => power K (value a) (div K (of_Q K 1) (value n))
  | Abs a => fn K (u "Abs") [value a]
  | Floor a => fn K (u "floor") [value a]
  | Ceil a => fn K (u "ceiling") [value a]
  | Fn f a => fn_value f (value a)
  | Group a => value a
  | Juxt a b => mul K (value a) (value b)
  end.
End Value.
