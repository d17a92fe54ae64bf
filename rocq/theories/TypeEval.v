(** /repo/math_evaluation/core/type_evaluations.py *)
From Coq Require Import String List NArith ZArith Bool Lia.
From Verif Require Import PyStr Regex Normalize Monad Split Eval.
Import ListNotations.
Local Open Scope mon_scope.

Section TypeEval.
Variable W : World.
(** Call-stack depth available to [is_equiv] *)
Variable n : nat.
Notation St := (St W).

(** A str method called on a normal form: a Python set has none of
    replace/startswith/find, so AttributeError. *)
Definition str_method {A} (v : norm) (f : pystr -> A) : M St A :=
  match v with NStr s => ret (f s) | NSet _ => raise AttributeError end.

Definition normalize (s : pystr) : norm := string_normalize (int_str W) s.

(** type_evaluations.py:25-53 [is_equiv_complex]; after the two [.replace] calls both
    sides are strings, so only the branch of lines 50-51 is live. *)
Definition is_equiv_complex (gt gv : pystr) : M St bool :=
  a <- str_method (normalize (str_to_complex gt)) (replace (u "\sqrt{-1}") (u "I")) ;;
  b <- str_method (normalize (str_to_complex gv)) (replace (u "\sqrt{-1}") (u "I")) ;;
  try_bare (is_latex_equiv W (is_equiv_str W n) a b) (ret false).

(** type_evaluations.py:56-71 [try_to_parse_function] *)
Definition try_to_parse_function (v : norm) : M St pystr :=
  r <- str_method v (fun s => (s, find_str (u "=") s)) ;;
  match snd r with
  | Some (S idx) =>
    try_bare (_ <- parse_lhs W (firstn (S idx) (fst r)) ;; ret (skipn (S (S idx)) (fst r))) (ret (fst r))
  | _ => ret (fst r)
  end.

(** type_evaluations.py:74-93 [is_equiv_function] *)
Definition is_equiv_function (gt gv : pystr) : M St bool :=
  b <- is_equiv_str W n gt gv ;;
  if b then ret true else
  f <- try_to_parse_function (normalize gt) ;;
  g <- try_to_parse_function (normalize gv) ;;
  is_equiv_str W n f g.

Definition round_or_square (s : pystr) : bool :=
  (starts_with (u "(") s && ends_with (u ")") s) || (starts_with (u "[") s && ends_with (u "]") s).

(** type_evaluations.py:104-111 *)
Definition vector_preprocess (s : pystr) : pystr :=
  if round_or_square s then s
  else if starts_with (u "{") s && ends_with (u "}") s then u "[" ++ mid s ++ u "]"
  else u "[" ++ s ++ u "]".
(** type_evaluations.py:129-132 *)
Definition set_preprocess (s : pystr) : pystr := if round_or_square s then mid s else s.

(** The value returned by is_equiv_vector / is_equiv_set: the pair of
    [is_equiv_possible_tuple] or False. *)
Inductive check := CPair (p : bool * bool) | CBool (b : bool).
(** Truth value as used by [if check_func(..)] (line 165): a non-empty tuple is true. *)
Definition truthy (c : check) : bool := match c with CPair _ => true | CBool b => b end.

(** type_evaluations.py:113-118 and 134-139 *)
Definition tuple_check (pre : pystr -> pystr) (gt gv : pystr) : M St check :=
  a <- str_method (normalize gt) pre ;;
  b <- str_method (normalize gv) pre ;;
  try_bare (p <- possible_tuple W (is_equiv_str W n) a b ;; ret (CPair p)) (ret (CBool false)).

(** type_evaluations.py:96-118 *)
Definition is_equiv_vector : pystr -> pystr -> M St check := tuple_check vector_preprocess.
(** type_evaluations.py:121-139 *)
Definition is_equiv_set : pystr -> pystr -> M St check := tuple_check set_preprocess.

(** type_evaluations.py:149-154, in dictionary order *)
Definition checks : list (pystr * (pystr -> pystr -> M St check)) :=
  [ (u "Complex", fun a b => r <- is_equiv_complex a b ;; ret (CBool r));
    (u "Set", is_equiv_set);
    (u "Vector", is_equiv_vector);
    (u "Function", fun a b => r <- is_equiv_function a b ;; ret (CBool r)) ].

(** type_evaluations.py:163-169 *)
Fixpoint run_checks (l : list (pystr * (pystr -> pystr -> M St check))) (hint gt gv : pystr) : M St bool :=
  match l with
  | [] => ret false
  | (name, f) :: l' =>
    if contains name hint then
      c <- f gt gv ;;
      if truthy c then ret true else run_checks l' hint gt gv
    else run_checks l' hint gt gv
  end.

(** type_evaluations.py:142-172 [is_equiv_type]; [re.search(name, None)] raises TypeError. *)
Definition is_equiv_type (gt gv : pystr) (hint : option pystr) : M St bool :=
  match hint with
  | None => raise TypeError
  | Some h =>
    b <- run_checks checks h gt gv ;;
    if b then ret true else is_equiv_str W n gt gv
  end.
End TypeEval.
