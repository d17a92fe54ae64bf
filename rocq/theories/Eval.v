(** /repo/math_evaluation/core/evaluations.py, over arbitrary oracles. *)
From Coq Require Import String List NArith ZArith Bool Permutation Lia.
From Verif Require Import PyStr Regex Normalize Monad Split.
Import ListNotations.
Local Open Scope mon_scope.

(** Everything the evaluation relies on and that is not modelled as a function. *)
Record World := {
  (** State of SymPy, latex2sympy, random, ... *)
  St : Type;
  (** [str(_str_to_int(x))], see Normalize.v *)
  int_str : pystr -> pystr;
  (** Iteration order of a Python set built from a list of strings. *)
  set_iter : list pystr -> list pystr;
  set_iter_ok : forall l, Permutation (set_iter l) (nodup str_eq_dec l);
  (** Body of [_str_to_interval] (latex_normalize.py:128-155), may raise anything. *)
  Iv : Type;
  interval_body : pystr -> M St Iv;
  (** [gt_interval.compare(gv_interval) == 0] (evaluations.py:94) *)
  interval_compare : Iv -> Iv -> M St bool;
  (** [are_equal_with_simplify] (latex_parser.py:453-484) *)
  equal_with_simplify : pystr -> pystr -> M St bool;
  (** [f_lhs = latex2sympy(lhs_str); inv_f_lhs = 1 / f_lhs] (type_evaluations.py:62-63) *)
  parse_lhs : pystr -> M St unit
}.

Section Eval.
Variable W : World.
Notation St := (St W).
Notation Iv := (Iv W).
Notation set_iter := (set_iter W).

(** latex_normalize.py:126-158 [_str_to_interval]: bare [except: return None]. *)
Definition str_to_interval (x : pystr) : M St (option Iv) :=
  try_bare (v <- interval_body W x ;; ret (Some v)) (ret None).

(** latex_parser.py:487-540 [are_equal_under_sympy] *)
Definition are_equal_under_sympy (gt gv : pystr) : M St bool :=
  try_bare (b <- equal_with_simplify W gt gv ;; ret b) (ret false).

(** evaluations.py:82-97 [is_equiv_possible_intervals] *)
Definition possible_intervals (gt gv : pystr) : M St (bool * bool) :=
  a <- str_to_interval gt ;;
  b <- str_to_interval gv ;;
  match a, b with
  | None, None => ret (false, false)
  | Some x, Some y => c <- interval_compare W x y ;; ret (c, true)
  | _, _ => ret (false, true)
  end.

(** evaluations.py:125-128: zip of two sequences, stop at the first failure *)
Fixpoint all_zip (rec : pystr -> pystr -> M St bool) (l1 l2 : list pystr) : M St bool :=
  match l1, l2 with
  | x :: l1', y :: l2' => b <- rec x y ;; if b then all_zip rec l1' l2' else ret false
  | _, _ => ret true
  end.

(** evaluations.py:134-138: first unused prediction element equivalent to [g];
    elements already used carry [true]. *)
Fixpoint find_match (rec : pystr -> pystr -> M St bool) (g : pystr) (gvs : list (pystr * bool))
  : M St (bool * list (pystr * bool)) :=
  match gvs with
  | [] => ret (false, [])
  | (v, used) :: rest =>
    b <- (if used then ret false else rec g v) ;;
    if b then ret (true, (v, true) :: rest)
    else r <- find_match rec g rest ;; ret (fst r, (v, used) :: snd r)
  end.
(** evaluations.py:130-139; the [if not gt_found_matches[i]] test at line 133 is always true. *)
Fixpoint greedy (rec : pystr -> pystr -> M St bool) (gts : list pystr) (gvs : list (pystr * bool)) : M St bool :=
  match gts with
  | [] => ret true
  | g :: gts' =>
    r <- find_match rec g gvs ;;
    b <- greedy rec gts' (snd r) ;;
    ret (fst r && b)
  end.

Definition in_tok : pystr := u "\in".

(** Elements iterated and [len] of the result of [split_tuple] *)
Definition elems (k : kind) (l : list pystr) : list pystr := match k with KSet => set_iter l | _ => l end.
Definition py_len (s : splitted) : nat :=
  match s with SStr s => List.length s | SSeq k l => List.length (elems k l) end.
(** ['\\in' in given_elems]: membership for a sequence, substring for a string *)
Definition has_in (s : splitted) : bool :=
  match s with SStr s => contains in_tok s | SSeq _ l => existsb (str_eqb in_tok) l end.

(** evaluations.py:119-141 *)
Definition compare_elems (rec : pystr -> pystr -> M St bool) (a b : splitted) : M St bool :=
  if negb (Nat.eqb (py_len a) (py_len b)) && negb (has_in b) then ret false
  else match a, b with
       | SSeq k1 l1, SSeq k2 l2 =>
         if negb (kind_eqb k1 k2) then ret false
         else match k1 with
              | KSet => greedy rec (set_iter l1) (map (fun v => (v, false)) (set_iter l2))
              | _ => all_zip rec l1 l2
              end
       | _, _ => ret false
       end.

Definition lift {A} (r : res A) : M St A := fun st => (r, st).

(** evaluations.py:100-141 [is_equiv_possible_tuple] *)
Definition possible_tuple (rec : pystr -> pystr -> M St bool) (gt gv : pystr) : M St (bool * bool) :=
  a <- lift (split_tuple gt None) ;;
  b <- lift (split_tuple gv None) ;;
  match a, b with
  | SStr s1, SStr s2 =>
    if str_eqb s1 gt && str_eqb s2 gv then ret (false, false)
    else c <- rec s1 s2 ;; ret (c, true)
  | _, _ => c <- compare_elems rec a b ;; ret (c, true)
  end.

(** evaluations.py:164-179 *)
Fixpoint all_rows (rec : pystr -> pystr -> M St bool) (l1 l2 : list cell) : M St bool :=
  match l1, l2 with
  | c1 :: l1', c2 :: l2' =>
    match c1, c2 with
    | CStr s1, CStr s2 => b <- rec s1 s2 ;; if b then all_rows rec l1' l2' else ret false
    | CRow r1, CRow r2 =>
      if negb (Nat.eqb (List.length r1) (List.length r2)) then ret false
      else b <- all_zip rec r1 r2 ;; if b then all_rows rec l1' l2' else ret false
    | _, _ => ret false
    end
  | _, _ => ret true
  end.

(** evaluations.py:144-182 [is_equiv_possible_matrix] *)
Definition possible_matrix (rec : pystr -> pystr -> M St bool) (gt gv : pystr) : M St (bool * bool) :=
  a <- lift (split_matrix gt) ;;
  b <- lift (split_matrix gv) ;;
  match a, b with
  | MStr s1, MStr s2 =>
    if str_eqb s1 gt && str_eqb s2 gv then ret (false, false)
    else c <- rec s1 s2 ;; ret (c, true)
  | MRows l1, MRows l2 =>
    if negb (Nat.eqb (List.length l1) (List.length l2)) then ret (false, true)
    else c <- all_rows rec l1 l2 ;; ret (c, true)
  | _, _ => ret (false, true)
  end.

Definition has_bracket (s : pystr) : bool :=
  contains (u "(") s || contains (u ")") s || contains (u "[") s || contains (u "]") s.

(** evaluations.py:58-79 [is_latex_equiv] *)
Definition is_latex_equiv (rec : pystr -> pystr -> M St bool) (gt gv : pystr) : M St bool :=
  match gv with
  | [] => ret false
  | _ =>
    p <- (if has_bracket gt then possible_intervals gt gv else ret (false, false)) ;;
    p <- (if fst p then ret p else possible_tuple rec gt gv) ;;
    p <- (if negb (fst p) && (str_is_mat gt || str_is_mat gv) then possible_matrix rec gt gv else ret p) ;;
    if negb (fst p) && negb (snd p) then are_equal_under_sympy gt gv else ret (fst p)
  end.

(** evaluations.py:46-50 *)
Fixpoint any_given (cmp : pystr -> pystr -> M St bool) (g : pystr) (l : list pystr) : M St bool :=
  match l with
  | [] => ret false
  | v :: l' => b <- cmp g v ;; if b then ret true else any_given cmp g l'
  end.
Fixpoint any_pair (cmp : pystr -> pystr -> M St bool) (l1 l2 : list pystr) : M St bool :=
  match l1 with
  | [] => ret false
  | g :: l1' => b <- any_given cmp g l2 ;; if b then ret true else any_pair cmp l1' l2
  end.

(** Iterating a normal form (a string is wrapped into a one-element set, lines 42-45). *)
Definition readings (n : norm) : list pystr :=
  match n with NStr s => [s] | NSet l => set_iter l end.

(** evaluations.py:39-55 *)
Definition compare_norm (rec : pystr -> pystr -> M St bool) (a b : norm) : M St bool :=
  try_except
    (match a, b with
     | NStr s1, NStr s2 => is_latex_equiv rec s1 s2
     | _, _ => any_pair (is_latex_equiv rec) (readings a) (readings b)
     end)
    (ret false).

(** evaluations.py:25-55: [is_equiv] on two strings *)
Definition is_equiv_body (rec : pystr -> pystr -> M St bool) (gt gv : pystr) : M St bool :=
  if str_eqb (strip gt) (strip gv) then ret true
  else
    let a := string_normalize (int_str W) gt in
    let b := string_normalize (int_str W) gv in
    match a, b with
    | NStr s1, NStr s2 => if str_eqb s1 s2 then ret true else compare_norm rec a b
    | _, _ => compare_norm rec a b
    end.

(** [n] = depth of the call stack still available *)
Fixpoint is_equiv_str (n : nat) (gt gv : pystr) : M St bool :=
  match n with
  | O => raise RecursionError
  | S n' => is_equiv_body (is_equiv_str n') gt gv
  end.

(** evaluations.py:18-55 [is_equiv] *)
Definition is_equiv (n : nat) (gt gv : option pystr) : M St bool :=
  match gt, gv with
  | None, None => ret true
  | Some a, Some b => is_equiv_str n a b
  | _, _ => ret false
  end.
End Eval.
