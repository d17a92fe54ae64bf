(** latex_normalize.py [_str_to_interval] over an arbitrary SymPy. *)
From Coq Require Import String List NArith ZArith Bool.
From Verif Require Import PyStr Monad.
Import ListNotations.
Local Open Scope mon_scope.

(** What the function asks of latex2sympy and SymPy; every operation may raise.
    [V]: the objects latex2sympy returns for the end points; [S]: SymPy sets. *)
Record ISympy (St V S : Type) := {
  iv_latex2sympy : pystr -> M St V;
  iv_is_number : V -> M St bool;
  iv_evalf : V -> M St V;
  iv_is_int : V -> M St bool;             (* _is_int (latex_normalize.py:73-77) *)
  iv_Integer : V -> M St V;               (* sympy.Integer(v) *)
  iv_gt : V -> V -> M St bool;            (* bool(v > w) *)
  iv_interval : V -> V -> bool -> bool -> M St S;   (* Interval(v, w, left_open, right_open) *)
  iv_empty : S;                           (* EmptySet *)
  iv_is_empty : S -> M St bool;           (* bool(s.is_empty) *)
  iv_intersect : S -> S -> M St S;
  iv_union : S -> S -> M St S             (* s + t *)
}.

Section I.
Context {St V S : Type}.
Variable IS : ISympy St V S.

Definition cup_sign : pystr := [8899%N].       (* the n-ary union sign *)
Definition cap_sign : pystr := [8745%N].       (* the intersection sign *)

(** [x.split(sign) if sign in x else x.split(command)], latex_normalize.py:128 and 132 *)
Definition split_either (sign command x : pystr) : list pystr :=
  if contains sign x then split_on sign x else split_on command x.

(** latex_normalize.py:138-145, for one end point *)
Definition end_point (v : V) : M St V :=
  n <- iv_is_number _ _ _ IS v ;;
  if n then
    w <- iv_evalf _ _ _ IS v ;;
    i <- iv_is_int _ _ _ IS w ;;
    if i then iv_Integer _ _ _ IS w else ret w
  else ret v.

(** latex_normalize.py:133-149; the exception of line 147 is modelled by ValueError *)
Definition one_interval (t : pystr) : M St S :=
  let t := strip t in
  match split_on (u ",") t with
  | [a; b] =>
    lo <- iv_latex2sympy _ _ _ IS (replace (u "[") [] (replace (u "(") [] a)) ;;
    hi <- iv_latex2sympy _ _ _ IS (replace (u "]") [] (replace (u ")") [] b)) ;;
    lo <- end_point lo ;;
    hi <- end_point hi ;;
    n1 <- iv_is_number _ _ _ IS lo ;;
    n2 <- (if n1 then iv_is_number _ _ _ IS hi else ret false) ;;
    bad <- (if n2 then iv_gt _ _ _ IS lo hi else ret false) ;;
    if bad then raise ValueError
    else iv_interval _ _ _ IS lo hi (contains (u "(") t) (contains (u ")") t)
  | _ => raise ValueError
  end.

(** latex_normalize.py:131-153 *)
Fixpoint intersections (acc : S) (l : list pystr) : M St S :=
  match l with
  | [] => ret acc
  | t :: l' =>
    s <- one_interval t ;;
    e <- iv_is_empty _ _ _ IS acc ;;
    acc <- (if e then ret s else iv_intersect _ _ _ IS acc s) ;;
    intersections acc l'
  end.
(** latex_normalize.py:129-154 *)
Fixpoint unions (acc : S) (l : list pystr) : M St S :=
  match l with
  | [] => ret acc
  | t :: l' =>
    s <- intersections (iv_empty _ _ _ IS) (split_either cap_sign (u "\cap") t) ;;
    acc <- iv_union _ _ _ IS acc s ;;
    unions acc l'
  end.
(** latex_normalize.py:128-155: what is inside the [try] of [_str_to_interval] *)
Definition interval_of (x : pystr) : M St S :=
  unions (iv_empty _ _ _ IS) (split_either cup_sign (u "\cup") x).
End I.
