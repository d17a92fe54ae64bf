(** /repo/math_evaluation/core/latex_normalize.py: [split_tuple], [split_matrix]. *)
From Coq Require Import String List NArith ZArith Bool Lia.
From Verif Require Import PyStr Regex Normalize Monad.
Import ListNotations.
Local Open Scope N_scope.

Inductive kind := KList | KTuple | KSet.
Definition kind_eqb (a b : kind) : bool :=
  match a, b with KList, KList | KTuple, KTuple | KSet, KSet => true | _, _ => false end.

(** Result of [split_tuple]: a string or a list/tuple/set of strings.  For a set the
    elements are those passed to [set(...)]; duplicates collapse in Eval.v. *)
Inductive splitted := SStr (s : pystr) | SSeq (k : kind) (l : list pystr).

Definition is_open (c : N) : bool := (c =? 91) || (c =? 40) || (c =? 123).
Definition is_close (c : N) : bool := (c =? 93) || (c =? 41) || (c =? 125).
(** latex_normalize.py:453-454 and 484-485 *)
Definition step (cnt : Z) (c : N) : Z :=
  (cnt + (if is_open c then 1 else 0) - (if is_close c then 1 else 0))%Z.

(** latex_normalize.py:449-456: final [cnt] and [remove_parenthesis]. *)
Fixpoint scan (s : pystr) (cnt : Z) (remove : bool) : Z * bool :=
  match s with
  | [] => (cnt, remove)
  | c :: s' =>
    let cnt := step cnt c in
    scan s' cnt (if (cnt =? 0)%Z && negb (Nat.eqb (List.length s') 0) then false else remove)
  end.

(** latex_normalize.py:475-488; [stack] is reversed. *)
Fixpoint split_commas (s : pystr) (cnt : Z) (stack : pystr) : list pystr :=
  match s with
  | [] => match stack with [] => [] | _ => [strip (rev stack)] end
  | c :: s' =>
    if (c =? 44) && (cnt =? 0)%Z then strip (rev stack) :: split_commas s' cnt []
    else split_commas s' (step cnt c) (c :: stack)
  end.

Definition last_cp (s : pystr) : N := List.last s 0.
Definition first_cp (s : pystr) : N := hd 0 s.

(** latex_normalize.py:460-470 *)
Definition unwrap (remove : bool) (expr : pystr) : pystr * kind :=
  if remove && Nat.ltb 2 (List.length expr) then
    if (first_cp expr =? 91) && (last_cp expr =? 93) then (mid expr, KList)
    else if (first_cp expr =? 40) && (last_cp expr =? 41) then (mid expr, KTuple)
    else if (first_cp expr =? 123) && (last_cp expr =? 125) then (mid expr, KSet)
    else (expr, KSet)
  else (expr, KSet).

(** latex_normalize.py:435-493 [split_tuple] *)
Definition split_tuple (expr : pystr) (expected : option kind) : res splitted :=
  let expr := strip_commas expr in
  let (cnt, remove) := scan expr 0%Z true in
  if negb (cnt =? 0)%Z then Raise AssertionError else
  let (expr, k) := unwrap remove expr in
  let k := match expected with Some k => k | None => k end in
  let result := split_commas expr 0%Z [] in
  match result with
  | _ :: _ :: _ => Ret (SSeq k result)
  | _ => Ret (SStr expr)
  end.

(** Result of [split_matrix]: a string, or a list whose items are strings or lists of strings. *)
Inductive cell := CStr (s : pystr) | CRow (l : list pystr).
Inductive matres := MStr (s : pystr) | MRows (l : list cell).

(** latex_normalize.py:534 , spaces added: [^\\begin\{[a-zA-Z]?matrix\}( .*? )\\end\{[a-zA-Z]?matrix\}$] *)
Definition matrix_re : regex :=
  rseq [RBol; rs "\begin{"; ROpt letter; rs "matrix}"; RGrp 1 (RStar false (RChr CAny));
        rs "\end{"; ROpt letter; rs "matrix}"; REol].

(** latex_normalize.py:524 *)
Definition n_cols (c : cell) : nat := match c with CStr _ => 1%nat | CRow l => List.length l end.
(** latex_normalize.py:520-532 [check_dim] on a list of rows *)
Fixpoint check_dim (n_col : nat) (l : list cell) : bool :=
  match l with
  | [] => true
  | c :: l' =>
    if negb (Nat.eqb n_col 0) && negb (Nat.eqb (n_cols c) n_col) then false
    else check_dim (n_cols c) l'
  end.

(** latex_normalize.py:538-544 *)
Definition matrix_rows (body : pystr) : list cell :=
  map (fun row => match split_on [38] row with
                  | [c] => CStr c
                  | cs => CRow cs
                  end) (split_on (u "\\") body).

(** latex_normalize.py:553 *)
Definition cell_of (s : splitted) : cell := match s with SStr s => CStr s | SSeq _ l => CRow l end.

Fixpoint map_res {A B} (f : A -> res B) (l : list A) : res (list B) :=
  match l with
  | [] => Ret []
  | x :: l' => match f x with
               | Raise e => Raise e
               | Ret y => match map_res f l' with Raise e => Raise e | Ret ys => Ret (y :: ys) end
               end
  end.

(** latex_normalize.py:556-562; a single element that is a string is iterated
    character by character by [check_dim], which always succeeds. *)
Definition finish (expr : pystr) (elements : list cell) : matres :=
  match elements with
  | [] => MStr expr
  | [CStr s] => MStr s
  | [CRow l] => if check_dim 0 (map CStr l) then MRows (map CStr l) else MStr expr
  | _ => if check_dim 0 elements then MRows elements else MStr expr
  end.

(** latex_normalize.py:496-562 [split_matrix] *)
Definition split_matrix (expr : pystr) : res matres :=
  match re_search matrix_re expr with
  | Some st => Ret (finish expr (matrix_rows (grp 1 st)))
  | None =>
    match split_tuple expr (Some KList) with
    | Raise e => Raise e
    | Ret sp =>
      let rows := match sp with SStr s => [s] | SSeq _ l => l end in
      match map_res (fun row => split_tuple row (Some KList)) rows with
      | Raise e => Raise e
      | Ret els => Ret (finish expr (map cell_of els))
      end
    end
  end.
