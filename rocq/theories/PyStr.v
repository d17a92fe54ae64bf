(** Python's [str] as lists of Unicode code points, and the [str] methods that
    /repo uses.  Semantics follow the CPython documentation of each method. *)
From Coq Require Import List NArith ZArith Bool Ascii String Lia.
From Verif Require Import UnicodeTables.
Import ListNotations.
Local Open Scope N_scope.

Definition pystr := list N.

(** ** Literals: [u "..."] decodes the UTF-8 bytes of a Coq string literal. *)
Fixpoint utf8 (l : list N) : pystr :=
  match l with
  | [] => []
  | a :: l1 =>
    if a <? 128 then a :: utf8 l1 else
    match l1 with
    | [] => [a]
    | b :: l2 =>
      if a <? 224 then ((a - 192) * 64 + (b - 128)) :: utf8 l2 else
      match l2 with
      | [] => [a; b]
      | c :: l3 =>
        if a <? 240 then ((a - 224) * 4096 + (b - 128) * 64 + (c - 128)) :: utf8 l3 else
        match l3 with
        | [] => [a; b; c]
        | d :: l4 => ((a - 240) * 262144 + (b - 128) * 4096 + (c - 128) * 64 + (d - 128)) :: utf8 l4
        end
      end
    end
  end.

Definition u (s : string) : pystr := utf8 (map N_of_ascii (list_ascii_of_string s)).

(** ** Equality *)
Fixpoint str_eqb (a b : pystr) : bool :=
  match a, b with
  | [], [] => true
  | x :: a', y :: b' => (x =? y) && str_eqb a' b'
  | _, _ => false
  end.

Definition str_eq_dec : forall a b : pystr, {a = b} + {a <> b} := list_eq_dec N.eq_dec.

(** ** Character classes *)
Definition in_ranges (l : list (N * N)) (c : N) : bool :=
  existsb (fun r => (fst r <=? c) && (c <=? snd r)) l.

(** [str.isspace] on one character *)
Definition is_space (c : N) : bool := in_ranges space_ranges c.
(** [str.isdecimal] on one character; regex [\d] *)
Definition is_digit (c : N) : bool := in_ranges decimal_ranges c.
(** regex [\w] *)
Definition is_word (c : N) : bool := (c =? 95) || in_ranges alnum_ranges c.
(** [str.isalpha] on one character *)
Definition is_alpha (c : N) : bool := in_ranges alpha_ranges c.
Definition is_ascii_digit (c : N) : bool := (48 <=? c) && (c <=? 57).

(** Value of a decimal digit character ([int(d)] on one character). *)
Definition digit_value (c : N) : N :=
  match find (fun r => (fst r <=? c) && (c <=? snd r)) decimal_ranges with
  | Some (a, _) => (c - a) mod 10
  | None => 0
  end.

(** [str.lower], one character.  U+0130 gives two code points.
    Simplification: CPython lowers a word-final U+03A3 (capital sigma) to
    U+03C2; this model always gives U+03C3. *)
Definition lower_cp (c : N) : pystr :=
  if c =? 304 then [105; 775] else
  match find (fun r => match r with (a, b, st, _) => (a <=? c) && (c <=? b) && ((c - a) mod st =? 0) end) lower_runs with
  | Some (_, _, _, d) => [Z.to_N (Z.of_N c + d)]
  | None => [c]
  end.

(** [str.lower()] *)
Definition lower (s : pystr) : pystr := flat_map lower_cp s.

(** ** Prefixes, search *)
Fixpoint starts_with (p s : pystr) : bool :=
  match p, s with
  | [], _ => true
  | x :: p', y :: s' => (x =? y) && starts_with p' s'
  | _ :: _, [] => false
  end.

(** [s.endswith(p)] *)
Definition ends_with (p s : pystr) : bool := starts_with (rev p) (rev s).

(** [p in s] *)
Fixpoint contains (p s : pystr) : bool :=
  starts_with p s || match s with [] => false | _ :: s' => contains p s' end.

(** [s.find(p)]: index of the first occurrence, [None] for -1. *)
Fixpoint find_str (p s : pystr) : option nat :=
  if starts_with p s then Some O else
  match s with [] => None | _ :: s' => option_map S (find_str p s') end.

(** [s.rfind(p)]: index of the last occurrence, [None] for -1. *)
Fixpoint rfind_str (p s : pystr) : option nat :=
  match s with
  | [] => if starts_with p [] then Some O else None
  | _ :: s' => match rfind_str p s' with
               | Some k => Some (S k)
               | None => if starts_with p s then Some O else None
               end
  end.

(** [s.count(c)] for a single character *)
Definition count_cp (c : N) (s : pystr) : nat := List.length (filter (N.eqb c) s).

(** ** [s.replace(old, new)], non-empty [old]: leftmost, non-overlapping.
    [k] is the number of characters of the current occurrence still to skip. *)
Fixpoint replace_go (old new : pystr) (k : nat) (s : pystr) : pystr :=
  match s with
  | [] => []
  | c :: s' =>
    match k with
    | S k' => replace_go old new k' s'
    | O => if starts_with old s then new ++ replace_go old new (List.length old - 1) s'
           else c :: replace_go old new O s'
    end
  end.
Definition replace (old new s : pystr) : pystr := replace_go old new O s.

(** ** [s.split(sep)], non-empty [sep] *)
Fixpoint split_go (sep : pystr) (k : nat) (s : pystr) (cur : pystr) : list pystr :=
  match s with
  | [] => [rev cur]
  | c :: s' =>
    match k with
    | S k' => split_go sep k' s' cur
    | O => if starts_with sep s then rev cur :: split_go sep (List.length sep - 1) s' []
           else split_go sep O s' (c :: cur)
    end
  end.
Definition split_on (sep s : pystr) : list pystr := split_go sep O s [].

(** ** [s.strip()] and [s.strip(" ")] *)
Fixpoint lstrip_by (p : N -> bool) (s : pystr) : pystr :=
  match s with
  | [] => []
  | c :: s' => if p c then lstrip_by p s' else s
  end.
Definition strip_by (p : N -> bool) (s : pystr) : pystr :=
  rev (lstrip_by p (rev (lstrip_by p s))).
Definition strip (s : pystr) : pystr := strip_by is_space s.
Definition strip_sp (s : pystr) : pystr := strip_by (N.eqb 32) s.

(** [s[1:-1]] *)
Definition mid (s : pystr) : pystr := removelast (tl s).

(** ** Decimal printing: [str(n)] for an integer *)
Fixpoint digits_go (fuel : nat) (n : N) (acc : pystr) : pystr :=
  match fuel with
  | O => acc
  | S f => if n <? 10 then (48 + n) :: acc else digits_go f (n / 10) ((48 + n mod 10) :: acc)
  end.
Definition dec_N (n : N) : pystr := digits_go (S (N.size_nat n)) n [].
Definition dec_Z (z : Z) : pystr :=
  match z with
  | Z0 => [48]
  | Zpos p => dec_N (Npos p)
  | Zneg p => 45 :: dec_N (Npos p)
  end.

(** Value of a string of decimal digit characters ([int(s)]), Horner. *)
Definition int_of_digits (s : pystr) : N :=
  fold_left (fun acc c => acc * 10 + digit_value c) s 0.
