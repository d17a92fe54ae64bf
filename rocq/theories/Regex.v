(** Python's backtracking [re] engine for the pattern fragment used in /repo.

    [matches r st] lists every way in which [r] can match from state [st], in
    the order in which CPython's engine tries them; the engine's answer is the
    head of the list.  All repeated sub-patterns of /repo consume at least one
    character per iteration, so CPython's special treatment of empty iterations
    never applies; the model drops empty iterations. *)
From Coq Require Import List NArith Bool Lia.
From Verif Require Import PyStr.
Import ListNotations.
Local Open Scope N_scope.

(** Character classes *)
Inductive cls :=
| CLit (c : N)            (* the character c *)
| CRange (a b : N)        (* [a-b] *)
| CDigit                  (* \d *)
| CSpace                  (* \s *)
| CWord                   (* \w *)
| CDot                    (* . without DOTALL *)
| CAny                    (* . with DOTALL *)
| COr (a b : cls)         (* [ab] *)
| CNot (a : cls).         (* [^a], \W *)

Fixpoint cls_in (k : cls) (c : N) : bool :=
  match k with
  | CLit x => x =? c
  | CRange a b => (a <=? c) && (c <=? b)
  | CDigit => is_digit c
  | CSpace => is_space c
  | CWord => is_word c
  | CDot => negb (c =? 10)
  | CAny => true
  | COr a b => cls_in a c || cls_in b c
  | CNot a => negb (cls_in a c)
  end.

Inductive regex :=
| REps
| RChr (k : cls)
| RSeq (a b : regex)
| RAlt (a b : regex)
| RStar (greedy : bool) (a : regex)   (* a* or a*? *)
| RGrp (n : nat) (a : regex)          (* capturing group n *)
| RBol                                (* ^ *)
| REol                                (* $ : at the end or before a final newline *)
| RAhead (pos : bool) (k : cls)       (* (?=k) or (?!k) *)
| RBehind (pos : bool) (k : cls).     (* (?<=k) or (?<!k) *)

(** Matching state: characters before the position (nearest first), characters
    after it, captured groups (most recent first). *)
Record mst := MSt { before : pystr; after : pystr; caps : list (nat * pystr) }.

Definition at_end (s : pystr) : bool :=
  match s with [] => true | [c] => c =? 10 | _ => false end.

Fixpoint star_matches (m : mst -> list mst) (greedy : bool) (fuel : nat) (st : mst) : list mst :=
  match fuel with
  | O => [st]
  | S f =>
    let more := flat_map (star_matches m greedy f)
                  (filter (fun st' => Nat.ltb (length (after st')) (length (after st))) (m st)) in
    if greedy then more ++ [st] else st :: more
  end.

Fixpoint matches (r : regex) (st : mst) : list mst :=
  match r with
  | REps => [st]
  | RChr k =>
    match after st with
    | c :: s => if cls_in k c then [MSt (c :: before st) s (caps st)] else []
    | [] => []
    end
  | RSeq a b => flat_map (matches b) (matches a st)
  | RAlt a b => matches a st ++ matches b st
  | RStar g a => star_matches (matches a) g (length (after st)) st
  | RGrp n a =>
    map (fun st' => MSt (before st') (after st')
           ((n, firstn (length (after st) - length (after st')) (after st)) :: caps st'))
        (matches a st)
  | RBol => match before st with [] => [st] | _ => [] end
  | REol => if at_end (after st) then [st] else []
  | RAhead pos k =>
    let hit := match after st with c :: _ => cls_in k c | [] => false end in
    if Bool.eqb hit pos then [st] else []
  | RBehind pos k =>
    let hit := match before st with c :: _ => cls_in k c | [] => false end in
    if Bool.eqb hit pos then [st] else []
  end.

(** Derived forms *)
Definition ROpt (a : regex) : regex := RAlt a REps.                (* a?  *)
Definition RPlus (a : regex) : regex := RSeq a (RStar true a).     (* a+  *)
Definition RPlusLazy (a : regex) : regex := RSeq a (RStar false a). (* a+? *)
Definition RStarG (a : regex) : regex := RStar true a.             (* a*  *)
Definition lit (c : N) : regex := RChr (CLit c).
Fixpoint rstr (s : pystr) : regex :=                               (* literal text *)
  match s with
  | [] => REps
  | c :: s' => RSeq (lit c) (rstr s')
  end.
Fixpoint rseq (l : list regex) : regex :=
  match l with
  | [] => REps
  | r :: l' => RSeq r (rseq l')
  end.

(** Group lookup: [m.group(n)], [None] if the group did not take part. *)
Fixpoint group (n : nat) (l : list (nat * pystr)) : option pystr :=
  match l with
  | [] => None
  | (k, s) :: l' => if Nat.eqb k n then Some s else group n l'
  end.

(** First match at a given position. *)
Definition match_at (r : regex) (pre s : pystr) : option mst :=
  hd_error (matches r (MSt pre s [])).

(** [re.search]: leftmost position with a match. Returns the final state. *)
Fixpoint search_from (r : regex) (pre s : pystr) : option mst :=
  match match_at r pre s with
  | Some st => Some st
  | None => match s with [] => None | c :: s' => search_from r (c :: pre) s' end
  end.
Definition re_search (r : regex) (s : pystr) : option mst := search_from r [] s.
Definition re_test (r : regex) (s : pystr) : bool :=
  match re_search r s with Some _ => true | None => false end.

(** [re.sub(r, f, s)]: leftmost, non-overlapping matches, each replaced by [f]
    applied to the whole match and the groups.  No pattern substituted in /repo
    matches the empty string (proved in RegexTheory.v), so empty matches are skipped.
    [k] = characters of the current match still to skip. *)
Fixpoint sub_go (r : regex) (f : pystr -> list (nat * pystr) -> pystr)
                (k : nat) (pre s : pystr) : pystr :=
  match s with
  | [] => []
  | c :: s' =>
    match k with
    | S k' => sub_go r f k' (c :: pre) s'
    | O =>
      match match_at r pre s with
      | Some st =>
        let n := (length s - length (after st))%nat in
        match n with
        | O => c :: sub_go r f O (c :: pre) s'
        | S n' => f (firstn n s) (caps st) ++ sub_go r f n' (c :: pre) s'
        end
      | None => c :: sub_go r f O (c :: pre) s'
      end
    end
  end.
Definition re_sub_fun r f s := sub_go r f O [] s.

(** Replacement templates: literal text and group references (an unmatched
    group expands to the empty string, as in Python 3.5+). *)
Inductive piece := PLit (s : pystr) | PGrp (n : nat).
Definition expand (t : list piece) (cs : list (nat * pystr)) : pystr :=
  flat_map (fun p => match p with
                     | PLit s => s
                     | PGrp n => match group n cs with Some s => s | None => [] end
                     end) t.
Definition re_sub (r : regex) (t : list piece) (s : pystr) : pystr :=
  re_sub_fun r (fun _ cs => expand t cs) s.
Definition re_del (r : regex) (s : pystr) : pystr := re_sub r [] s.
