(** /repo/math_evaluation/core/latex_normalize.py: string normalisation.

    Characters by code point: 32 space, 34 dquote, 36 $, 37 %, 38 ampersand, 40 41 ( ),
    44 comma, 45 -, 46 ., 47 /, 58 colon, 61 =, 91 93 [ ], 92 backslash, 94 ^, 95 _, 123 125 braces, 124 |.
    In Coq string literals a backslash is itself, so [u "\%"] is the two
    characters backslash, percent (Python ["\\%"]). *)
From Coq Require Import String List NArith ZArith Bool Lia.
From Verif Require Import PyStr Regex Float64 Constants.
Import ListNotations.
Local Open Scope N_scope.

Definition rs (s : string) : regex := rstr (u s).
Definition sp : regex := lit 32.
Definition digit : regex := RChr CDigit.
Definition bslash : N := 92.

(** Result of [string_normalize]: a string or a Python set of strings (given by
    the elements of the set display, duplicates possible). *)
Inductive norm := NStr (s : pystr) | NSet (l : list pystr).

(** latex_normalize.py:12-34 [_parse_latex] (never raises on [str]). *)
Definition parse_latex (expr : pystr) : pystr :=
  let expr := replace (u "\tfrac") (u "\frac") expr in
  let expr := replace (u "\cfrac") (u "\frac") expr in
  let expr := replace (u "\dfrac") (u "\frac") expr in
  let expr := replace (u "√") (u "sqrt") expr in
  let expr := replace (u "π") (u "pi") expr in
  let expr := replace (u "∞") (u "inf") expr in
  let expr := replace (u "∪") (u "U") expr in
  let expr := replace (u "·") (u "*") expr in
  let expr := replace (u "×") (u "*") expr in
  strip expr.

(** latex_normalize.py:58, the six alternatives in order *)
Definition imag_re : regex :=
  let i := lit 105 in
  let W := CNot CWord in
  RAlt (RGrp 1 (rseq [RBehind false CWord; i; RAhead false CWord]))
  (RAlt (RGrp 2 (rseq [RBehind true CSpace; i; RAhead true CSpace]))
  (RAlt (RGrp 3 (rseq [RBehind true CSpace; i; RAhead true W]))
  (RAlt (RGrp 4 (rseq [RBehind true W; i; RAhead true CSpace]))
  (RAlt (RGrp 5 (rseq [RBehind true W; i; RAhead true W]))
        (RGrp 6 (rseq [RBehind true CDigit; i])))))).

(** latex_normalize.py:37-62 [_str_to_complex] *)
Definition str_to_complex (s : pystr) : pystr :=
  if contains (u "I") s then replace (u "I") (u "\sqrt{-1}") s
  else if contains (u "i") s then re_sub imag_re [PLit (u "\sqrt{-1}")] s
  else s.

(** latex_normalize.py:65-70 [_is_float] *)
Definition is_float (s : pystr) : bool :=
  match py_float s with Some _ => true | None => false end.

(** latex_normalize.py:188: [\d{1,3}(?:, ?\d{3})+] *)
Definition digit3 : regex := rseq [digit; digit; digit].
Definition thousands_re : regex :=
  rseq [digit; ROpt (rseq [digit; ROpt digit]);
        RPlus (rseq [lit 44; ROpt sp; digit3])].
(** latex_normalize.py:187-189 [_strip_properly_formatted_commas] *)
Definition strip_commas (s : pystr) : pystr :=
  re_sub_fun thousands_re (fun g0 _ => replace [44] [] g0) s.

(** latex_normalize.py:88-94 [_str_is_int] *)
Definition str_is_int (x : pystr) : bool :=
  match py_float (strip_commas x) with
  | Some f => float_is_int f
  | None => false
  end.

(** latex_normalize.py:97-101 [_str_is_mat] *)
Definition str_is_mat (x : pystr) : bool := contains (u "matrix") x.

(** latex_normalize.py:116-123 [_str_matrix_normalize] *)
Definition str_matrix_normalize (expr : pystr) : pystr :=
  let expr := if contains (u "{cases}") expr then replace (u "{cases}") (u "{matrix}") expr else expr in
  let expr := if contains (u "{array}") expr then replace (u "{array}") (u "{matrix}") expr else expr in
  if negb (negb (contains (u "\\begin") expr) && contains (u "\begin") expr && contains (u "matrix") expr)
  then replace (u "\\") (u "\") expr
  else expr.

(** latex_normalize.py:170 [(\d+) +(\d+/\d+)] *)
Definition mixed_re1 : regex :=
  rseq [RGrp 1 (RPlus digit); RPlus sp; RGrp 2 (rseq [RPlus digit; lit 47; RPlus digit])].
(** latex_normalize.py:171 [(\d+) *(\\frac(\d|{\d+})(\d|{\d+}))] *)
Definition frac_arg : regex := RAlt digit (rseq [lit 123; RPlus digit; lit 125]).
Definition mixed_re2 : regex :=
  rseq [RGrp 1 (RPlus digit); RStarG sp; RGrp 2 (rseq [rs "\frac"; RGrp 3 frac_arg; RGrp 4 frac_arg])].
(** latex_normalize.py:161-176 [_inject_implicit_mixed_number] *)
Definition inject_mixed (expr : pystr) : pystr :=
  let t := [PGrp 1; PLit (u "+"); PGrp 2] in
  re_sub mixed_re2 t (re_sub mixed_re1 t expr).

(** latex_normalize.py:179-184 [_str_to_decimal], right to left as in the loop.
    CPython's 4300-digit limit on int/str conversion is not modelled. *)
Fixpoint to_decimal_go (base pw : N) (rdigits : pystr) (tot : N) : N :=
  match rdigits with
  | [] => tot
  | d :: r => to_decimal_go base (pw * base) r (tot + pw * digit_value d)
  end.
Definition str_to_decimal (digits base : pystr) : N :=
  to_decimal_go (int_of_digits base) 1 (rev digits) 0.

(** Case-insensitive literal (re.IGNORECASE); used only on letters of "text", a, p, m,
    which have no non-ASCII case variants. *)
Definition ci (c : N) : cls := COr (CLit c) (CLit (c - 32)).
Fixpoint rci (s : pystr) : regex :=
  match s with
  | [] => REps
  | c :: s' => RSeq (RChr (if (97 <=? c) && (c <=? 122) then ci c else CLit c)) (rci s')
  end.
Definition ap_m : regex :=   (* [ap]\.?m\.? *)
  rseq [RChr (COr (ci 97) (ci 112)); ROpt (lit 46); RChr (ci 109); ROpt (lit 46)].
Definition meridiem_re : regex :=  (* (?:\\text\{\s*[ap]\.?m\.?\s*\})|(?:[ap]\.?m\.?) *)
  RAlt (rseq [rci (u "\text{"); RStarG (RChr CSpace); ap_m; RStarG (RChr CSpace); lit 125]) ap_m.
(** latex_normalize.py:194 *)
Definition time_re1 : regex :=
  rseq [RBol; RGrp 1 (rseq [digit; ROpt digit]); RStarG (RChr CSpace); RGrp 2 meridiem_re; REol].
(** latex_normalize.py:206 *)
Definition time_re2 : regex :=
  rseq [RBol; RGrp 1 (rseq [digit; ROpt digit]); lit 58; RGrp 2 (rseq [digit; digit]);
        ROpt (rseq [lit 58; RGrp 3 (rseq [digit; digit])]);
        RStarG (RChr CSpace); ROpt (RGrp 4 meridiem_re); REol].

Definition is_pm (m : pystr) : bool :=
  contains (u "p.m.") (lower m) || contains (u "pm") (lower m).
Definition grp (n : nat) (st : mst) : pystr :=
  match group n (caps st) with Some s => s | None => [] end.

(** "[a, b]" and "[a, b, c]" *)
Definition time_list (l : list pystr) : pystr :=
  [91] ++ (fix go l := match l with
                       | [] => []
                       | [x] => x
                       | x :: l' => x ++ [44; 32] ++ go l'
                       end) l ++ [93].

(** latex_normalize.py:192-237 [_str_to_time_list] *)
Definition str_to_time_list (expr : pystr) : norm :=
  match re_search time_re1 expr with
  | Some st =>
    let hour := grp 1 st in
    if is_pm (grp 2 st)
    then NSet [dec_N (int_of_digits hour mod 12); dec_N (int_of_digits hour mod 12 + 12)]
    else NStr hour
  | None =>
    match re_search time_re2 expr with
    | Some st =>
      let hour := grp 1 st in
      let minute := dec_N (int_of_digits (grp 2 st)) in
      let pm := match group 4 (caps st) with Some m => is_pm m | None => false end in
      let h0 := dec_N (int_of_digits hour mod 12) in
      let h1 := dec_N (int_of_digits hour mod 12 + 12) in
      let h := dec_N (int_of_digits hour) in
      let sec := match group 3 (caps st) with Some s => int_of_digits s | None => 0 end in
      if negb (sec =? 0) then
        let second := dec_N sec in
        if pm then NSet [time_list [h0; minute; second]; time_list [h1; minute; second]]
        else NStr (time_list [h; minute; second])
      else if int_of_digits (grp 2 st) =? 0 then
        if pm then NSet [h0; h1] else NStr h
      else
        if pm then NSet [time_list [h0; minute]; time_list [h1; minute]]
        else NStr (time_list [h; minute])
    | None => NStr expr
    end
  end.

(** Pattern text of a unit: [.] is the wildcard, everything else literal
    (the unit is spliced unescaped into the pattern, line 342). *)
Fixpoint unit_pat (s : pystr) : regex :=
  match s with
  | [] => REps
  | c :: s' => RSeq (if c =? 46 then RChr CDot else lit c) (unit_pat s')
  end.
Definition plural : regex := ROpt (RAlt (rs "es") (rs "s")).       (* (es|s)? *)
Definition power : regex :=                                        (* (\^\d|\^{\d+})? *)
  ROpt (RAlt (rseq [lit 94; digit]) (rseq [rs "^{"; RPlus digit; lit 125])).
Definition power_plus : regex :=                                   (* (\^\d|\^{\d+}+)? *)
  ROpt (RAlt (rseq [lit 94; digit]) (rseq [rs "^{"; RPlus digit; RPlus (lit 125)])).
(** latex_normalize.py:342 and 344 ([cmd] is text or mbox) *)
Definition unit_text_re (cmd unit : pystr) : regex :=
  rseq [RPlus (lit bslash); rstr cmd; lit 123; RStarG (RChr CSpace); unit_pat unit; plural;
        RStarG sp; power; lit 125; RStarG sp; power].
(** latex_normalize.py:348 *)
Definition text_re : regex :=
  rseq [RPlus (lit bslash); rs "text{"; RPlus (RChr (COr (CRange 97 122) (COr (CRange 65 90) (CLit 32))));
        power; RStarG sp; lit 125; RStarG sp; power].
(** latex_normalize.py:356 *)
Definition unit_long_re (unit : pystr) : regex :=
  rseq [RStarG sp; unit_pat unit; plural; RStarG sp; power_plus].
(** latex_normalize.py:363 *)
Definition unit_short_re (unit : pystr) : regex :=
  rseq [RPlus sp; unit_pat unit; plural; RStarG sp; power_plus].

(** latex_normalize.py:341-345 *)
Definition del_text_units (expr : pystr) : pystr :=
  fold_left (fun e unit => re_del (unit_text_re (u "mbox") unit) (re_del (unit_text_re (u "text") unit) e))
            UNIT_LIST expr.
(** latex_normalize.py:355-357 *)
Definition del_long_units (expr : pystr) : pystr :=
  fold_left (fun e unit => re_del (unit_long_re unit) e) UNIT_LONG_LIST expr.
(** latex_normalize.py:362-364 *)
Definition del_short_units (expr : pystr) : pystr :=
  fold_left (fun e unit => re_del (unit_short_re unit) e) UNIT_SHORT_LIST expr.
(** latex_normalize.py:341-364 *)
Definition del_units (expr : pystr) : pystr :=
  del_short_units (del_long_units (re_del text_re (del_text_units expr))).

(** latex_normalize.py:368 *)
Definition circ_tail : regex :=
  rseq [lit 94; RStarG sp;
        RAlt (rseq [lit 123; RStarG sp; rs "\circ"; RStarG sp; lit 125]) (rs "\circ")].
Definition circ_re : regex := circ_tail.
(** latex_normalize.py:373 *)
Definition circ_num_re : regex :=
  rseq [RGrp 1 (RStarG digit); ROpt (RGrp 2 (rseq [lit 46; RPlus digit])); RStarG sp; circ_tail].

(** latex_normalize.py:422-432 [float_to_latex_scientific]; the only caller has
    already checked that [expr] is a float. *)
Definition float_to_latex_scientific (expr : pystr) : pystr :=
  match py_float expr with
  | Some num =>
    if float_is_zero num then expr
    else replace (u "e") (u "*10^{") (format_e num) ++ u "}"
  | None => expr
  end.

Section With_int_str.
(** [str(_str_to_int(x))] on strings for which [_str_is_int] holds
    (latex_normalize.py:104-109, 416-417): the value of latex2sympy on an
    integer literal, printed; never raises (bare except). *)
Variable int_str : pystr -> pystr.

(** latex_normalize.py:389-393 *)
Definition norm_int (expr : pystr) : pystr :=
  match py_float expr with
  | Some f =>
    if float_is_int f then
      if contains (u "e") expr then float_to_latex_scientific expr
      else match int_round f with Some z => dec_Z z | None => expr end
    else expr
  | None => expr
  end.

(** latex_normalize.py:384-419 [further_string_normalize] *)
Definition further (expr : pystr) : pystr :=
  let expr := if starts_with [123] expr && ends_with [125] expr then mid expr else expr in
  let expr := norm_int expr in
  let expr := if contains [bslash] expr then parse_latex expr else expr in
  let expr := re_sub (RSeq (lit 45) (RStarG sp)) [PLit (u "-")] expr in
  let expr := inject_mixed expr in
  let expr := replace [32] [] expr in
  let expr := lower expr in
  if str_is_int expr then int_str expr else expr.

(** latex_normalize.py:259 [^\\\s*(text|mbox){\s*(?P<text>.+?)}$]; group 2 is "text". *)
Definition text_wrap_re : regex :=
  rseq [RBol; lit bslash; RStarG (RChr CSpace); RGrp 1 (RAlt (rs "text") (rs "mbox")); lit 123;
        RStarG (RChr CSpace); RGrp 2 (RPlusLazy (RChr CAny)); lit 125; REol].
(** latex_normalize.py:265 [^\\{( .* )\|( .* )\\}$], spaces added *)
Definition set_builder_re : regex :=
  rseq [RBol; rs "\{"; RGrp 1 (RStarG (RChr CAny)); lit 124; RGrp 2 (RStarG (RChr CAny)); rs "\}"; REol].
(** latex_normalize.py:280 [^(\d+)_(?:(\d)|\{(\d+)\})$] *)
Definition base_re : regex :=
  rseq [RBol; RGrp 1 (RPlus digit); lit 95;
        RAlt (RGrp 2 digit) (rseq [lit 123; RGrp 3 (RPlus digit); lit 125]); REol].
(** latex_normalize.py:308 *)
Definition andor : regex := RAlt (rs "and") (rs "or").
Definition and_or_re : regex :=
  rseq [ROpt (lit 44); RStarG sp;
        RGrp 1 (RAlt (RGrp 2 (rseq [rs "\text{"; RStarG sp; RGrp 3 andor; RStarG sp; lit 125]))
                     (rseq [sp; RGrp 4 andor; sp]))].
(** latex_normalize.py:328 *)
Definition letter : regex := RChr (COr (CRange 97 122) (CRange 65 90)).
Definition in_re : regex := rseq [RPlus letter; RStarG (RChr CSpace); rs "\in"].

(** latex_normalize.py:271-277 *)
Definition del_tex_space (expr : pystr) : pystr :=
  let expr := re_del (rs "\:") expr in
  let expr := re_del (rs "\,") expr in
  let expr := re_del (rs "\;") expr in
  let expr := re_del (rs "\!") expr in
  re_sub (rs "{,}") [PLit (u ",")] expr.

(** latex_normalize.py:304-328 *)
Definition rewrite_words (expr : pystr) : pystr :=
  let expr := replace (u "\$") (u "$") expr in
  let expr := replace (u "$") [] expr in
  let expr := re_sub and_or_re [PLit (u " , ")] expr in
  let expr := replace (u "million") (u "*10^6") expr in
  let expr := replace (u "billion") (u "*10^9") expr in
  let expr := replace (u "trillion") (u "*10^12") expr in
  let expr := replace [12] (u "\f") expr in
  let expr := replace [8] (u "\b") expr in
  let expr := replace [7] (u "\a") expr in
  let expr := replace [9] (u "\t") expr in
  let expr := replace [13] (u "\r") expr in
  let expr := re_sub (rs "\left(") [PLit (u "(")] expr in
  let expr := re_sub (rs "\left[") [PLit (u "[")] expr in
  let expr := re_sub (rs "\right)") [PLit (u ")")] expr in
  let expr := re_sub (rs "\right]") [PLit (u "]")] expr in
  re_del in_re expr.

(** latex_normalize.py:367-381 *)
Definition norm_circ (expr : pystr) : norm :=
  if re_test circ_re expr then
    NSet [further (re_del circ_re expr);
          further (re_sub circ_num_re [PGrp 1; PGrp 2; PLit (u "/180*\pi")] expr)]
  else NStr (further expr).

(** latex_normalize.py:270-381: the part of [_string_normalize] after the
    recursive \text / set-builder cases. *)
Definition norm_tail (expr : pystr) : norm :=
  let expr := del_tex_space expr in
  match re_search base_re expr with
  | Some st =>
    let digits := grp 1 st in
    let base := match group 2 (caps st) with Some b => b | None => grp 3 st end in
    NSet [digits; dec_N (str_to_decimal digits base)]
  | None =>
    let expr1 := if contains (u "%") expr then replace (u "%") [] (replace (u "\%") (u "%") expr) else expr in
    match (if contains (u "%") expr then py_float expr1 else None) with
    | Some f => NSet [float_str (div100 f); float_str f]
    | None =>
      match str_to_time_list (rewrite_words expr1) with
      | NSet l => NSet l
      | NStr expr => norm_circ (del_units expr)
      end
    end
  end.

(** latex_normalize.py:240-268 [string_normalize] and the head of [_string_normalize].
    The only exception is the IndexError of [m.group(3)] at line 267 (the pattern
    has two groups), taken when the condition of {xxx | yyy} is empty: the
    handler at line 243 then returns the argument unchanged.
    Each recursive call is on a shorter string (see NormTheory: fuel is irrelevant). *)
Fixpoint norm_fuel (n : nat) (expr0 : pystr) : norm :=
  let expr := str_matrix_normalize (strip_sp expr0) in
  match re_search text_wrap_re expr with
  | Some st => match n with O => NStr expr0 | S n' => norm_fuel n' (grp 2 st) end
  | None =>
    match re_search set_builder_re expr with
    | Some st =>
      match grp 2 st with
      | [] => NStr expr0
      | cond => match n with O => NStr expr0 | S n' => norm_fuel n' cond end
      end
    | None => norm_tail expr
    end
  end.
Definition string_normalize (expr : pystr) : norm := norm_fuel (2 * List.length expr) expr.
End With_int_str.
