(** Python's [float]: IEEE-754 binary64 numbers as exact dyadic rationals, the
    literal reader [float(s)], printing [repr]/[str] and ['{:e}'.format].
    CPython reads and prints floats correctly rounded (Gay's dtoa), so every
    operation here is "exact rational, then one rounding". *)
From Coq Require Import String List NArith ZArith Bool Lia.
From Verif Require Import PyStr.
Import ListNotations.
Local Open Scope N_scope.

(** [FFin neg m e] is (-1)^neg * m * 2^e. *)
Inductive pyfloat := FNan | FInf (neg : bool) | FFin (neg : bool) (m : N) (e : Z).

Definition is_even (n : N) : bool := N.even n.

(** num/den rounded to the nearest integer, ties to even. *)
Definition round_half_even (num den : N) : N :=
  let q := num / den in
  let r := num mod den in
  match 2 * r ?= den with
  | Lt => q
  | Gt => q + 1
  | Eq => if is_even q then q else q + 1
  end.

(** num / (den * 2^e) as a fraction *)
Definition scale2 (num den : N) (e : Z) : N * N :=
  if (0 <=? e)%Z then (num, den * 2 ^ Z.to_N e) else (num * 2 ^ Z.to_N (- e), den).

(** Nearest binary64 to num/den (ties to even): mantissa and exponent, [None]
    on overflow to infinity. *)
Definition round_ratio (num den : N) : option (N * Z) :=
  if num =? 0 then Some (0, 0%Z) else
  let e0 := (Z.of_N (N.log2 num) - Z.of_N (N.log2 den) - 52)%Z in
  let (a0, b0) := scale2 num den e0 in
  let e1 := if a0 / b0 <? 2 ^ 52 then (e0 - 1)%Z else e0 in
  let e := Z.max e1 (-1074)%Z in
  let (a, b) := scale2 num den e in
  let m := round_half_even a b in
  let '(m, e) := if m =? 2 ^ 53 then (2 ^ 52, (e + 1)%Z) else (m, e) in
  if (971 <? e)%Z then None else Some (m, e).

Definition mk_float (neg : bool) (num den : N) : pyfloat :=
  match round_ratio num den with
  | Some (m, e) => FFin neg m e
  | None => FInf neg
  end.

(** Same number: [==] on finite floats (mantissas may be shifted). *)
Definition fin_eqb (m1 : N) (e1 : Z) (m2 : N) (e2 : Z) : bool :=
  let e := Z.min e1 e2 in
  (m1 * 2 ^ Z.to_N (e1 - e) =? m2 * 2 ^ Z.to_N (e2 - e)).

(** m * 2^e as a fraction *)
Definition ratio_of (m : N) (e : Z) : N * N := scale2 m 1 (- e).

(** [x / 100] *)
Definition div100 (x : pyfloat) : pyfloat :=
  match x with
  | FNan => FNan
  | FInf s => FInf s
  | FFin s m e => let (a, b) := ratio_of m e in mk_float s a (b * 100)
  end.

(** *** Reading *)

(** digit* , returning digits and rest *)
Fixpoint span_digits (s : pystr) : pystr * pystr :=
  match s with
  | c :: s' => if is_ascii_digit c then let (d, r) := span_digits s' in (c :: d, r) else ([], s)
  | [] => ([], [])
  end.

Definition ascii_int (s : pystr) : N := fold_left (fun acc c => acc * 10 + (c - 48)) s 0.

(** Value D * 10^e, correctly rounded.  The two early exits only avoid
    computing huge powers: the value is then certainly out of range. *)
Definition float_of_dec (neg : bool) (D : N) (e : Z) : pyfloat :=
  if D =? 0 then FFin neg 0 0%Z else
  let top := (Z.of_nat (length (dec_N D)) + e)%Z in
  if (310 <? top)%Z then FInf neg else
  if (top <? -330)%Z then FFin neg 0 0%Z else
  if (0 <=? e)%Z then mk_float neg (D * 10 ^ Z.to_N e) 1
  else mk_float neg D (10 ^ Z.to_N (- e)).

(** Underscores must stand between digits; they are dropped.
    (CPython [_Py_string_to_number_with_underscores].) *)
Fixpoint drop_underscores (prev : N) (s : pystr) : option pystr :=
  match s with
  | [] => if prev =? 95 then None else Some []
  | c :: s' =>
    if c =? 95 then
      if is_ascii_digit prev then drop_underscores c s' else None
    else
      if (prev =? 95) && negb (is_ascii_digit c) then None
      else option_map (cons c) (drop_underscores c s')
  end.

(** [_PyUnicode_TransformDecimalAndSpaceToASCII] *)
Definition to_ascii (c : N) : N :=
  if c <? 128 then c
  else if is_space c then 32
  else if is_digit c then 48 + digit_value c
  else 63.

Definition parse_exponent (s : pystr) : option Z :=
  (* s: what follows the mantissa *)
  match s with
  | [] => Some 0%Z
  | c :: s1 =>
    if (c =? 101) || (c =? 69) then
      let '(neg, s2) := match s1 with
                        | 43 :: t => (false, t)
                        | 45 :: t => (true, t)
                        | _ => (false, s1)
                        end in
      let (d, r) := span_digits s2 in
      match d, r with
      | _ :: _, [] => Some (if neg then - Z.of_N (ascii_int d) else Z.of_N (ascii_int d))%Z
      | _, _ => None
      end
    else None
  end.

Definition parse_unsigned (neg : bool) (s : pystr) : option pyfloat :=
  let low := lower s in
  if str_eqb low (u "inf") || str_eqb low (u "infinity") then Some (FInf neg)
  else if str_eqb low (u "nan") then Some FNan
  else
    let (i, r) := span_digits s in
    let '(f, r2) := match r with
                    | 46 :: t => span_digits t
                    | _ => ([], r)
                    end in
    match i ++ f with
    | [] => None
    | ds => match parse_exponent r2 with
            | Some e => Some (float_of_dec neg (ascii_int ds) (e - Z.of_nat (length f))%Z)
            | None => None
            end
    end.

(** [float(s)]: [None] is ValueError (the only exception on a [str]). *)
Definition py_float (s : pystr) : option pyfloat :=
  match drop_underscores 0 (strip (map to_ascii s)) with
  | None => None
  | Some t =>
    match t with
    | 43 :: t' => parse_unsigned false t'
    | 45 :: t' => parse_unsigned true t'
    | _ => parse_unsigned false t
    end
  end.

(** *** [int(round(x))]: None when it raises (nan, infinities). *)
Definition fin_round (m : N) (e : Z) : N := let (a, b) := ratio_of m e in round_half_even a b.
Definition int_round (x : pyfloat) : option Z :=
  match x with
  | FFin s m e => let n := Z.of_N (fin_round m e) in Some (if s then - n else n)%Z
  | _ => None
  end.

(** The double nearest to 1e-7 *)
Definition tol_1e7 : N * Z := (7555786372591432, (-76)%Z).

(** [abs(x - int(round(x))) <= 1e-7]; the subtraction is exact in binary64. *)
Definition float_is_int (x : pyfloat) : bool :=
  match x with
  | FFin _ m e =>
    let (a, b) := ratio_of m e in
    let n := round_half_even a b in
    let d := if n * b <=? a then a - n * b else n * b - a in
    d * 2 ^ 76 <=? fst tol_1e7 * b
  | _ => false
  end.

(** *** Printing *)

(** decimal point position: value = 0.ddd... * 10^decpt with non-zero first digit. *)
Fixpoint decpt_small (fuel : nat) (a b : N) (t : Z) : Z :=
  match fuel with
  | O => t
  | S f => if a <? b then decpt_small f (a * 10) b (t - 1)%Z else t
  end.
Definition decpt_of (a b : N) : Z :=
  if b <=? a then Z.of_nat (length (dec_N (a / b))) else decpt_small 400 a b 1%Z.

(** a/b * 10^t as a fraction *)
Definition scale10 (a b : N) (t : Z) : N * N :=
  if (0 <=? t)%Z then (a * 10 ^ Z.to_N t, b) else (a, b * 10 ^ Z.to_N (- t)).

Definition dec_reads_back (D : N) (e10 : Z) (m : N) (e : Z) : bool :=
  match float_of_dec false D e10 with
  | FFin _ m' e' => fin_eqb m' e' m e
  | _ => false
  end.

(** Shortest digit string that reads back, nearest if there are two
    (CPython repr, dtoa mode 0). Result: D and exponent with value D*10^e10. *)
Fixpoint shortest (fuel : nat) (k : Z) (m : N) (e : Z) (a b : N) (decpt : Z) : N * Z :=
  match fuel with
  | O => (0, 0%Z)
  | S f =>
    let (a', b') := scale10 a b (k - decpt)%Z in
    let lo := a' / b' in
    let e10 := (decpt - k)%Z in
    let okl := dec_reads_back lo e10 m e in
    let okh := dec_reads_back (lo + 1) e10 m e in
    if okl && (negb okh || (2 * (a' mod b') <=? b')) then (lo, e10)
    else if okh then (lo + 1, e10)
    else shortest f (k + 1)%Z m e a b decpt
  end.

Fixpoint strip_zeros_rev (s : pystr) : pystr :=
  match s with 48 :: s' => strip_zeros_rev s' | _ => s end.
Definition strip_zeros (s : pystr) : pystr := rev (strip_zeros_rev (rev s)).

Definition pad2 (n : N) : pystr := if n <? 10 then 48 :: dec_N n else dec_N n.
Definition exp_suffix (x : Z) : pystr :=
  101 :: (if (x <? 0)%Z then 45 else 43) :: pad2 (Z.abs_N x).

Definition zeros (n : nat) : pystr := repeat 48 n.

Definition repr_fin (m : N) (e : Z) : pystr :=
  if m =? 0 then u "0.0" else
  let (a, b) := ratio_of m e in
  let decpt0 := decpt_of a b in
  let (D, e10) := shortest 18 1%Z m e a b decpt0 in
  let full := dec_N D in
  let ds := strip_zeros full in
  let decpt := (Z.of_nat (length full) + e10)%Z in
  let k := Z.of_nat (length ds) in
  if (decpt <=? -4)%Z || (16 <? decpt)%Z then
    match ds with
    | d :: rest => d :: (match rest with [] => [] | _ => 46 :: rest end) ++ exp_suffix (decpt - 1)%Z
    | [] => []
    end
  else if (decpt <=? 0)%Z then u "0." ++ zeros (Z.to_nat (- decpt)) ++ ds
  else if (k <=? decpt)%Z then ds ++ zeros (Z.to_nat (decpt - k)) ++ u ".0"
  else firstn (Z.to_nat decpt) ds ++ 46 :: skipn (Z.to_nat decpt) ds.

(** [str(x)] *)
Definition float_str (x : pyfloat) : pystr :=
  match x with
  | FNan => u "nan"
  | FInf s => (if s then [45] else []) ++ u "inf"
  | FFin s m e => (if s then [45] else []) ++ repr_fin m e
  end.

(** ['{:e}'.format(x)] for finite x *)
Definition format_e_fin (m : N) (e : Z) : pystr :=
  if m =? 0 then u "0.000000e+00" else
  let (a, b) := ratio_of m e in
  let decpt := decpt_of a b in
  let (a', b') := scale10 a b (7 - decpt)%Z in
  let D := round_half_even a' b' in
  let '(D, decpt) := if D =? 10 ^ 7 then (10 ^ 6, (decpt + 1)%Z) else (D, decpt) in
  match dec_N D with
  | d :: rest => d :: 46 :: rest ++ exp_suffix (decpt - 1)%Z
  | [] => []
  end.
Definition format_e (x : pyfloat) : pystr :=
  match x with
  | FNan => u "nan"
  | FInf s => (if s then [45] else []) ++ u "inf"
  | FFin s m e => (if s then [45] else []) ++ format_e_fin m e
  end.

(** [x == 0] *)
Definition float_is_zero (x : pyfloat) : bool :=
  match x with FFin _ m _ => m =? 0 | _ => false end.
