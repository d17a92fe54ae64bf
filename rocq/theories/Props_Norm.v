(** Properties C20-C31 of string_normalize. *)
From Coq Require Import String List NArith ZArith QArith Bool Qabs Lia.
From Verif Require Import PyStr PyStrTheory NumTheory Regex Float64 FloatTheory Normalize Monad MonadTheory Split Eval Spec EvalTheory EvalTheory2 Demo.
From Verif Require Import NormTheory NormNum NormPct RegexFirst NormMixed NormSci NormTime ClockEquiv NormProps.
Import ListNotations.
Local Open Scope N_scope.
Local Ltac vm := vm_compute; reflexivity.
Local Ltac digs := match goal with |- Forall ?P ?l => let l' := eval vm_compute in l in change (Forall P l') end;
  repeat (apply Forall_cons; [unfold ascii_digit; lia|]); apply Forall_nil.

(** ** C20 *)
Theorem C20_integer_literals ints z : (- 2 ^ 53 <= z <= 2 ^ 53)%Z -> ints (dec_Z z) = dec_Z z ->
  string_normalize ints (dec_Z z) = NStr (dec_Z z).
Proof. exact (integer_literal ints z). Qed.
Print Assumptions C20_integer_literals.
Example C20_ex : string_normalize (fun x => x) (u "-9007199254740992") = NStr (u "-9007199254740992").
Proof. apply (C20_integer_literals (fun x => x) (-9007199254740992)); [lia|reflexivity]. Qed.
(** Whatever the backend prints for an integer literal is the normal form. *)
Theorem C20_any_backend ints z : (- 2 ^ 53 <= z <= 2 ^ 53)%Z -> string_normalize ints (dec_Z z) = NStr (ints (dec_Z z)).
Proof. exact (normalize_int ints z). Qed.
Print Assumptions C20_any_backend.
Example C20_ex2 : string_normalize (fun x => u "n" ++ x)%list (u "-12") = NStr (u "n-12").
Proof. apply (C20_any_backend _ (-12)). lia. Qed.

(** ** C21 *)
Theorem C21_large_integers_conflated W n z st : (2 ^ 53 < Z.abs z < 2 ^ 1023)%Z -> Z.odd z = true ->
  exists z', z' <> z /\ is_equiv W (S n) (Some (dec_Z z)) (Some (dec_Z z')) st = (Ret true, st).
Proof. exact (large_integers_conflated W n z st). Qed.
Print Assumptions C21_large_integers_conflated.
Example C21_ex : exists z', z' <> (2 ^ 53 + 1)%Z /\
  is_equiv counting_world 1 (Some (dec_Z (2 ^ 53 + 1))) (Some (dec_Z z')) O = (Ret true, O).
Proof. apply C21_large_integers_conflated; [lia|reflexivity]. Qed.
Theorem C21_witness W n st :
  is_equiv W (S n) (Some (u "9007199254740993")) (Some (u "9007199254740992")) st = (Ret true, st).
Proof. exact (large_integer_witness W n st). Qed.
Print Assumptions C21_witness.

(** ** C22 *)
Theorem C22_other_bases ints ds bs t : Forall ascii_digit ds -> ds <> [] -> base_written bs t ->
  string_normalize ints (ds ++ 95 :: t) = NSet [ds; dec_N (base_value (dec_value bs) ds)].
Proof. exact (normalize_base ints ds bs t). Qed.
Print Assumptions C22_other_bases.
(** [base_value] is the usual positional value. *)
Theorem C22_positional_value b ds : base_value b ds =
  fold_right N.add 0 (map (fun i => (nth i (rev ds) 48 - 48) * b ^ N.of_nat i) (seq 0 (length ds))).
Proof. exact (base_value_positional b ds). Qed.
Print Assumptions C22_positional_value.
Example C22_ex : string_normalize (fun x => x) (u "1021_{12}") = NSet [u "1021"; u "1753"].
Proof.
  apply (C22_other_bases _ (u "1021") (u "12") (u "{12}")); [|discriminate|].
  - digs.
  - apply (base_braces (u "12")); [digs|discriminate].
Qed.

(** ** C23 *)
Theorem C23_percentages ints x s f : marked x s -> In 37 s -> py_float x = Some f ->
  string_normalize ints s = NSet [float_str (div100 f); float_str f].
Proof. exact (normalize_pct ints x s f). Qed.
Print Assumptions C23_percentages.
Example C23_ex : string_normalize (fun x => x) (u "12.5\%") = NSet [u "0.125"; u "12.5"].
Proof.
  rewrite (C23_percentages _ (u "12.5") _ (FFin false 7036874417766400 (-49))); [vm| |cbn; tauto|vm].
  repeat (apply marked_chr; [discriminate|discriminate|]). apply marked_esc. constructor.
Qed.

(** ** C24 *)
Theorem C24_slash ints neg A B C k :
  Forall ascii_digit A -> A <> [] -> Forall ascii_digit B -> B <> [] -> Forall ascii_digit C -> C <> [] -> k <> O ->
  exists out q, string_normalize ints (sign neg ++ A ++ spaces k ++ B ++ 47 :: C) = NStr out /\
    expr_value out = Some q /\ (q == signed neg (nat_value A) + nat_value B / nat_value C)%Q.
Proof. exact (mixed_slash ints neg A B C k). Qed.
Print Assumptions C24_slash.
Theorem C24_frac ints neg A B C x y k :
  Forall ascii_digit A -> A <> [] -> frac_text B x -> frac_text C y ->
  exists out q, string_normalize ints (sign neg ++ A ++ spaces k ++ u "\frac" ++ x ++ y) = NStr out /\
    expr_value out = Some q /\ (q == signed neg (nat_value A) + nat_value B / nat_value C)%Q.
Proof. exact (mixed_frac ints neg A B C x y k). Qed.
Print Assumptions C24_frac.
(** Hence negative mixed numbers are misread. *)
Theorem C24_negative_misread ints A B C k :
  Forall ascii_digit A -> A <> [] -> Forall ascii_digit B -> Forall ascii_digit C -> k <> O -> (0 < dec_value B) -> (0 < dec_value C) ->
  exists out q, string_normalize ints (45 :: A ++ spaces k ++ B ++ 47 :: C) = NStr out /\ expr_value out = Some q /\
    ~ (q == - (nat_value A + nat_value B / nat_value C))%Q.
Proof. exact (negative_mixed ints A B C k). Qed.
Print Assumptions C24_negative_misread.
Example C24_ex : exists out q, string_normalize (fun x => x) (u "2 1/3") = NStr out /\ expr_value out = Some q /\ (q == 7 # 3)%Q.
Proof.
  destruct (C24_slash (fun x => x) false (u "2") (u "1") (u "3") 1) as (out & q & H1 & H2 & H3);
    [digs|discriminate|digs|discriminate|digs|discriminate|discriminate|].
  exists out, q. split; [exact H1|split; [exact H2|]]. rewrite H3. vm.
Qed.
Example C24_ex2 : exists out q, string_normalize (fun x => x) (u "-2\frac1{30}") = NStr out /\ expr_value out = Some q /\ (q == -59 # 30)%Q.
Proof.
  destruct (C24_frac (fun x => x) true (u "2") (u "1") (u "30") (u "1") (u "{30}") 0) as (out & q & H1 & H2 & H3).
  - digs.
  - discriminate.
  - apply (frac_digit 49). unfold ascii_digit; lia.
  - apply (frac_braces (u "30")); [digs|discriminate].
  - exists out, q. split; [exact H1|split; [exact H2|]]. rewrite H3. vm.
Qed.
Example C24_ex3 : exists out q, string_normalize (fun x => x) (u "-2 1/3") = NStr out /\ expr_value out = Some q /\
  ~ (q == - (nat_value (u "2") + nat_value (u "1") / nat_value (u "3")))%Q.
Proof.
  apply (C24_negative_misread (fun x => x) (u "2") (u "1") (u "3") 1);
    [digs|discriminate|digs|digs|discriminate|reflexivity|reflexivity].
Qed.

(** ** C25 *)
(** The normal form of an integer-valued literal with an exponent: seven digits, off by at most half a unit of the last one. *)
Theorem C25_seven_digits ints s neg m e : forallb sci_cp s = true -> In 101 s -> py_float s = Some (FFin neg m e) ->
  float_is_int (FFin neg m e) = true -> 0 < m ->
  exists d ds x, string_normalize ints s = NStr (sci_text neg d ds x) /\ format_e (FFin neg m e) = sign neg ++ d :: 46 :: ds ++ exp_suffix x /\
    length ds = 6%nat /\ ascii_digit d /\ d <> 48 /\ Forall ascii_digit ds /\
    (Qabs (scaled (dec_value (d :: ds)) (x - 6) - float_abs m e) <= (1 # 2) * Qpower 10 (x - 6))%Q.
Proof. exact (sci_normalize ints s neg m e). Qed.
Print Assumptions C25_seven_digits.
Theorem C25_conflated W n s1 s2 n1 m1 e1 n2 m2 e2 :
  forallb sci_cp s1 = true -> In 101 s1 -> py_float s1 = Some (FFin n1 m1 e1) -> float_is_int (FFin n1 m1 e1) = true -> 0 < m1 ->
  forallb sci_cp s2 = true -> In 101 s2 -> py_float s2 = Some (FFin n2 m2 e2) -> float_is_int (FFin n2 m2 e2) = true -> 0 < m2 ->
  format_e (FFin n1 m1 e1) = format_e (FFin n2 m2 e2) ->
  forall st, is_equiv W (S n) (Some s1) (Some s2) st = (Ret true, st).
Proof. exact (sci_equiv W n s1 s2 n1 m1 e1 n2 m2 e2). Qed.
Print Assumptions C25_conflated.
Theorem C25_witness W n st : is_equiv W (S n) (Some (u "12345671e1")) (Some (u "12345672e1")) st = (Ret true, st).
Proof. exact (sci_witness W n st). Qed.
Print Assumptions C25_witness.
Example C25_ex : exists d ds x, string_normalize (fun x => x) (u "-2.5e30") = NStr (sci_text true d ds x).
Proof.
  destruct (C25_seven_digits (fun x => x) (u "-2.5e30") true 8881784197001252 48) as (d & ds & x & H & _);
    [vm|cbn; tauto|vm|vm|lia|eauto].
Qed.
Example C25_ex2 : forall st, is_equiv counting_world 1 (Some (u "12345671e1")) (Some (u "123456720e0")) st = (Ret true, st).
Proof.
  apply (C25_conflated _ _ _ _ false (123456710 * 2 ^ 26) (-26) false (123456720 * 2 ^ 26) (-26)); try vm; cbn; tauto.
Qed.

(** ** C26 *)
(** [H:M] or [H:M:S], maybe am: the hour when the rest is zero, else the list. *)
Theorem C26_am ints H M So t : one_two H -> two M -> (forall s, So = Some s -> two s) -> time_tail false t ->
  string_normalize ints (clock H M So t) =
    NStr (match clock_rest M So with [] => ints (dec_N (num H)) | r => tight (map dec_N (num H :: r)) end).
Proof. exact (clock_am ints H M So t). Qed.
Print Assumptions C26_am.
Theorem C26_pm ints H M So t : one_two H -> two M -> (forall s, So = Some s -> two s) -> time_tail true t ->
  string_normalize ints (clock H M So t) =
    NSet (map (fun h => match clock_rest M So with [] => dec_N h | r => time_list (map dec_N (h :: r)) end)
            [num H mod 12; num H mod 12 + 12]).
Proof. exact (clock_pm ints H M So t). Qed.
Print Assumptions C26_pm.
Theorem C26_hour_am ints H k x : one_two H -> meridiem false x ->
  string_normalize ints (H ++ spaces k ++ x) = NStr (ints (dec_N (num H))).
Proof. exact (hour_am ints H k x). Qed.
Print Assumptions C26_hour_am.
Theorem C26_hour_pm ints H k x : one_two H -> meridiem true x ->
  string_normalize ints (H ++ spaces k ++ x) = NSet [dec_N (num H mod 12); dec_N (num H mod 12 + 12)].
Proof. exact (hour_pm ints H k x). Qed.
Print Assumptions C26_hour_pm.
(** A pm time is accepted for the am time with the same digits, and conversely. *)
Theorem C26_pm_for_am W n H M So t1 t2 : (forall x y st, exists b, fst (interval_compare W x y st) = Ret b) ->
  one_two H -> two M -> (forall s, So = Some s -> two s) -> clock_rest M So <> [] -> num H < 12 -> time_tail true t1 -> time_tail false t2 ->
  forall st, fst (is_equiv W (S (S n)) (Some (clock H M So t2)) (Some (clock H M So t1)) st) = Ret true.
Proof. exact (am_pm_equiv W n H M So t1 t2). Qed.
Print Assumptions C26_pm_for_am.
Theorem C26_am_for_pm W n H M So t1 t2 : (forall x y st, exists b, fst (interval_compare W x y st) = Ret b) ->
  one_two H -> two M -> (forall s, So = Some s -> two s) -> clock_rest M So <> [] -> num H < 12 -> time_tail true t1 -> time_tail false t2 ->
  forall st, fst (is_equiv W (S (S n)) (Some (clock H M So t1)) (Some (clock H M So t2)) st) = Ret true.
Proof. exact (pm_am W n H M So t1 t2). Qed.
Print Assumptions C26_am_for_pm.
Local Ltac hm := split; [digs|cbn; tauto].
Example C26_ex1 : string_normalize (fun x => x) (u "03:05:07\text{ A.M.}") = NStr (u "[3,5,7]").
Proof.
  apply (C26_am (fun x => x) (u "03") (u "05") (Some (u "07")) (u "\text{ A.M.}")); [hm|hm|intros s [= <-]; hm|].
  apply (tail_mer false 0). apply (mer_text false (u "\text{") (u "A.M.") 1 0); cbn; tauto.
Qed.
Example C26_ex2 : string_normalize (fun x => x) (u "12:30 pm") = NSet [u "[0, 30]"; u "[12, 30]"].
Proof.
  apply (C26_pm (fun x => x) (u "12") (u "30") None (u " pm")); [hm|hm|discriminate|].
  apply (tail_mer true 1). apply mer_bare. cbn; tauto.
Qed.
Example C26_ex3 : string_normalize (fun x => x) (u "3 pm") = NSet [u "3"; u "15"].
Proof. apply (C26_hour_pm (fun x => x) (u "3") 1 (u "pm")); [hm|apply mer_bare; cbn; tauto]. Qed.
Example C26_ex4 : string_normalize (fun x => x) (u "12am") = NStr (u "12").
Proof. apply (C26_hour_am (fun x => x) (u "12") 0 (u "am")); [hm|apply mer_bare; cbn; tauto]. Qed.
Example C26_ex5 : forall st, fst (is_equiv (table_world_rev []) 2 (Some (u "3:30am")) (Some (u "3:30 p.m.")) st) = Ret true.
Proof.
  apply (C26_pm_for_am (table_world_rev []) 0 (u "3") (u "30") None (u " p.m.") (u "am"));
    [intros; exists true; reflexivity|hm|hm|discriminate|discriminate|vm| |].
  - apply (tail_mer true 1), mer_bare. cbn; tauto.
  - apply (tail_mer false 0), mer_bare. cbn; tauto.
Qed.
(** Without its last dot, p.m is read as am. *)
Example C26_ex6 : string_normalize (fun x => x) (u "3:30 p.m") = NStr (u "[3,30]").
Proof.
  apply (C26_am (fun x => x) (u "3") (u "30") None (u " p.m")); [hm|hm|discriminate|].
  apply (tail_mer false 1), mer_bare. cbn; tauto.
Qed.
