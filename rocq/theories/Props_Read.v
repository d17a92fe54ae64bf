(** Properties C102-C106: what written binders, relations, repeated exponents and separators are read as (/repo/latex2sympy/PS.g4, latex2sympy2.py). *)
From Coq Require Import String List NArith ZArith QArith Qcanon Bool Lia.
From Verif Require Import PyStr Regex RegexTheory Normalize Monad L2S L2SValue L2SCalc CalcFindings DemoL2S DemoCalc
  Lexer Grammar GrammarFindings Arith ArithLex Written WrittenMore WrittenValue Props_Grammar.
Import ListNotations.
Local Close Scope Qc_scope. Local Close Scope Q_scope.
Local Open Scope N_scope.
Local Ltac vm := vm_compute; reflexivity.
Local Notation rules O := (forall s t, parse_text s = Found t -> o_parse _ O s = Ret t).

(** ** C102: sums, products and limits, from text to value *)
Theorem C102_binders gap A (K : calculus A) V (O : LSympy V) den rho vs n b e st : gap = [] \/ gap = [32] ->
  faithful_calc K V den vs (o_md5 _ O) O -> rules O -> binder_wf b -> wf e -> g_var st = [] ->
  exists v, fst (latex2sympy O (Datatypes.S n) (bound_latex gap b e) vs st) = Ret (LV v) /\ worth V (den rho) O v (bound_value K rho b e).
Proof. exact (latex2sympy_bound gap K V O den rho vs n b e st). Qed.
Print Assumptions C102_binders.
Theorem C102_limit_from_above gap A (K : calculus A) V (O : LSympy V) den rho vs n x ds e st : gap = [] \/ gap = [32] ->
  faithful_calc K V den vs (o_md5 _ O) O -> rules O -> In x symbols -> numeral ds -> wf e -> g_var st = [] ->
  exists v w, fst (latex2sympy O (Datatypes.S n) (u "\lim_{" ++ x ++ u "\to " ++ ds ++ u "}" ++ gap ++ factors gap e) vs st) = Ret (LV v) /\
    fst (latex2sympy O (Datatypes.S n) (u "\lim_{" ++ x ++ u "\to " ++ ds ++ u "^{+}}" ++ gap ++ factors gap e) vs st) = Ret (LV w) /\
    let above := limit K false (fun k => value K (update rho (sym_name x) k) e) (int_value K ds) in worth V (den rho) O v above /\ worth V (den rho) O w above.
Proof. exact (limit_from_above gap K V O den rho vs n x ds e st). Qed.
Print Assumptions C102_limit_from_above.
Example C102_met : faithful_calc QcCalc ex den2 [] (o_md5 _ OG) OG /\ rules OG.
Proof. split; [apply ESympy_calc; intros x v []|apply (C77_met (fun _ => Q2Qc 0))]. Qed.
(* the sum takes the product, and stops at the plus sign *)
Definition b102 : binder := BSum (u "k") (num "1") (Bin Plus (Sym (u "n")) (num "1")).
Definition e102 : arith := Bin Cdot (Sym (u "k")) (Bin Plus (Sym (u "k")) (num "2")).
Example C102_ex : binder_wf b102 /\ wf e102 /\ bound_latex [] b102 e102 = u "\sum_{k=1}^{n+1}k\cdot(k+2)" /\
  bound_value QcCalc (fun _ => Q2Qc 2) b102 e102 = Q2Qc 26 /\
  exists v, fst (latex2sympy OG 3 (bound_latex [] b102 e102) [] fresh) = Ret (LV v) /\ den2 (fun _ => Q2Qc 2) v = Q2Qc 26.
Proof.
  split; [split; [cbn; tauto|]; cbn; repeat split; try (repeat constructor; discriminate); try tauto; discriminate|].
  split; [cbn; repeat split; try tauto; try (repeat constructor; discriminate); discriminate|]. split; [vm|]. split; [apply Qc_is_canon; vm|].
  eexists. split; [vm|]. apply Qc_is_canon. vm.
Qed.

(** ** C103: chains of relations are nested to the left *)
Theorem C103_relations gap A (K : arithmetic A) V (O : LSympy V) den rho vs n e l st : gap = [] \/ gap = [32] ->
  faithful K V den rho vs (o_md5 _ O) O -> rules O -> chain_wf gap e l -> g_var st = [] ->
  exists v ws, worth V den O v (value K rho e) /\ Forall2 (fun p w => worth V den O w (value K rho (snd p))) l ws /\
    fst (latex2sympy O (Datatypes.S n) (chain_latex gap e l) vs st) = related O v (combine (map (fun p => snd (fst p)) l) ws).
Proof. exact (latex2sympy_chain gap K V O den rho vs n e l st). Qed.
Print Assumptions C103_relations.
Definition l103 : list (pystr * lrel * arith) := [(u "<", RLt, Bin Plus (Sym (u "x")) (num "1")); (u "\leq", RLe, num "9")].
Example C103_ex : chain_wf [32] (num "0") l103 /\ chain_latex [32] (num "0") l103 = u "0< x+1\leq 9" /\
  fst (latex2sympy OG 3 (chain_latex [32] (num "0") l103) [] fresh) =
  Ret (LV (EF (u "relation") [EF (u "relation") [EQ (Q2Qc 0); EAdd [ES (u "x"); EQ (Q2Qc 1)]]; EQ (Q2Qc 9)])).
Proof. split; [cbn; repeat split; try tauto; try (repeat constructor; discriminate); discriminate|]. split; vm. Qed.

(** ** C104: a factorial before an equals sign is read as an inequality *)
Theorem C104_factorial_equals gap A (K : arithmetic A) V (O : LSympy V) den rho vs n e e' st : gap = [] \/ gap = [32] ->
  faithful K V den rho vs (o_md5 _ O) O -> rules O -> wf e -> wf e' -> (4 <= prec e)%nat -> g_var st = [] ->
  exists v w, worth V den O v (value K rho e) /\ worth V den O w (value K rho e') /\
    fst (latex2sympy O (Datatypes.S n) (body gap (Fact e) ++ u "=" ++ body gap e') vs st) = o_rel _ O RNe (LV v) (LV w).
Proof. exact (factorial_equals gap K V O den rho vs n e e' st). Qed.
Print Assumptions C104_factorial_equals.
Example C104_ex : body [] (Fact (num "5")) ++ u "=" ++ body [] (num "120") = u "5!=120" /\ wf (num "5") /\ (4 <= prec (num "5"))%nat /\
  parse_text (u "5!=120") = Found (MRel (RRel RNe (RExpr (TJuxt [TNumber (u "5")])) (RExpr (TJuxt [TNumber (u "120")])))).
Proof. split; [vm|]. split; [cbn; split; [repeat constructor; discriminate|discriminate]|]. split; [cbn; lia|vm]. Qed.

(** ** C105: repeated exponents are read from the left *)
Theorem C105_repeated_exponents gap A (K : arithmetic A) V (O : LSympy V) den rho vs n b es st : gap = [] \/ gap = [32] ->
  faithful K V den rho vs (o_md5 _ O) O -> rules O -> tower_wf b es -> g_var st = [] ->
  exists v, fst (latex2sympy O (Datatypes.S n) (tower_latex gap b es) vs st) = Ret (LV v) /\ worth V den O v (tower_value K rho b es).
Proof. exact (latex2sympy_tower gap K V O den rho vs n b es st). Qed.
Print Assumptions C105_repeated_exponents.
Definition s105 : list arith := [num "3"; num "2"].
Example C105_ex : tower_wf (num "2") s105 /\ tower_latex [] (num "2") s105 = u "2^{3}^{2}" /\ tower_value QcArith (fun _ => Q2Qc 0) (num "2") s105 = Q2Qc 64 /\
  value QcArith (fun _ => Q2Qc 0) (Pow (num "2") (Pow (num "3") (num "2"))) = Q2Qc 512.
Proof.
  split; [split; [|split; [|discriminate]]; repeat constructor; cbn; repeat split; try discriminate; repeat constructor; discriminate|].
  split; [vm|]. split; apply Qc_is_canon; vm.
Qed.

(** ** C106: thousands separators *)
Theorem C106_thousands A (K : arithmetic A) V (O : LSympy V) den rho vs n ds gs st :
  faithful K V den rho vs (o_md5 _ O) O -> rules O -> numeral ds -> Forall three gs -> gs <> [] -> g_var st = [] ->
  exists v, fst (latex2sympy O (Datatypes.S n) (grouped ds gs) vs st) = Ret (LV v) /\ worth V den O v (int_value K (ds ++ concat gs)).
Proof. exact (latex2sympy_grouped K V O den rho vs n ds gs st). Qed.
Print Assumptions C106_thousands.
Theorem C106_long_group A (K : arithmetic A) V (O : LSympy V) den rho vs n ds gs ds' st :
  faithful K V den rho vs (o_md5 _ O) O -> rules O -> numeral ds -> Forall three gs -> gs <> [] -> numeral ds' -> g_var st = [] ->
  exists v, fst (latex2sympy O (Datatypes.S n) (grouped ds gs ++ ds') vs st) = Ret (LV v) /\ worth V den O v (mul K (int_value K (ds ++ concat gs)) (int_value K ds')).
Proof. exact (latex2sympy_grouped_more K V O den rho vs n ds gs ds' st). Qed.
Print Assumptions C106_long_group.
Example C106_ex : grouped (u "1") [u "234"] = u "1,234" /\ numeral (u "1") /\ Forall three [u "234"] /\
  int_value QcArith (u "1" ++ concat [u "234"]) = Q2Qc 1234 /\
  exists v, fst (latex2sympy OG 3 (u "1,2345") [] fresh) = Ret (LV v) /\ DemoL2S.den (fun _ => Q2Qc 0) v = Q2Qc 6170.
Proof.
  split; [vm|]. split; [split; [repeat constructor; discriminate|discriminate]|]. split; [repeat constructor; discriminate|]. split; [apply Qc_is_canon; vm|].
  eexists. split; [vm|]. apply Qc_is_canon. vm.
Qed.
