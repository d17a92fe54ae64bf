(** C117, C118: letters that run together; permutations *)
From Coq Require Import String List NArith ZArith QArith Qcanon Bool Lia.
From Verif Require Import PyStr Normalize Monad L2S L2STheory L2SValue L2SFindings Lexer Grammar Arith ArithLex DemoL2S Permute Props_Grammar.
Import ListNotations.
Local Close Scope Q_scope.
Local Open Scope N_scope.
Ltac vm := vm_compute; reflexivity.

(** ** C117: two letters next to each other, and the space between them *)
Theorem C117_pairs x y : In x letters -> In y letters ->
  parse_text [x; 32; y] = Found (MRel (RExpr (TJuxt [TSymbol (NLetter [x]) None None; TSymbol (NLetter [y]) None None]))) /\
  parse_text [x; y] = if str_eqb [x; y] (u "tr") then NoParse else parse_text [x; 32; y].
Proof. exact (two_letters x y). Qed.
Print Assumptions C117_pairs.
(* the normaliser makes a readable text unreadable *)
Theorem C117_normalizing_keeps_readable_refuted ints :
  exists s t s', parse_text s = Found t /\ string_normalize ints s = NStr s' /\ parse_text s' = NoParse.
Proof. exact (normalizing_unreadable ints). Qed.
Print Assumptions C117_normalizing_keeps_readable_refuted.
Example C117_ex : In 116 letters /\ In 114 letters /\ In 120 letters /\
  fst (latex2sympy OG 3 (u "t r") [] fresh) = Ret (LV (EMul [ES (u "t"); ES (u "r")])) /\ fst (latex2sympy OG 3 (u "tr") [] fresh) = Raise ValueError /\
  fst (latex2sympy OG 3 (u "tx") [] fresh) = Ret (LV (EMul [ES (u "t"); ES (u "x")])).
Proof. do 3 (split; [cbn; tauto|]). split; [vm|]. split; vm. Qed.

(** ** C118: permutations *)
Theorem C118_prepare s l E : Forall (simple_part [32]) l -> wf E -> with_fracs [32] s l = latex E -> prepare (with_perms [32] s l) = latex E.
Proof. exact (prepare_perms [32] (or_intror eq_refl) s l E). Qed.
Print Assumptions C118_prepare.
Theorem C118_in_context A (K : arithmetic A) V (O : LSympy V) den rho vs n s l E st :
  faithful K V den rho vs (o_md5 _ O) O -> (forall s t, parse_text s = Found t -> o_parse _ O s = Ret t) -> g_var st = [] ->
  Forall (simple_part [32]) l -> wf E -> with_fracs [32] s l = latex E ->
  exists v, fst (latex2sympy O (S n) (with_perms [32] s l) vs st) = Ret (LV v) /\ worth V den O v (value K rho E).
Proof. exact (latex2sympy_perms K V O den rho vs n s l E st). Qed.
Print Assumptions C118_in_context.
Theorem C118_value A (K : arithmetic A) V (O : LSympy V) den rho vs n e f st :
  faithful K V den rho vs (o_md5 _ O) O -> (forall s t, parse_text s = Found t -> o_parse _ O s = Ret t) -> g_var st = [] ->
  wf e -> wf f -> simple_text (latex e) -> simple_text (latex f) ->
  exists v, fst (latex2sympy O (S n) (u "(" ++ latex e ++ u ")_{" ++ latex f ++ u "}") vs st) = Ret (LV v) /\
    worth V den O v (div K (fn K (u "factorial") [value K rho e]) (fn K (u "factorial") [sub K (value K rho e) (value K rho f)])).
Proof. exact (latex2sympy_perm K V O den rho vs n e f st). Qed.
Print Assumptions C118_value.
Definition e118 : arith := Bin Plus (sym "n") (num "1").
Definition f118 : arith := Juxt (num "2") (sym "k").
Definition g118 : arith := Bin Cdot (Bin Plus (num "3") (perm_meant e118 f118)) (Sqrt (perm_meant (sym "m") (num "2"))).
Definition l118 : list perm_part := [(e118, f118, u ")\cdot \sqrt{"); (sym "m", num "2", u "}")].
Example C118_ex : Forall (simple_part [32]) l118 /\ wf g118 /\ with_fracs [32] (u "(3+") l118 = latex g118 /\ with_perms [32] (u "(3+") l118 = u "(3+(n+1)_{2 k})\cdot \sqrt{(m)_{2}}".
Proof.
  split; [unfold l118; do 2 (apply Forall_cons; [split; [|split; [|split; vm]]; cbn; repeat split; try (unfold symbols, letters, greeks; cbn; tauto); repeat constructor; discriminate|]); apply Forall_nil|]. split; [cbn; repeat split; try (unfold symbols, letters, greeks; cbn; tauto); repeat constructor; discriminate|].
  split; vm.
Qed.
Example C118_ex2 : fst (latex2sympy OG 3 (u "(5)_{2}") [] fresh) = fst (latex2sympy OG 3 (u "\frac{(5)!}{((5)-(2))!}") [] fresh) /\ exists v, fst (latex2sympy OG 3 (u "(5)_{2}") [] fresh) = Ret v.
Proof. split; [vm|]. eexists. vm. Qed.
