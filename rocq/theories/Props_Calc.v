(** Properties C82-C85: sums, products, limits, integrals, derivatives and evaluations (/repo/latex2sympy/latex2sympy2.py). *)
From Coq Require Import String List NArith ZArith QArith Qcanon Bool Lia.
From Verif Require Import PyStr Regex RegexTheory Normalize Monad L2S L2SValue L2SCalc CalcFindings DemoL2S DemoCalc
  Lexer Grammar GrammarFindings Arith ArithLex Props_Grammar.
Import ListNotations.
Local Close Scope Qc_scope. Local Close Scope Q_scope.
Local Ltac vm := vm_compute; reflexivity.

(** ** C82 *)
Theorem C82_calculus A (K : calculus A) V (O : LSympy V) den rho vs t a n s st :
  faithful_calc K V den vs (o_md5 _ O) O -> o_parse _ O (prepare s) = Ret (MRel (RExpr t)) ->
  Means K V den vs (o_md5 _ O) rho t a -> g_var st = [] ->
  exists v, fst (latex2sympy O (S n) s vs st) = Ret (LV v) /\ worth V (den rho) O v a.
Proof. exact (latex2sympy_calculus K V O den rho vs t a n s st). Qed.
Print Assumptions C82_calculus.
(* a backend that meets the hypothesis *)
Example C82_met : faithful_calc QcCalc ex den2 [] (o_md5 _ OG) OG.
Proof. apply ESympy_calc. intros x v []. Qed.
(* a sum with a nested product: the bound variables *)
Definition var (s : string) : tree := TJuxt [TSymbol (NLetter (u s)) None None].
Definition t82 : tree := TJuxt [TSum false (var "i") (TJuxt [TNumber (u "1")]) (var "n")
  (TJuxt [TGroup (TAdd (var "i") (TJuxt [TSum true (var "j") (TJuxt [TNumber (u "1")]) (var "i") (var "j")]))])].
Definition f82 (n : Qc) : Qc := bigsum QcCalc (fun i => Qcplus i (bigprod QcCalc (fun j => j) (Q2Qc 1) i)) (Q2Qc 1) n.
Lemma reads_var (rho : pystr -> Qc) s : u s <> u "I" -> Reads QcCalc ex (den2 rho) rho [] (o_md5 _ OG) (var s) (rho (u s)).
Proof. intro H. apply R_juxt, R_one, R_symbol, nm_plain, ba_letter, H. Qed.
Lemma reads_one (rho : pystr -> Qc) : Reads QcCalc ex (den2 rho) rho [] (o_md5 _ OG) (TJuxt [TNumber (u "1")]) (Q2Qc 1).
Proof. apply R_juxt, R_one, (R_number QcCalc ex (den2 rho) rho [] (o_md5 _ OG) (u "1") (inject_Z 1)). apply (dec_int (u "1")); [repeat constructor; discriminate|discriminate]. Qed.
Example C82_ex rho : parse_text (u "\sum_{i=1}^{n}(i+\prod_{j=1}^{i}j)") = Found (MRel (RExpr t82)) /\
  Means QcCalc ex den2 [] (o_md5 _ OG) rho t82 (f82 (rho (u "n"))) /\ f82 (Q2Qc 4) = Q2Qc 43.
Proof.
  split; [vm|]. split; [|apply Qc_is_canon; vm].
  assert (VT : forall s, u s <> u "I" -> variable_tree (var s) (u s)) by (intros s H; apply vt_juxt, vt_symbol, nm_plain, ba_letter, H).
  apply M_juxt, M_one, (M_sum _ _ _ _ _ _ _ (u "i")); [apply VT; discriminate| |apply M_plain, reads_one|apply M_plain, reads_var; discriminate].
  intro i. apply M_juxt, M_one, M_group, M_add; [apply M_plain, (reads_var (update rho (u "i") i) "i"); discriminate|].
  apply M_juxt, M_one, (M_prod _ _ _ _ _ _ _ (u "j")); [apply VT; discriminate| |apply M_plain, reads_one|apply M_plain, (reads_var (update rho (u "i") i) "i"); discriminate].
  intro j. apply M_plain, (reads_var (update (update rho (u "i") i) (u "j") j) "j"). discriminate.
Qed.
Example C82_ex2 : exists v, fst (latex2sympy OG 3 (u "x^2|^{x=5}_{x=1}") [] fresh) = Ret (LV v) /\ den2 (fun _ => Q2Qc 2) v = Q2Qc 24.
Proof. eexists. split; [vm|]. apply Qc_is_canon. vm. Qed.

(** ** C83: bounds that are numbers are ignored *)
Theorem C83_bounds_ignored A (K : calculus A) V (O : LSympy V) den rho vs e a d q d' q' n s st :
  faithful_calc K V den vs (o_md5 _ O) O ->
  (forall d q v, decimal d q -> o_number _ O d = Ret v -> o_first_symbol _ O (LV v) = Ret None) ->
  Means K V den vs (o_md5 _ O) rho e a -> decimal (no_commas d) q -> decimal (no_commas d') q' ->
  o_parse _ O (prepare s) = Ret (MRel (RExpr (TJuxt [TAt e (Some (TJuxt [TNumber d], None)) (Some (TJuxt [TNumber d'], None))]))) -> g_var st = [] ->
  exists v, fst (latex2sympy O (S n) s vs st) = Ret (LV v) /\ worth V (den rho) O v (sub K a a).
Proof. exact (bounds_ignored K V O den rho vs e a d q d' q' n s st). Qed.
Print Assumptions C83_bounds_ignored.
Example C83_met d v : o_number _ OG d = Ret v -> o_first_symbol _ OG (LV v) = Ret None.
Proof. cbn [o_number o_first_symbol OG ESympy]. unfold ex_number. destruct (at_dot d) as [a [b|]]; destruct (forallb _ _); intros [= <-]; reflexivity. Qed.
Example C83_ex : parse_text (u "x|^{5}_{1}") =
    Found (MRel (RExpr (TJuxt [TAt (TSymbol (NLetter (u "x")) None None) (Some (TJuxt [TNumber (u "5")], None)) (Some (TJuxt [TNumber (u "1")], None))]))) /\
  exists v, fst (latex2sympy OG 3 (u "x|^{5}_{1}") [] fresh) = Ret (LV v) /\ den2 (fun _ => Q2Qc 2) v = Q2Qc 0.
Proof. split; [vm|]. eexists. split; [vm|]. apply Qc_is_canon. vm. Qed.

(** ** C84: the usual order of the bounds is refused *)
Theorem C84_lower_bound_first x y z : In x letters -> In y letters -> In z letters ->
  parse_text ([x] ++ u "|_{" ++ [y] ++ u "}^{" ++ [z] ++ u "}") = NoParse /\
  parse_text ([x] ++ u "|^{" ++ [z] ++ u "}_{" ++ [y] ++ u "}") =
    Found (MRel (RExpr (TJuxt [TAt (TSymbol (NLetter [x]) None None) (Some (one_letter [z], None)) (Some (one_letter [y], None))]))).
Proof. exact (lower_bound_first x y z). Qed.
Print Assumptions C84_lower_bound_first.
Example C84_ex : In 120%N letters /\ In 97%N letters /\ In 98%N letters /\ fst (latex2sympy OG 3 (u "x|_{a}^{b}") [] fresh) = Raise ValueError.
Proof. split; [unfold letters; cbn; tauto|]. split; [unfold letters; cbn; tauto|]. split; [unfold letters; cbn; tauto|]. vm. Qed.

(** ** C85: the style of fractions *)
Theorem C85_style V (O : LSympy V) s vs st : fraction_style s (g_frac st) (g_frac (snd (latex2sympy O 1 s vs st))).
Proof. exact (style_after_call O s vs st). Qed.
Print Assumptions C85_style.
Example C85_ex : g_frac (snd (latex2sympy OG 1 (u "\tfrac{1}{2}") [] fresh)) = u "\tfrac" /\ g_frac (snd (latex2sympy OG 1 (u "\dfrac{1}{2}") [] fresh)) = u "\dfrac".
Proof. split; vm. Qed.
Theorem C85_nested_refuted : exists V (O : LSympy V) n s, ~ fraction_style s (u "\frac") (g_frac (snd (latex2sympy O n s [] fresh))).
Proof.
  exists ex, OG, 2, (u "\max(\dfrac{1}{2},1)"). intros [_ H]. destruct H as [H _].
  - intros a b E. assert (contains (u "\tfrac") (u "\max(\dfrac{1}{2},1)") = true) as C; [|vm_compute in C; discriminate].
    rewrite E. apply PyStrTheory.contains_spec. eauto.
  - specialize (H (u "\max(") (u "{1}{2},1)") eq_refl). vm_compute in H. discriminate.
Qed.
Print Assumptions C85_nested_refuted.
