(** Properties C50-C53 and C65-C71: the LaTeX to SymPy converter (/repo/latex2sympy/latex2sympy2.py). *)
From Coq Require Import String List NArith ZArith QArith Qcanon Bool Lia.
From Verif Require Import PyStr PyStrTheory Regex Normalize Monad MonadTheory NumTheory SplitTheory
  L2S L2STheory L2SState L2SReject L2SValue L2SFindings DemoL2S.
Import ListNotations.
Local Close Scope Qc_scope. Local Close Scope Q_scope.
Local Open Scope mon_scope.
Local Ltac vm := vm_compute; reflexivity.

(** ** C50 *)
Theorem C50_earlier_values V (O : LSympy V) n s vs st vs' :
  fst (latex2sympy O n s vs {| g_real := g_real st; g_frac := g_frac st; g_variances := g_variances st; g_var := g_var st;
                               g_values := vs'; g_diff := g_diff st; g_partial := g_partial st |}) = fst (latex2sympy O n s vs st).
Proof. exact (values_of_the_call O n s vs st vs'). Qed.
Print Assumptions C50_earlier_values.
Theorem C50_values_of_the_call V (O : LSympy V) h h' n s vs :
  g_real (after O h fresh) = g_real (after O h' fresh) -> g_variances (after O h fresh) = g_variances (after O h' fresh) ->
  g_var (after O h fresh) = g_var (after O h' fresh) -> g_diff (after O h fresh) = g_diff (after O h' fresh) ->
  g_partial (after O h fresh) = g_partial (after O h' fresh) ->
  fst (latex2sympy O n s vs (after O h fresh)) = fst (latex2sympy O n s vs (after O h' fresh)).
Proof. exact (same_globals O n s vs (after O h fresh) (after O h' fresh)). Qed.
Print Assumptions C50_values_of_the_call.
Theorem C50_value_used V (O : LSympy V) n s vs name v st :
  o_parse _ O (prepare s) = Ret (MRel (RExpr (TVariable (u "\variable{" ++ name ++ u "}")))) -> lookup_s vs name = Some (PSym v) ->
  fst (latex2sympy O (S n) s vs st) = Ret (LV v).
Proof. exact (variable_used O n s vs name v st). Qed.
Print Assumptions C50_value_used.
Theorem C50_kept V (O : LSympy V) n : (forall s m, o_parse _ O s = Ret m -> no_derivative m) ->
  forall s vs st v st', latex2sympy O n s vs st = (Ret v, st') -> g_values st' = vs.
Proof. exact (values_kept O n). Qed.
Print Assumptions C50_kept.
(** Finding: a derivative fraction forgets them *)
Theorem C50_forgotten V (O : LSympy V) n text du dl up lo st v st' name : differentiates text du dl ->
  conv O (latex2sympy O n) (TFrac up lo du dl) st = (Ret v, st') ->
  conv O (latex2sympy O n) (TVariable (u "\variable{" ++ name ++ u "}")) st' = (Ret (LV (o_symbol _ O (name ++ o_md5 _ O name) (g_real st'))), st').
Proof. exact (variable_after_derivative O n text du dl up lo st v st' name). Qed.
Print Assumptions C50_forgotten.
Definition d_dx : tree := TFrac (TJuxt [letter "d"; letter "f"]) (TDiff (u "dx")) (UText false (u "df")) (DDiff (u "dx")).
Definition texts50 : list (string * mtree) :=
  [("\frac{df}{dx}+\variable{a}"%string, expr (TAdd d_dx (TVariable (u "\variable{a}"))));
   ("\variable{a}+\frac{df}{dx}"%string, expr (TAdd (TVariable (u "\variable{a}")) d_dx));
   ("\variable{a}"%string, expr (TVariable (u "\variable{a}")));
   ("f"%string, expr (letter "f"))].
Definition O50 := ESympy (table texts50).
Definition a_is n : list (pystr * pv ex) := [(u "a", PSym (EQ (Q2Qc (inject_Z n))))].
Example C50_ex : fst (latex2sympy O50 3 (u "\variable{a}+\frac{df}{dx}") (a_is 5) (snd (latex2sympy O50 3 (u "\variable{a}") (a_is 4) fresh))) =
    Ret (LV (EAdd [EQ (Q2Qc 5); EF (u "Derivative") [ES (u "f"); ES (u "x")]])) /\
  fst (latex2sympy O50 3 (u "\frac{df}{dx}+\variable{a}") (a_is 5) fresh) =
    Ret (LV (EAdd [EF (u "Derivative") [ES (u "f"); ES (u "x")]; ES (u "a_a")])) /\
  differentiates (u "f") (UText false (u "df")) (DDiff (u "dx")).
Proof. split; [vm|]. split; [vm|]. exists false. reflexivity. Qed.

(** ** C51 *)
Theorem C51_declarations_only V (O : LSympy V) h h' st0 n s vs v v' : g_var st0 = [] -> g_variances st0 = [] ->
  g_var (after O h st0) = g_var (after O h' st0) -> g_variances (after O h st0) = g_variances (after O h' st0) ->
  fst (latex2sympy O n s vs (after O h st0)) = Ret v -> fst (latex2sympy O n s vs (after O h' st0)) = Ret v' -> v = v'.
Proof. exact (declarations_only O h h' st0 n s vs v v'). Qed.
Print Assumptions C51_declarations_only.
Theorem C51_fresh V (O : LSympy V) h n s vs v : g_var (after O h fresh) = [] ->
  fst (latex2sympy O n s vs fresh) = Ret v -> fst (latex2sympy O n s vs (after O h fresh)) = Ret v.
Proof. exact (fresh_result O h n s vs v). Qed.
Print Assumptions C51_fresh.
Definition rows_of (m : tree) : tree := TFunc (u "operatorname") (u "rows") None None m.
Definition texts51 : list (string * mtree) :=
  [("\operatorname{rows}M A"%string, expr (TJuxt [rows_of (TMatrix [[letter "x"]] []); letter "A"]));
   ("A"%string, expr (letter "A"));
   ("\frac{d}{dx}f"%string, expr (TJuxt [TFrac (letter "d") (TDiff (u "dx")) (UOperator false) (DDiff (u "dx")); letter "f"]));
   ("A\in R^{2*3}"%string, MRel (RIn (RExpr (letter "A")) (RExpr (TSymbol (NLetter (u "R")) None (Some (TTimes (digit "2") (digit "3")))))))].
Definition O51 := ESympy (table texts51).
Definition call_of (s : string) : a_call := {| c_fuel := 3; c_text := u s; c_values := @nil (pystr * pv ex) |}.
Example C51_ex : g_var (after O51 [call_of "\frac{d}{dx}f"; call_of "oops"] fresh) = [] /\
  fst (latex2sympy O51 3 (u "A") [] (after O51 [call_of "\frac{d}{dx}f"; call_of "oops"] fresh)) = Ret (LV (ES (u "A"))).
Proof. split; [vm|]. apply C51_fresh; vm. Qed.
(** Declarations do matter *)
Theorem C51_depends_on_declarations : exists V (O : LSympy V) h n s v v', v <> v' /\
  fst (latex2sympy O n s [] fresh) = Ret v /\ fst (latex2sympy O n s [] (after O h fresh)) = Ret v'.
Proof.
  exists ex, O51, [call_of "A\in R^{2*3}"], 3, (u "A"). eexists _, _. split; [|split; vm]. discriminate.
Qed.
Print Assumptions C51_depends_on_declarations.
(** Finding: the converse of C51_fresh fails, because flags set by fractions survive the call. *)
Theorem C51_flags_leak_refuted : exists V (O : LSympy V) h n s v e, g_var (after O h fresh) = [] /\
  fst (latex2sympy O n s [] fresh) = Raise e /\ fst (latex2sympy O n s [] (after O h fresh)) = Ret v.
Proof.
  exists ex, O51, [call_of "\frac{d}{dx}f"], 3, (u "\operatorname{rows}M A"). eexists _, _. split; [vm|split; vm].
Qed.
Print Assumptions C51_flags_leak_refuted.

(** ** C52 *)
Theorem C52_value A (K : arithmetic A) V (O : LSympy V) den rho vs t a n s st : faithful K V den rho vs (o_md5 _ O) O ->
  o_parse _ O (prepare s) = Ret (MRel (RExpr t)) -> Reads K V den rho vs (o_md5 _ O) t a -> g_var st = [] ->
  exists v, fst (latex2sympy O (S n) s vs st) = Ret (LV v) /\ den v = a.
Proof.
  exact (fun F Hp R E => match latex2sympy_value K V O den rho vs t a n s st F Hp R E with ex_intro _ v (conj H W) => ex_intro _ v (conj H (proj2 W)) end).
Qed.
Print Assumptions C52_value.
(** 2x^3 - \frac{1}{2} - |y-1,000| + \sin^{2} x, with the factor order and the nesting of the grammar *)
Definition t52 : tree :=
  TAdd (TSub (TSub (TJuxt [digit "2"; TSymbol (NLetter (u "x")) None (Some (digit "3"))])
                   (TFrac (digit "1") (digit "2") (UText false (u "1")) DNone))
             (TAbs (TSub (letter "y") (digit "1,000"))))
       (TFunc (u "sin") [] None (Some (digit "2")) (letter "x")).
Definition s52 : string := "2x^3-\frac{1}{2}-|y-1,000|+\sin^{2} x".
Definition O52 := ESympy (table [(s52, expr t52)]).
Definition rho52 (s : pystr) : Qc := if str_eqb s (u "x") then Q2Qc 3 else Q2Qc 7.
Lemma number52 (d : string) q : (q == inject_Z (Z.of_N (dec_value (no_commas (u d)))))%Q -> Forall ascii_digit (no_commas (u d)) -> no_commas (u d) <> [] ->
  Reads QcArith ex (den rho52) rho52 [] (o_md5 _ O52) (digit d) (Q2Qc q).
Proof.
  intros Hq F N. replace (Q2Qc q) with (Q2Qc (inject_Z (Z.of_N (dec_value (no_commas (u d)))))).
  - apply R_number. apply dec_int; assumption.
  - apply Qc_is_canon. cbn [this Q2Qc]. rewrite !Qred_correct. symmetry. exact Hq.
Qed.
Local Ltac digits := first [reflexivity | vm_compute; discriminate | vm_compute; repeat constructor; discriminate ].
Example C52_ex : exists v, fst (latex2sympy O52 1 (u s52) [] fresh) = Ret (LV v) /\ den rho52 v = Q2Qc (- (1781 # 2)).
Proof.
  replace (Q2Qc (- (1781 # 2))) with
    (Qcplus (Qcminus (Qcminus (Qcmult (Q2Qc 2) (qc_power (rho52 (u "x")) (Q2Qc 3))) (Qcdiv (Q2Qc 1) (Q2Qc 2)))
                     (qc_fn (u "Abs") [Qcminus (rho52 (u "y")) (Q2Qc 1000)]))
            (qc_power (qc_fn (u "sin") [rho52 (u "x")]) (Q2Qc 2))) by (apply Qc_is_canon; vm).
  apply (C52_value Qc QcArith ex O52 (den rho52) rho52 [] t52); [apply ESympy_faithful; intros ? ? []|vm| |reflexivity].
  unfold t52. apply (R_add QcArith). 1: apply (R_sub QcArith). 1: apply (R_sub QcArith).
  - apply (R_juxt QcArith), (R_more QcArith); [apply number52; digits|]. apply (R_one QcArith).
    apply (R_power_symbol QcArith) with (x := u "x"); [constructor; constructor; discriminate|apply number52; digits].
  - apply (R_frac QcArith); apply number52; digits.
  - apply (R_abs QcArith), (R_sub QcArith); [|apply number52; digits].
    apply (R_symbol QcArith) with (x := u "y"). constructor; constructor; discriminate.
  - apply (R_trig_power QcArith); [left; reflexivity| |apply number52; digits| |].
    + apply (R_symbol QcArith) with (x := u "x"). constructor; constructor; discriminate.
    + intro H. apply (f_equal this) in H. vm_compute in H. discriminate.
    + intro H. apply (f_equal this) in H. vm_compute in H. discriminate.
Qed.

(** ** C53 *)
Theorem C53_negated_matrix V (O : LSympy V) s t m : matrices O -> MatTree false t -> o_parse _ O (prepare s) = Ret m ->
  strictly_math (TMinus t) m -> forall n vs st, exists e st', latex2sympy O n s vs st = (Raise e, st').
Proof. exact (fun Mx Ht Hp Hs n vs st => rejected_anywhere O s (TMinus t) m Hp Hs (fun n => minus_matrix O Mx _ t Ht) n vs st I). Qed.
Print Assumptions C53_negated_matrix.
Theorem C53_minus_product V (O : LSympy V) s a t m : matrices O -> MatTree true t -> o_parse _ O (prepare s) = Ret m ->
  strictly_math (TSub a t) m -> forall n vs st, exists e st', latex2sympy O n s vs st = (Raise e, st').
Proof. exact (fun Mx Ht Hp Hs n vs st => rejected_anywhere O s (TSub a t) m Hp Hs (fun n => minus_product O Mx _ a t Ht) n vs st I). Qed.
Print Assumptions C53_minus_product.
Theorem C53_elementary V (O : LSympy V) s rows x ts m : o_parse _ O (prepare s) = Ret m ->
  strictly_math (TMatrix rows (x :: ts)) m -> forall n vs st, exists e st', latex2sympy O n s vs st = (Raise e, st').
Proof. exact (fun Hp Hs n vs st => rejected_anywhere O s (TMatrix rows (x :: ts)) m Hp Hs (fun n => elementary_transformation O _ rows x ts) n vs st I). Qed.
Print Assumptions C53_elementary.
Definition row12 : tree := TMatrix [[digit "1"; digit "2"]] [].
Definition row21 : tree := TMatrix [[digit "2"]; [digit "1"]] [].
Definition t53 : tree := TMinus (TGroup (TTimes row12 row21)).
Definition u53 : tree := TSub row12 (TTimes row12 (TMatrix [[digit "1"; digit "2"]; [digit "1"; digit "2"]] [])).
Definition texts53 : list (string * mtree) := [("x=-M"%string, MRel (RRel REq (RExpr (letter "x")) (RExpr t53))); ("M-MN"%string, expr u53);
  ("M+N"%string, expr (TAdd row12 row12))].
Example C53_ex : (forall n vs st, exists e st', latex2sympy (ESympy (table texts53)) n (u "x=-M") vs st = (Raise e, st')) /\
  (forall n vs st, exists e st', latex2sympy (ESympy (table texts53)) n (u "M-MN") vs st = (Raise e, st')) /\
  exists v, fst (latex2sympy (ESympy (table texts53)) 1 (u "M+N") [] fresh) = Ret v.
Proof.
  split; [|split].
  - apply (C53_negated_matrix ex (ESympy (table texts53)) (u "x=-M") (TGroup (TTimes row12 row21)) (MRel (RRel REq (RExpr (letter "x")) (RExpr t53)))).
    + apply ESympy_matrices.
    + apply M_any, M_group, M_times_l, M_matrix.
    + vm.
    + right. apply strictly_here.
  - apply (C53_minus_product ex (ESympy (table texts53)) (u "M-MN") row12 (TTimes row12 (TMatrix [[digit "1"; digit "2"]; [digit "1"; digit "2"]] [])) (expr u53)).
    + apply ESympy_matrices.
    + apply M_times_r, M_matrix.
    + vm.
    + apply strictly_here.
  - eexists. vm.
Qed.

(** ** C65: exponents that are zero *)
Theorem C65_zero_power V (O : LSympy V) l2s f op sub e arg st v s1 z s2 :
  conv O l2s (TFunc f op sub None arg) st = (Ret v, s1) -> conv O l2s e s1 = (Ret z, s2) ->
  o_truthy _ O z = Ret false -> o_is_minus_one _ O z = Ret false ->
  conv O l2s (TFunc f op sub (Some e) arg) st = (Ret v, s2).
Proof. exact (zero_power O l2s f op sub e arg st v s1 z s2). Qed.
Print Assumptions C65_zero_power.
Theorem C65_zero_power_many V (O : LSympy V) l2s f op e args st v s1 z s2 :
  conv O l2s (TFuncs f op None args) st = (Ret v, s1) -> conv O l2s e s1 = (Ret z, s2) -> o_truthy _ O z = Ret false ->
  conv O l2s (TFuncs f op (Some e) args) st = (Ret v, s2).
Proof. exact (zero_power_funcs O l2s f op e args st v s1 z s2). Qed.
Print Assumptions C65_zero_power_many.
Example C65_ex : fst (conv (ESympy (table [])) (fun _ _ => raise (ExcOther 0)) (TFunc (u "sin") [] None (Some (digit "0")) (letter "x")) fresh) =
  Ret (LV (EF (u "sin") [ES (u "x")])).
Proof.
  rewrite (C65_zero_power ex (ESympy (table [])) (fun _ _ => raise (ExcOther 0)) (u "sin") [] None (digit "0") (letter "x") fresh
            (LV (EF (u "sin") [ES (u "x")])) fresh (LV (EQ (Q2Qc 0))) fresh); vm.
Qed.

(** ** C66: scripts of the letter I *)
Theorem C66_imaginary_unit A (K : arithmetic A) V (O : LSympy V) den rho vs n s st sub sup : faithful K V den rho vs (o_md5 _ O) O ->
  o_parse _ O (prepare s) = Ret (MRel (RExpr (TSymbol (NLetter (u "I")) sub sup))) ->
  exists v, fst (latex2sympy O (S n) s vs st) = Ret (LV v) /\ den v = const_I K.
Proof. exact (imaginary_top K V O den rho vs n s st sub sup). Qed.
Print Assumptions C66_imaginary_unit.
Example C66_ex : exists v, fst (latex2sympy (ESympy (table [("I^{2}"%string, expr (TSymbol (NLetter (u "I")) None (Some (digit "2"))))])) 1 (u "I^{2}") [] fresh) = Ret (LV v) /\
  den rho52 v = const_I QcArith.
Proof.
  apply (C66_imaginary_unit Qc QcArith ex _ _ rho52 [] 0 (u "I^{2}") fresh None (Some (digit "2"))); [apply ESympy_faithful; intros ? ? []|vm].
Qed.

(** ** C67: derivatives of zero *)
Theorem C67_zero_derivative V (O : LSympy V) n text du dl up lo st top r : differentiates text du dl ->
  (forall st, exists s, latex2sympy O n text [] st = (Ret (LV top), s)) -> o_truthy _ O (LV top) = Ret false ->
  conv O (latex2sympy O n) (TFrac up lo du dl) st = r -> fst r <> Raise (ExcOther 2) ->
  exists s, r = (x <- conv O (latex2sympy O n) up ;; y <- conv O (latex2sympy O n) lo ;; do_div O x y) s.
Proof. exact (zero_derivative O n text du dl up lo st top r). Qed.
Print Assumptions C67_zero_derivative.
Definition d0 : tree := TFrac (TJuxt [letter "d"; digit "0"]) (TDiff (u "dx")) (UText false (u "d0")) (DDiff (u "dx")).
Definition O67 := ESympy (table [("0"%string, expr (digit "0")); ("\frac{d0}{dx}"%string, expr d0)]).
Example C67_ex : (forall st, exists s, latex2sympy O67 1 (u "0") [] st = (Ret (LV (EQ (Q2Qc 0))), s)) /\
  fst (latex2sympy O67 2 (u "\frac{d0}{dx}") [] fresh) = Ret (LV (EMul [EMul [ES (u "d"); EQ (Q2Qc 0)]; EPow (ES (u "dx")) (EQ (Q2Qc (-1)))])).
Proof. split; [intro st; eexists; reflexivity|vm]. Qed.

(** ** C68: arguments of functions *)
Theorem C68_cut_at_commas V (O : LSympy V) l2s name op parts st v st' : parts <> [] -> Forall (fun p => ~ In 44%N p) parts ->
  conv O l2s (TFuncs name op None (Some (join (u ",") parts))) st = (Ret v, st') ->
  exists vs s1, map_l2s (l2s_here l2s) parts st = (Ret vs, s1) /\ List.length vs = List.length parts /\ apply_funcs O name op vs s1 = (Ret v, st').
Proof. exact (arguments_cut O l2s name op parts st v st'). Qed.
Print Assumptions C68_cut_at_commas.
Theorem C68_piece_rejected V (O : LSympy V) s m name op sup parts p e : o_parse _ O (prepare s) = Ret m ->
  strictly_math (TFuncs name op sup (Some (join (u ",") parts))) m ->
  parts <> [] -> Forall (fun p => ~ In 44%N p) parts -> In p parts -> o_parse _ O (prepare p) = Raise e ->
  forall n vs st, exists e st', latex2sympy O n s vs st = (Raise e, st').
Proof. exact (fun Hp Hs Hne F Hi He n vs st => rejected_anywhere O s _ m Hp Hs (piece_rejected O name op sup parts p e Hne F Hi He) n vs st I). Qed.
Print Assumptions C68_piece_rejected.
Theorem C68_no_parentheses V (O : LSympy V) s m name op sup : o_parse _ O (prepare s) = Ret m ->
  strictly_math (TFuncs name op sup None) m -> forall n vs st, exists e st', latex2sympy O n s vs st = (Raise e, st').
Proof. exact (fun Hp Hs n vs st => rejected_anywhere O s _ m Hp Hs (fun n => no_parentheses O (latex2sympy O n) name op sup) n vs st I). Qed.
Print Assumptions C68_no_parentheses.
Definition max_of (args : string) : tree := TFuncs (u "max") [] None (Some (u args)).
Definition texts68 : list (string * mtree) :=
  [("\max(1,000,3)+1"%string, expr (TAdd (max_of "1,000,3") (digit "1"))); ("1"%string, expr (digit "1")); ("000"%string, expr (digit "000")); ("3"%string, expr (digit "3"));
   ("\max(\min(1,2),3)"%string, expr (max_of "\min(1,2),3"))].
Example C68_ex : (forall n vs st, exists e st', latex2sympy (ESympy (table texts68)) n (u "\max(\min(1,2),3)") vs st = (Raise e, st')) /\
  fst (latex2sympy (ESympy (table texts68)) 2 (u "\max(1,000,3)+1") [] fresh) =
    Ret (LV (EAdd [EF (u "Max") [EQ (Q2Qc 1); EQ (Q2Qc 0); EQ (Q2Qc 3)]; EQ (Q2Qc 1)])).
Proof.
  split; [|vm].
  apply (C68_piece_rejected ex (ESympy (table texts68)) (u "\max(\min(1,2),3)") (expr (max_of "\min(1,2),3")) (u "max") [] None
           [u "\min(1"; u "2)"; u "3"] (u "\min(1") (ExcOther 3)); [vm|apply strictly_here|discriminate| |left; reflexivity|vm].
  repeat constructor; vm_compute; intuition discriminate.
Qed.

(** ** C69: plain Python numbers as values *)
Theorem C69_plain_number V (O : LSympy V) s m name vs : (forall s m, o_parse _ O s = Ret m -> no_derivative m) ->
  o_parse _ O (prepare s) = Ret m -> strictly_math (TVariable (u "\variable{" ++ name ++ u "}")) m ->
  lookup_s vs name = Some PPlain -> forall n st, exists e st', latex2sympy O n s vs st = (Raise e, st').
Proof. exact (fun Hn Hp Hs L n st => plain_rejected O s m name vs Hn Hp Hs L n st I). Qed.
Print Assumptions C69_plain_number.
Definition texts69 : list (string * mtree) := [("1+\variable{a}"%string, expr (TAdd (digit "1") (TVariable (u "\variable{a}"))))].
Example C69_ex : forall n st, exists e st', latex2sympy (ESympy (table texts69)) n (u "1+\variable{a}") [(u "a", PPlain)] st = (Raise e, st').
Proof.
  apply (C69_plain_number ex (ESympy (table texts69)) (u "1+\variable{a}") (expr (TAdd (digit "1") (TVariable (u "\variable{a}")))) (u "a")); [|vm| |vm].
  - intros s m H up lo du dl W. cbn [o_parse ESympy] in H. unfold table in H. cbn [texts69 find] in H.
    destruct (str_eqb _ s); [|discriminate]. injection H as <-. cbn in W.
    inversion W as [|t c Hc Wc]; subst. destruct Hc as [<-|[<-|[]]]; inversion Wc as [|t c Hc Wc']; subst; destruct Hc.
  - apply strictly_child with (TVariable (u "\variable{a}")); [right; left; reflexivity|apply strictly_here].
Qed.

(** ** C70: tuples and dicts in products *)
Theorem C70_tuple_first V (O : LSympy V) l2s t d st s1 l : conv O l2s t st = (Ret (LTD d), s1) ->
  conv O l2s (TJuxt (t :: l)) st = (Ret (LTD d), s1).
Proof. exact (tuple_ends_product O l2s t d st s1 l). Qed.
Print Assumptions C70_tuple_first.
Theorem C70_tuple_later V (O : LSympy V) l2s r x t d st s1 s2 l : conv O l2s r st = (Ret (LV x), s1) -> conv O l2s t s1 = (Ret (LTD d), s2) ->
  exists e s, conv O l2s (TJuxt (r :: t :: l)) st = (Raise e, s).
Proof. exact (tuple_not_first O l2s r x t d st s1 s2 l). Qed.
Print Assumptions C70_tuple_later.
Definition eig (m : tree) : tree := TFunc (u "operatorname") (u "eigenvals") None None m.
Example C70_ex : fst (conv O51 (latex2sympy O51 1) (TJuxt [eig row12; letter "x"; letter "y"]) fresh) = Ret (LTD (EMat [[EQ (Q2Qc 1); EQ (Q2Qc 2)]])) /\
  exists e s, conv O51 (latex2sympy O51 1) (TJuxt [digit "2"; eig row12]) fresh = (Raise e, s).
Proof. split; [vm|]. eapply C70_tuple_later; vm. Qed.

(** ** C71: the style of fractions *)
Theorem C71_depends_on_history : exists V (O : LSympy V) h n s t t', t <> t' /\
  fst (latex2latex O n s fresh) = Ret t /\ fst (latex2latex O n s (after O h fresh)) = Ret t'.
Proof.
  exists ex, (ESympy (table [("0.5"%string, expr (digit "0.5")); ("\frac{1}{2}"%string, expr (TFrac (digit "1") (digit "2") (UText false []) DNone))])),
    [call_of "\dfrac{1}{2}"], 1, (u "0.5").
  eexists _, _. split; [|split; vm]. discriminate.
Qed.
Print Assumptions C71_depends_on_history.
