(** Evaluation at bounds that are numbers; the order of the bounds; the style of fractions *)
From Coq Require Import String List NArith ZArith QArith Bool Lia.
From Verif Require Import PyStr PyStrTheory Regex Normalize Monad L2S MonadTheory NumTheory SplitTheory L2STheory L2SState L2SValue L2SCalc
  Lexer Grammar Arith ArithLex GrammarFindings.
Import ListNotations.
Local Open Scope mon_scope.
Local Close Scope Q_scope.

Section Bounds.
Context {A : Type}.
Variable K : calculus A.
Variable V : Type.
Variable den : (pystr -> A) -> V -> A.
Variable values : list (pystr * pv V).
Variable hash : pystr -> pystr.
Variable O : LSympy V.
Hypothesis F : faithful_calc K V den values hash O.
(** numbers have no symbols *)
Hypothesis Hfree : forall d q v, decimal d q -> o_number _ O d = Ret v -> o_first_symbol _ O (LV v) = Ret None.
Variable l2s : pystr -> list (pystr * pv V) -> M (globals V) (lv V).
Notation yields rho := (yields V (den rho) values O).

Lemma number_side (rho : pystr -> A) (v : V) d q st : decimal (no_commas d) q ->
  at_side O (conv O l2s) (LV v) (TJuxt [TNumber d], None) st = (Ret (LV v), st).
Proof.
  intro D. unfold at_side. cbn [conv juxtapose fst snd opt_conv].
  destruct (f_number _ _ _ _ _ _ _ (c_plain _ _ _ _ _ _ F rho) _ _ D) as (w & E & _).
  unfold number, bind, lift_res, ret. rewrite replace_comma, E. unfold subst, bind, lift_res. rewrite (Hfree _ _ _ D E). reflexivity.
Qed.
Lemma number_bounds rho e a d q d' q' : Means K V den values hash rho e a -> decimal (no_commas d) q -> decimal (no_commas d') q' ->
  yields rho (conv O l2s (TAt e (Some (TJuxt [TNumber d], None)) (Some (TJuxt [TNumber d'], None)))) (sub K a a).
Proof.
  intros H D D'. pose proof (proj1 (calc_value K V den values hash O F l2s) rho e a H) as Y.
  cbn [conv]. apply (yields_bind V _ _ _ _ _ a); [exact Y|]. intros v Hv. cbn [opt_conv].
  apply (yields_ext V _ _ _ (m <- mul_flat O (LV v) (LInt (-1)) ;; add_flat O (LV v) m)).
  { intro st. symmetry. unfold bind at 1. unfold bind at 1. rewrite (number_side rho v d q st D). unfold ret at 1.
    unfold bind at 1. unfold bind at 1. rewrite (number_side rho v d' q' st D'). reflexivity. }
  rewrite sub_opp, <- mul_minus_one.
  apply (yields_bind V _ _ _ _ _ (mul K a (of_Q K (-1)))); [apply (yields_times_minus_one K V den values hash O F); assumption|]. intros z Hz.
  apply (yields_add_flat K V _ rho values hash O (c_plain _ _ _ _ _ _ F rho)); assumption.
Qed.
End Bounds.

Theorem bounds_ignored {A} (K : calculus A) V (O : LSympy V) den rho vs e a d q d' q' n s st :
  faithful_calc K V den vs (o_md5 _ O) O ->
  (forall d q v, decimal d q -> o_number _ O d = Ret v -> o_first_symbol _ O (LV v) = Ret None) ->
  Means K V den vs (o_md5 _ O) rho e a -> decimal (no_commas d) q -> decimal (no_commas d') q' ->
  o_parse _ O (prepare s) = Ret (MRel (RExpr (TJuxt [TAt e (Some (TJuxt [TNumber d], None)) (Some (TJuxt [TNumber d'], None))]))) -> g_var st = [] ->
  exists v, fst (latex2sympy O (S n) s vs st) = Ret (LV v) /\ worth V (den rho) O v (sub K a a).
Proof.
  intros F N H D D' P E. rewrite latex2sympy_head. unfold bind.
  destruct (head_rel Exact s vs st st) as (s1 & s1' & Hh & _ & Rl & Hs1); [split; cbn; reflexivity|].
  assert (g_var s1 = []) as E'. { revert Hh. unfold head, bind, gets, set_frac, set_values. intros [= <-]. exact E. }
  rewrite Hh. unfold rest, bind, lift_res. rewrite P. cbn [conv_rel].
  destruct (number_bounds K V den vs (o_md5 _ O) O F N (latex2sympy O n) rho e a d q d' q' H D D' s1 E' Hs1) as (v & s2 & Ev & W & _).
  exists v. split; [|exact W]. match goal with |- context [conv O ?l (TJuxt [?t])] => change (conv O l (TJuxt [t])) with (juxtapose O (conv O l) [t]) end.
  unfold juxtapose. unfold bind at 1. rewrite Ev. reflexivity.
Qed.

(** The style of fractions after a call without nested calls *)
Definition fraction_style (s old f : pystr) : Prop :=
  (forall a b, s = a ++ u "\tfrac" ++ b -> f = u "\tfrac") /\
  ((forall a b, s <> a ++ u "\tfrac" ++ b) -> (forall a b, s = a ++ u "\dfrac" ++ b -> f = u "\dfrac") /\
    ((forall a b, s <> a ++ u "\dfrac" ++ b) -> (forall a b, s = a ++ u "\frac" ++ b -> f = u "\frac") /\
      ((forall a b, s <> a ++ u "\frac" ++ b) -> f = old))).
Lemma contains_no p s : (forall a b, s <> a ++ p ++ b) -> contains p s = false.
Proof. intro H. destruct (contains p s) eqn:E; [|reflexivity]. apply contains_spec in E. destruct E as (a & b & E). destruct (H a b E). Qed.
Lemma frac_of_style s old : fraction_style s old (frac_of s old).
Proof.
  unfold fraction_style, frac_of. split.
  { intros a b E. replace (contains (u "\tfrac") s) with true; [reflexivity|]. symmetry. apply contains_spec. eauto. }
  intro T. rewrite (contains_no _ _ T). split.
  { intros a b E. replace (contains (u "\dfrac") s) with true; [reflexivity|]. symmetry. apply contains_spec. eauto. }
  intro D. rewrite (contains_no _ _ D). split.
  { intros a b E. replace (contains (u "\frac") s) with true; [reflexivity|]. symmetry. apply contains_spec. eauto. }
  intro N. rewrite (contains_no _ _ N). reflexivity.
Qed.
Section Style.
Context {V : Type}.
Variable O : LSympy V.
Definition same_style (A : Type) (m : M (globals V) A) : Prop := forall st, g_frac (snd (m st)) = g_frac st.
Lemma style_still A (m : M (globals V) A) : (forall st, snd (m st) = st) -> same_style A m.
Proof. intros H st. rewrite H. reflexivity. Qed.
Lemma style_bind A B (m : M (globals V) A) (f : A -> M (globals V) B) : same_style A m -> (forall a, same_style B (f a)) -> same_style B (bind m f).
Proof. intros Hm Hf st. unfold bind. specialize (Hm st). destruct (m st) as [[a|e] s1]; [|exact Hm]. cbn in Hm. rewrite <- Hm. apply Hf. Qed.
Lemma style_closed : closed O same_style.
Proof.
  split; try (intros; apply style_still; intro; reflexivity).
  - apply style_bind.
  - intros A r x st. unfold try_bare, lift_res. destruct r as [|[]]; reflexivity.
  - unfold check_derivative. apply style_bind.
    + apply style_bind; [intro; reflexivity|intros [b|] st; reflexivity].
    + intros []; cbn; [intro; reflexivity|]. apply style_bind.
      * apply style_bind; [intro; reflexivity|intros [b|] st; reflexivity].
      * intros [] st; reflexivity.
  - intros d p st; reflexivity.
  - intros name st. unfold make_symbol, gets, bind. destruct (lookup_s (g_var st) name) as [rh|]; [|reflexivity].
    unfold try_bare, lift_res. destruct (o_shape V O rh) as [sh|[]]; try reflexivity. cbn.
    destruct (o_matrix_symbol V O _ _ _) as [m|[]]; try reflexivity. cbn.
    destruct (lookup_v O (g_variances st) _); reflexivity.
Qed.
Theorem style_after_call s vs st : fraction_style s (g_frac st) (g_frac (snd (latex2sympy O 1 s vs st))).
Proof.
  rewrite latex2sympy_head. unfold bind, head, gets, set_frac, set_values. cbn [bind].
  match goal with |- fraction_style _ _ (g_frac (snd (rest _ _ _ ?s))) => set (s1 := s) end.
  assert (R : same_style _ (rest O 0 s)).
  { apply (rest_closed O same_style style_closed); [intros k v st'; reflexivity|intros t vs' st'; reflexivity]. }
  rewrite R. apply frac_of_style.
Qed.
End Style.

(** The bounds of an evaluation must be written with the upper one first *)
Local Open Scope N_scope.
Definition w_us : word := (K_UNDERSCORE, u "_").
Lemma t_letters : Forall (fun c => fits (w_letter c) (u "|") /\ fits (w_letter c) (u "}") /\ fits w_lbrace [c] /\ fits w_us [123; c] /\ fits w_caret [123; c]) letters.
Proof. repeat (apply Forall_cons; [repeat split; intro; vm_compute; reflexivity|]). apply Forall_nil. Qed.
Lemma good_simple w ld v rest : skipped (fst w) = false -> snd w <> [] -> may_lead ld w -> fits w (snd v) -> good (tok v [] :: rest) -> good (tok w ld :: tok v [] :: rest).
Proof. intros S N L T G. apply good_cons; [auto|exact L|apply meets_word, T|exact G]. Qed.
Lemma good_script w c rest : skipped (fst w) = false -> snd w <> [] -> fits w [123; c] -> good (tok w_lbrace [] :: tok (w_letter c) [] :: rest) ->
  good (tok w [] :: tok w_lbrace [] :: tok (w_letter c) [] :: rest).
Proof. intros S N T G. apply good_cons; [auto|apply no_lead| |exact G]. right. exists [123; c], (src rest). split; [reflexivity|exact T]. Qed.
Definition bounded_tokens (x k y k' z : N) : list token :=
  [tok (w_letter x) []; tok w_bar []; tok (k, if k =? K_UNDERSCORE then u "_" else u "^") []; tok w_lbrace []; tok (w_letter y) []; tok w_rbrace [];
   tok (k', if k' =? K_UNDERSCORE then u "_" else u "^") []; tok w_lbrace []; tok (w_letter z) []; tok w_rbrace []].
Lemma good_bounded x y z k k' : In x letters -> In y letters -> In z letters ->
  (k = K_UNDERSCORE /\ k' = K_CARET \/ k = K_CARET /\ k' = K_UNDERSCORE) -> good (bounded_tokens x k y k' z).
Proof.
  intros Hx Hy Hz Hk. pose proof t_letters as T. rewrite Forall_forall in T.
  destruct (T x Hx) as (X1 & _), (T y Hy) as (_ & Y2 & Y3 & Y4 & Y5), (T z Hz) as (_ & Z2 & Z3 & Z4 & Z5).
  unfold bounded_tokens.
  assert (B : good [tok w_rbrace []]) by (apply good_ender; [apply in_or_app; right; memb|apply no_lead|left; reflexivity|exact I]).
  destruct Hk as [[-> ->]|[-> ->]]; cbv iota; cbn [N.eqb];
  (apply good_simple; [reflexivity|discriminate|apply no_lead|exact X1|]);
  (apply good_simple; [reflexivity|discriminate|apply no_lead|intro; vm_compute; reflexivity|]);
  (apply good_script; [reflexivity|discriminate|assumption|]);
  (apply good_simple; [reflexivity|discriminate|apply no_lead|exact Y3|]);
  (apply good_simple; [reflexivity|discriminate|apply no_lead|exact Y2|]);
  (apply good_simple; [reflexivity|discriminate|apply no_lead|intro; vm_compute; reflexivity|]);
  (apply good_script; [reflexivity|discriminate|assumption|]);
  (apply good_simple; [reflexivity|discriminate|apply no_lead|exact Z3|]);
  (apply good_simple; [reflexivity|discriminate|apply no_lead|exact Z2|]); exact B.
Qed.
Theorem lower_bound_first x y z : In x letters -> In y letters -> In z letters ->
  parse_text ([x] ++ u "|_{" ++ [y] ++ u "}^{" ++ [z] ++ u "}") = NoParse /\
  parse_text ([x] ++ u "|^{" ++ [z] ++ u "}_{" ++ [y] ++ u "}") =
    Found (MRel (RExpr (TJuxt [TAt (TSymbol (NLetter [x]) None None) (Some (one_letter [z], None)) (Some (one_letter [y], None))]))).
Proof.
  intros Hx Hy Hz. split.
  - change ([x] ++ u "|_{" ++ [y] ++ u "}^{" ++ [z] ++ u "}") with (src (bounded_tokens x K_UNDERSCORE y K_CARET z)).
    rewrite parse_good; [vm_compute; reflexivity|]. apply good_bounded; auto.
  - change ([x] ++ u "|^{" ++ [z] ++ u "}_{" ++ [y] ++ u "}") with (src (bounded_tokens x K_CARET z K_UNDERSCORE y)).
    rewrite parse_good; [vm_compute; reflexivity|]. apply good_bounded; auto.
Qed.
