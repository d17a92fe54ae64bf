(** From the written text to what latex2sympy returns: relations, binders, repeated exponents, separators *)
From Coq Require Import String List NArith ZArith QArith Bool Lia.
From Verif Require Import PyStr PyStrTheory Regex RegexTheory Normalize NumTheory NormTheory Monad MonadTheory L2S L2STheory L2SState L2SValue L2SCalc Lexer Grammar GrammarTheory Arith ArithLex ArithPrep ArithParse Written WrittenParse WrittenMore.
Import ListNotations.
Local Close Scope Q_scope.
Local Open Scope N_scope.

Theorem latex2sympy_bound gap {A} (K : calculus A) V (O : LSympy V) den rho vs n b e st : gap = [] \/ gap = [32] ->
  faithful_calc K V den vs (o_md5 _ O) O -> (forall s t, parse_text s = Found t -> o_parse _ O s = Ret t) -> binder_wf b -> wf e -> g_var st = [] ->
  exists v, fst (latex2sympy O (Datatypes.S n) (bound_latex gap b e) vs st) = Ret (LV v) /\ worth V (den rho) O v (bound_value K rho b e).
Proof.
  intros Hg F P B W E. destruct (parse_bound gap Hg K V den vs (o_md5 _ O) b e B W) as (t & Ht & M).
  apply (latex2sympy_calculus K V O den rho vs t); [exact F| |apply M|exact E]. rewrite (prepare_bound gap Hg b e B W). apply P, Ht.
Qed.
Theorem latex2sympy_tower gap {A} (K : arithmetic A) V (O : LSympy V) den rho vs n b es st : gap = [] \/ gap = [32] ->
  faithful K V den rho vs (o_md5 _ O) O -> (forall s t, parse_text s = Found t -> o_parse _ O s = Ret t) -> tower_wf b es -> g_var st = [] ->
  exists v, fst (latex2sympy O (Datatypes.S n) (tower_latex gap b es) vs st) = Ret (LV v) /\ worth V den O v (tower_value K rho b es).
Proof.
  intros Hg F P W E. destruct (parse_tower gap Hg K V den rho vs (o_md5 _ O) b es W) as (t & Ht & R).
  apply (latex2sympy_value K V O den rho vs t); [exact F| |exact R|exact E]. rewrite (prepare_tower gap Hg b es) by apply W. apply P, Ht.
Qed.
Theorem latex2sympy_grouped {A} (K : arithmetic A) V (O : LSympy V) den rho vs n ds gs st :
  faithful K V den rho vs (o_md5 _ O) O -> (forall s t, parse_text s = Found t -> o_parse _ O s = Ret t) -> numeral ds -> Forall three gs -> gs <> [] -> g_var st = [] ->
  exists v, fst (latex2sympy O (Datatypes.S n) (grouped ds gs) vs st) = Ret (LV v) /\ worth V den O v (int_value K (ds ++ concat gs)).
Proof.
  intros F P Nd Fg Ng E. destruct (parse_grouped K V den rho vs (o_md5 _ O) ds gs Nd Fg Ng) as (t & Ht & R).
  apply (latex2sympy_value K V O den rho vs t); [exact F| |exact R|exact E].
  pose proof (prepare_grouped ds gs [] Nd Fg (or_introl eq_refl)) as Pg. rewrite app_nil_r in Pg. rewrite Pg. apply P, Ht.
Qed.
Theorem latex2sympy_grouped_more {A} (K : arithmetic A) V (O : LSympy V) den rho vs n ds gs ds' st :
  faithful K V den rho vs (o_md5 _ O) O -> (forall s t, parse_text s = Found t -> o_parse _ O s = Ret t) -> numeral ds -> Forall three gs -> gs <> [] -> numeral ds' -> g_var st = [] ->
  exists v, fst (latex2sympy O (Datatypes.S n) (grouped ds gs ++ ds') vs st) = Ret (LV v) /\ worth V den O v (mul K (int_value K (ds ++ concat gs)) (int_value K ds')).
Proof.
  intros F P Nd Fg Ng Nd' E. destruct (parse_grouped_more K V den rho vs (o_md5 _ O) ds gs ds' Nd Fg Ng Nd') as (t & Ht & R).
  apply (latex2sympy_value K V O den rho vs t); [exact F| |exact R|exact E].
  rewrite (prepare_grouped ds gs ds' Nd Fg (or_intror Nd')). apply P, Ht.
Qed.

(** Relations: nested to the left *)
Definition related {V} (O : LSympy V) (v : V) (l : list (lrel * V)) : res (lv V) :=
  fold_left (fun r p => match r with Ret x => o_rel _ O (fst p) x (LV (snd p)) | Raise e => Raise e end) l (Ret (LV v)).
Section Chains.
Context {A : Type}.
Variable K : arithmetic A.
Variable V : Type.
Variable O : LSympy V.
Variable den : V -> A.
Variable rho : pystr -> A.
Variable vs : list (pystr * pv V).
Hypothesis F : faithful K V den rho vs (o_md5 _ O) O.
Variable l2s : pystr -> list (pystr * pv V) -> M (globals V) (lv V).
Lemma raise_fold l e : fold_left (fun r p => match r with Ret x => o_rel _ O (fst p) x (LV (snd p)) | Raise e => Raise e end) l (Raise e) = Raise e.
Proof. induction l as [|[o v] l IH]; [reflexivity|exact IH]. Qed.
Lemma conv_chain (l : list (pystr * lrel * arith)) ts : Forall2 (fun p t => Reads K V den rho vs (o_md5 _ O) t (value K rho (snd p))) l ts ->
  forall r st R st1, g_var st = [] -> g_values st = vs -> conv_rel O l2s r st = (R, st1) -> (forall x, R = Ret x -> g_var st1 = [] /\ g_values st1 = vs) ->
  exists ws, Forall2 (fun p w => worth V den O w (value K rho (snd p))) l ws /\
    fst (conv_rel O l2s (fold_left (fun r pt => RRel (snd (fst (fst pt))) r (RExpr (snd pt))) (combine l ts) r) st) =
    fold_left (fun r p => match r with Ret x => o_rel _ O (fst p) x (LV (snd p)) | Raise e => Raise e end) (combine (map (fun p => snd (fst p)) l) ws) R.
Proof.
  induction 1 as [|[[s o] e] t l ts R0 F2 IH]; intros r st R st1 E1 E2 C G.
  - exists []. split; [constructor|]. cbn [combine fold_left map]. rewrite C. reflexivity.
  - pose proof (proj1 (conv_value K V den rho vs (o_md5 _ O) O F l2s) t _ R0) as Y. cbn [snd] in *.
    assert (Q : exists w R' st1', worth V den O w (value K rho e) /\ conv_rel O l2s (RRel o r (RExpr t)) st = (R', st1') /\
      R' = match R with Ret x => o_rel _ O o x (LV w) | Raise e => Raise e end /\ forall x, R' = Ret x -> g_var st1' = [] /\ g_values st1' = vs).
    { cbn [conv_rel]. unfold bind. rewrite C. destruct R as [x|ex].
      - destruct (G x eq_refl) as [G1 G2]. destruct (Y st1 G1 G2) as (w & st2 & Ew & W & H1 & H2). rewrite Ew. unfold lift_res.
        exists w, (o_rel _ O o x (LV w)), st2. split; [exact W|]. split; [reflexivity|]. split; [reflexivity|]. intros _ _. auto.
      - destruct (Y st E1 E2) as (w & st2 & Ew & W & H1 & H2). exists w, (Raise ex), st1. split; [exact W|]. split; [reflexivity|]. split; [reflexivity|]. discriminate. }
    destruct Q as (w & R' & st1' & W & C' & ER & G'). destruct (IH (RRel o r (RExpr t)) st R' st1' E1 E2 C' G') as (ws & Fw & Ef).
    exists (w :: ws). split; [constructor; assumption|]. cbn [combine fold_left map fst snd]. rewrite <- ER. exact Ef.
Qed.
End Chains.
Theorem latex2sympy_chain gap {A} (K : arithmetic A) V (O : LSympy V) den rho vs n e l st : gap = [] \/ gap = [32] ->
  faithful K V den rho vs (o_md5 _ O) O -> (forall s t, parse_text s = Found t -> o_parse _ O s = Ret t) -> chain_wf gap e l -> g_var st = [] ->
  exists v ws, worth V den O v (value K rho e) /\ Forall2 (fun p w => worth V den O w (value K rho (snd p))) l ws /\
    fst (latex2sympy O (Datatypes.S n) (chain_latex gap e l) vs st) = related O v (combine (map (fun p => snd (fst p)) l) ws).
Proof.
  intros Hg F P W E. destruct (parse_chain gap Hg K V (fun _ => den) vs (o_md5 _ O) rho e l W) as (t & ts & R & F2 & Ht).
  rewrite latex2sympy_head. unfold bind.
  destruct (head_rel Exact (chain_latex gap e l) vs st st) as (s1 & s1' & Hh & _ & Rl & Hs1); [split; cbn; reflexivity|].
  assert (g_var s1 = []) as E'. { revert Hh. unfold head, bind, gets, set_frac, set_values. intros [= <-]. exact E. }
  rewrite Hh. unfold rest, bind, lift_res. rewrite (prepare_chain gap Hg e l W), (P _ _ Ht).
  destruct (proj1 (conv_value K V den rho vs (o_md5 _ O) O F (latex2sympy O n)) t _ R s1 E' Hs1) as (v & s2 & Ev & Wv & H1 & H2).
  destruct (conv_chain K V O den rho vs F (latex2sympy O n) l ts F2 (RExpr t) s1 _ s2 E' Hs1 Ev) as (ws & Fw & Ef); [intros _ _; auto|].
  exists v, ws. split; [exact Wv|]. split; [exact Fw|]. exact Ef.
Qed.

(** A factorial before an equals sign is the text of an inequality *)
Theorem factorial_equals gap {A} (K : arithmetic A) V (O : LSympy V) den rho vs n e e' st : gap = [] \/ gap = [32] ->
  faithful K V den rho vs (o_md5 _ O) O -> (forall s t, parse_text s = Found t -> o_parse _ O s = Ret t) ->
  wf e -> wf e' -> (4 <= prec e)%nat -> g_var st = [] ->
  exists v w, worth V den O v (value K rho e) /\ worth V den O w (value K rho e') /\
    fst (latex2sympy O (Datatypes.S n) (body gap (Fact e) ++ u "=" ++ body gap e') vs st) = o_rel _ O RNe (LV v) (LV w).
Proof.
  intros Hg F P W W' L E.
  assert (T : body gap (Fact e) ++ u "=" ++ body gap e' = chain_latex gap e [(u "!=", RNe, e')]).
  { unfold chain_latex. cbn [flat_map fst snd]. rewrite app_nil_r. change (body gap (Fact e)) with ((if Nat.leb 4 (prec e) then body gap e else parens (body gap e)) ++ u "!").
    rewrite (proj2 (Nat.leb_le _ _) L), <- app_assoc. reflexivity. }
  destruct (latex2sympy_chain gap K V O den rho vs n e [(u "!=", RNe, e')] st Hg F P) as (v & ws & Wv & Fw & Ef); [|exact E|].
  - cbn [chain_wf]. split; [exact W|]. split; [cbn; tauto|]. split; [discriminate|]. split; [exact W'|exact I].
  - inversion Fw as [|? w ? ? Ww Fn]. subst. inversion Fn. subst. cbn [snd] in Ww. exists v, w. split; [exact Wv|]. split; [exact Ww|]. rewrite T, Ef. reflexivity.
Qed.
(** An undirected limit at a number is the one from above *)
Theorem limit_from_above gap {A} (K : calculus A) V (O : LSympy V) den rho vs n x ds e st : gap = [] \/ gap = [32] ->
  faithful_calc K V den vs (o_md5 _ O) O -> (forall s t, parse_text s = Found t -> o_parse _ O s = Ret t) -> In x symbols -> numeral ds -> wf e -> g_var st = [] ->
  exists v w, fst (latex2sympy O (Datatypes.S n) (u "\lim_{" ++ x ++ u "\to " ++ ds ++ u "}" ++ gap ++ factors gap e) vs st) = Ret (LV v) /\
    fst (latex2sympy O (Datatypes.S n) (u "\lim_{" ++ x ++ u "\to " ++ ds ++ u "^{+}}" ++ gap ++ factors gap e) vs st) = Ret (LV w) /\
    let above := limit K false (fun k => value K (update rho (sym_name x) k) e) (int_value K ds) in worth V (den rho) O v above /\ worth V (den rho) O w above.
Proof.
  intros Hg F P Hx Nd W E.
  destruct (latex2sympy_bound gap K V O den rho vs n (BLim x (Num ds)) e st Hg F P) as (v & Ev & Wv); [split; [exact Hx|exact Nd]|exact W|exact E|].
  destruct (latex2sympy_bound gap K V O den rho vs n (BSide false x ds) e st Hg F P) as (w & Ew & Ww); [split; [exact Hx|exact Nd]|exact W|exact E|].
  exists v, w. split; [rewrite <- Ev; unfold bound_latex, binder_latex; rewrite <- !app_assoc; reflexivity|].
  split; [rewrite <- Ew; unfold bound_latex, binder_latex; rewrite <- !app_assoc; reflexivity|]. split; [exact Wv|exact Ww].
Qed.
