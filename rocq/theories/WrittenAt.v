(** Evaluation bars, as they are written, read and converted (PS.g4: eval_at; latex2sympy2.py:516-529, 983-1012) *)
From Coq Require Import String List NArith ZArith QArith Bool Lia.
From Verif Require Import PyStr PyStrTheory Regex RegexTheory Normalize NumTheory NormTheory Monad MonadTheory L2S L2STheory L2SState L2SValue L2SCalc Lexer Grammar GrammarTheory Arith ArithLex ArithPrep ArithParse Written WrittenParse WrittenMore.
Import ListNotations.
Local Close Scope Q_scope.
Local Open Scope N_scope.
Local Open Scope par_scope.

(** * What is written *)
(** an expression in parentheses and bars with equations above them *)
Definition bar_latex (gap : pystr) (p : pystr * arith) : pystr := u "|^{" ++ fst p ++ u "=" ++ body gap (snd p) ++ u "}".
Definition bars_latex (gap : pystr) (e : arith) (l : list (pystr * arith)) : pystr := parens (body gap e) ++ flat_map (bar_latex gap) l.
Definition bars_wf (e : arith) (l : list (pystr * arith)) : Prop := wf e /\ Forall (fun p => In (fst p) symbols /\ wf (snd p)) l /\ l <> [].
(** the last bar binds last: its value is seen by the values of the bars before it *)
Definition bars_env {A} (K : arithmetic A) (rho : pystr -> A) (l : list (pystr * arith)) : pystr -> A :=
  fold_right (fun p r => update r (sym_name (fst p)) (value K r (snd p))) rho l.
Definition bars_value {A} (K : arithmetic A) (rho : pystr -> A) (e : arith) (l : list (pystr * arith)) : A := value K (bars_env K rho l) e.

(** * Tokens *)
Ltac word_ok := split; [reflexivity|discriminate].
Section Bars.
Variable gap : pystr.
Hypothesis Hgap : gap = [] \/ gap = [32].
Local Notation toks := (ArithLex.toks gap).
Local Notation body := (Arith.body gap).
Definition bar_toks (p : pystr * arith) : list token :=
  tok w_bar [] :: tok w_caret [] :: tok w_lbrace [] :: (tok (w_sym (fst p)) [] :: tok w_eq [] :: toks (snd p) []) ++ [tok w_rbrace []].
Definition bars_toks (e : arith) (l : list (pystr * arith)) : list token := paren_toks [] (toks e []) ++ flat_map bar_toks l.
Lemma src_bars e l : bars_wf e l -> src (bars_toks e l) = bars_latex gap e l.
Proof.
  intros (W & F & _). unfold bars_toks, bars_latex. rewrite src_app, src_paren, (src_toks gap e [] W). cbn [app]. f_equal.
  induction F as [|[x f] l [Hx Wf] F IH]; [reflexivity|]. cbn [flat_map fst snd] in *. rewrite src_app, IH. unfold bar_toks, bar_latex. cbn [app fst snd].
  rewrite !src_cons, src_app, (src_toks gap f [] Wf), (w_sym_text x Hx). cbn [app]. rewrite <- !app_assoc. reflexivity.
Qed.
Lemma close_bar : fits w_rparen (u "|") /\ fits w_rbrace (u "|") /\ fits w_bar (u "^").
Proof. repeat split; intro; vm_compute; reflexivity. Qed.
Lemma good_bars l : Forall (fun p => In (fst p) symbols /\ wf (snd p)) l -> good (flat_map bar_toks l) /\ (flat_map bar_toks l = [] \/ exists r, flat_map bar_toks l = tok w_bar [] :: r).
Proof.
  destruct close_bar as (_ & Hb & Hc). induction 1 as [|[x f] l [Hx Wf] F [G B]]; [split; [exact I|left; reflexivity]|]. cbn [flat_map fst snd] in *.
  unfold bar_toks at 1 3 4. cbn [app fst snd]. rewrite <- app_assoc. cbn [app]. split; [|right; eexists; reflexivity].
  pose proof t_lbrace_sym as T. rewrite Forall_forall in T. destruct (T x Hx) as (_ & Teq & _).
  assert (G1 : good (tok w_rbrace [] :: flat_map bar_toks l)).
  { destruct B as [B|[r B]]; rewrite B in *; [apply good_ender; [apply named_ender; cbn; tauto|apply no_lead|left; reflexivity|exact I]|].
    apply good_cons; [word_ok|apply no_lead|apply meets_word, Hb|exact G]. }
  assert (G2 : good (toks f [] ++ tok w_rbrace [] :: flat_map bar_toks l)).
  { apply good_toks; [exact Hgap|exact Wf|left; reflexivity|exact G1|apply follow; cbn; tauto]. }
  assert (G3 : good (tok (w_sym x) [] :: tok w_eq [] :: toks f [] ++ tok w_rbrace [] :: flat_map bar_toks l)).
  { apply good_cons; [apply words_ok, in_or_app; left; apply sym_starter, Hx|apply no_lead|apply (meets_word _ w_eq), Teq|].
    apply good_rel_opener; [cbn; tauto|apply begins_app, toks_begin, Wf|exact G2]. }
  assert (Bx : begins (tok (w_sym x) [] :: tok w_eq [] :: toks f [] ++ tok w_rbrace [] :: flat_map bar_toks l) [] starters).
  { eexists (w_sym x), _. split; [reflexivity|apply sym_starter, Hx]. }
  apply good_cons; [word_ok|apply no_lead|apply (meets_word _ w_caret), Hc|].
  apply good_caret; [exact Bx|]. apply good_opener; [cbn; tauto|apply no_lead|exact Bx|exact G3].
Qed.
Lemma lex_bars e l : bars_wf e l -> lex (bars_latex gap e l) = Some (bars_toks e l).
Proof.
  intro W. unfold lex. rewrite <- (src_bars e l W). apply lex_go_good; [|lia]. destruct W as (W & F & _). destruct (good_bars l F) as [G B].
  unfold bars_toks, paren_toks. cbn [app]. rewrite <- app_assoc. cbn [app]. apply good_opener; [cbn; tauto|apply no_lead|apply begins_app, toks_begin, W|].
  apply good_toks; [exact Hgap|exact W|left; reflexivity| |apply follow; cbn; tauto].
  destruct B as [B|[r B]]; rewrite B in *; [apply good_ender; [apply named_ender; cbn; tauto|apply no_lead|left; reflexivity|exact I]|].
  apply good_cons; [word_ok|apply no_lead|apply meets_word, close_bar|exact G].
Qed.
Lemma lettered_bars e l : bars_wf e l -> Forall lettered (bars_toks e l).
Proof.
  intros (W & F & _). unfold bars_toks, paren_toks. apply Forall_app. split.
  - constructor; [apply lettered_tok; [apply a_starter, named_starter; cbn; tauto|left; reflexivity]|]. apply Forall_app. split; [apply lettered_toks; [exact Hgap|exact W|left; reflexivity]|].
    constructor; [apply lettered_tok; [apply a_ender, named_ender; cbn; tauto|left; reflexivity]|constructor].
  - induction F as [|[x f] l [Hx Wf] F IH]; [constructor|]. cbn [flat_map fst snd] in *. apply Forall_app. split; [|exact IH]. unfold bar_toks. cbn [fst snd app].
    constructor; [apply lettered_tok; [apply a_ender, named_ender; cbn; tauto|left; reflexivity]|].
    constructor; [apply lettered_tok; [apply a_follower; cbn; tauto|left; reflexivity]|]. constructor; [apply lettered_tok; [apply a_other; cbn; tauto|left; reflexivity]|].
    constructor; [apply lettered_tok; [apply a_starter, sym_starter, Hx|left; reflexivity]|]. constructor; [apply lettered_tok; [apply a_equality; cbn; tauto|left; reflexivity]|].
    apply Forall_app. split; [apply lettered_toks; [exact Hgap|exact Wf|left; reflexivity]|]. constructor; [apply lettered_tok; [apply a_ender, named_ender; cbn; tauto|left; reflexivity]|constructor].
Qed.
Lemma prepare_bars e l : bars_wf e l -> prepare (bars_latex gap e l) = bars_latex gap e l.
Proof. intro W. rewrite <- (src_bars e l W). apply prepare_src, lettered_bars, W. Qed.
End Bars.

(** * Parsing *)
(** Before an equals sign, a symbol is only read as itself *)
Lemma name_stops rec x rest k : In x symbols -> (forall a, k a (tok w_eq [] :: rest) = NoParse) ->
  r_expr (level rec) (tok (w_sym x) [] :: tok w_eq [] :: rest) k = NoParse.
Proof.
  intros Hx H. assert (E : exists s, tok (w_sym x) [] = Tok K_LETTER_NO_E s [] \/ tok (w_sym x) [] = Tok K_GREEK_CMD s []).
  { unfold w_sym. destruct x as [|c x]; [eexists; left; reflexivity|]. destruct (N.eq_dec c 92) as [->|Ne]; [eexists; right; reflexivity|].
    exists (c :: x). left. unfold tok. destruct c as [|p]; [reflexivity|]. repeat (destruct p as [p|p|]; try reflexivity). congruence. }
  destruct E as [s [-> | ->]].
  - lazy in H. lazy. rewrite H. reflexivity.
  - lazy in H. lazy. rewrite H. reflexivity.
Qed.

Section Parsing.
Local Opaque rules_upto.
Ltac blk := intros rest0 kk0 Hl0 Ht0 Hs0; reflexivity.
Variable gap : pystr.
Hypothesis Hgap : gap = [] \/ gap = [32].
Notation toks := (ArithLex.toks gap).
Definition CB : list N := K_BAR :: C4.
Lemma dead_sups rec : dead (exp_op rec) CB.
Proof. dead_by_first. Qed.
(** one bar *)
Lemma f_bar x nm c t n ks : In x symbols -> named (tok (w_sym x) []) = Some nm -> AE c t -> tame c ->
  runs n (postfix_op (X n)) (tok w_bar [] :: tok w_caret [] :: tok w_lbrace [] :: (tok (w_sym x) [] :: tok w_eq [] :: c) ++ [tok w_rbrace []])
    (fun e => TAt e (Some (TJuxt [TSymbol nm None None], Some t)) None) ks.
Proof.
  intros Hx En H T. unfold postfix_op. apply r_right; [blk|]. apply r_left. unfold eval_at. apply (r_tstep n w_bar). intros n1 L1. apply r_left.
  apply (r_map n1 (fun p t => TAt t (Some p) None) _ _ (TJuxt [TSymbol nm None None], Some t)). unfold at_part. apply (r_tstep n1 w_caret). intros n2 L2. apply (r_tstep n2 w_lbrace). intros n3 L3.
  intros rest k r L Tr S E. unfold pbind at 1. rewrite <- app_assoc in *. cbn [app] in *.
  unfold palt.
  assert (N1 : pmap (fun t0 : tree => (t0, None)) (r_expr (X n)) (tok (w_sym x) [] :: tok w_eq [] :: c ++ tok w_rbrace [] :: rest)
     (fun (a : tree * option tree) (ts' : list token) => (_ <~ ptok K_R_BRACE;; pret a) ts' k) = NoParse).
  { unfold pmap, pbind at 1. destruct n as [|m]; [lia|]. Local Transparent rules_upto. change (X (Datatypes.S m)) with (level (rules_upto m)). Local Opaque rules_upto.
    apply name_stops; [exact Hx|]. intro a. reflexivity. }
  rewrite N1.
  assert (R : runs n3 (equality (X n)) ([tok (w_sym x) []] ++ tok w_eq [] :: c) (TJuxt [TSymbol nm None None], t) C0).
  { unfold equality. apply (r_then n3 _ _ [tok (w_sym x) []] (TJuxt [TSymbol nm None None]) (tok w_eq [] :: c) _ C0);
      [apply inner; [apply sym_AE; assumption|lia]|discriminate|tam|apply after_cons; reflexivity|].
    intros n4 L4. apply r_step; [reflexivity|]. intros n5 L5. apply (r_end n5 _ _ c t); [apply inner; [exact H|lia]|apply r_ret]. }
  unfold pmap, pbind at 1. specialize (R (tok w_rbrace [] :: rest)). cbn [app] in R. apply R; [cbn [List.length] in *; lia|apply tame_cons; [reflexivity|exact Tr]|reflexivity|].
  exact E.
Qed.
Lemma paren_comp c t n ks : tame c -> AE c t -> runs n (comp (X n) true) (paren_toks [] c) (TGroup t) ks.
Proof.
  intros T H. unfold comp. apply r_left. unfold brackets, group_pairs, sized. cbn [map app fst snd]. apply palts_left. apply r_map.
  apply (r_around n _ [tok w_lparen []] c [tok w_rparen []] t C0); [discriminate|apply inner, H|exact T|tam|intro; apply after_cons; reflexivity].
Qed.
Context {A : Type}.
Variable K : calculus A.
Variable V : Type.
Variable den : (pystr -> A) -> V -> A.
Variable values : list (pystr * pv V).
Variable hash : pystr -> pystr.
Local Notation toks_AE := (toks_AE gap Hgap K V den values hash).
Local Notation means := (Means K V den values hash).
Definition at_op (o : sname * tree) : tree -> tree := fun e => TAt e (Some (TJuxt [TSymbol (fst o) None None], Some (snd o))) None.
Definition reads_bar (p : pystr * arith) (o : sname * tree) : Prop :=
  names (fst o) None (sym_name (fst p)) /\ forall rho, Reads K V (den rho) rho values hash (snd o) (value K rho (snd p)).
Lemma bars_run l : Forall (fun p => In (fst p) symbols /\ wf (snd p)) l -> exists ops, Forall2 reads_bar l ops /\
  (forall n, many_runs n (postfix_op (X n)) (flat_map (bar_toks gap) l) (map at_op ops) C2) /\ tame (flat_map (bar_toks gap) l) /\ (flat_map (bar_toks gap) l = [] \/ exists r, flat_map (bar_toks gap) l = tok w_bar [] :: r).
Proof.
  induction 1 as [|[x f] l [Hx Wf] F (ops & F2 & Hm & T & B)].
  - exists []. split; [constructor|]. split; [intro; apply many_nil, (d_less _ (C2 ++ J)); [reflexivity|apply dead_postfix_op]|]. split; [apply tame_nil|left; reflexivity].
  - cbn [fst snd] in *. destruct (sym_named x [] Hx) as (nm & En & Nm). destruct (toks_AE f [] Wf (or_introl eq_refl)) as (t & Ht & R).
    assert (Tf : tame (toks f [])) by (apply tame_toks; [exact Hgap|exact Wf|left; reflexivity]). pose proof (sym_tame x Hx) as Tx.
    exists ((nm, t) :: ops). split; [constructor; [split; assumption|exact F2]|]. cbn [flat_map map]. split; [|split].
    + intro n. apply (many_cons n _ _ _ _ _ (K_BAR :: C2)); [discriminate|apply f_bar; assumption|exact T| |apply Hm].
      destruct B as [B|[r B]]; rewrite B; [|apply after_cons; reflexivity]. apply stop_sub. reflexivity.
    + apply tame_app; [|exact T]. unfold bar_toks. cbn [fst snd]. inversion Tx; subst. apply tame_cons; [reflexivity|]. apply tame_cons; [reflexivity|]. apply tame_cons; [reflexivity|].
      apply tame_app; [constructor; [assumption|tam]|tam].
    + right. eexists. reflexivity.
Qed.
Lemma bars_mean l ops : Forall2 reads_bar l ops -> forall t (g : (pystr -> A) -> A), (forall rho, means rho t (g rho)) ->
  forall rho, means rho (fold_left (fun t f => f t) (map at_op ops) t) (g (bars_env K rho l)).
Proof.
  induction 1 as [|[x f] [nm t] l ops [Hn Hr] F IH]; intros e g He rho; [apply He|]. cbn [map fold_left fst snd] in *.
  apply (IH (at_op (nm, t) e) (fun r => g (update r (sym_name x) (value K r f)))). intro r. unfold at_op. cbn [fst snd].
  apply (M_at_upper K V den values hash r e _ (sym_name x) t (fun k => g (update r (sym_name x) k))); [apply vt_juxt, vt_symbol, Hn|intro k; apply He|apply M_plain, Hr].
Qed.
Theorem parse_bars e l : bars_wf e l ->
  exists t, parse_text (bars_latex gap e l) = Found (MRel (RExpr t)) /\ forall rho, means rho t (bars_value K rho e l).
Proof.
  intros Wl. destruct Wl as (W & F & Ne). destruct (toks_AE e [] W (or_introl eq_refl)) as (t & Ht & R). destruct (bars_run l F) as (ops & F2 & Hm & T & B).
  assert (Te : tame (toks e [])) by (apply tame_toks; [exact Hgap|exact W|left; reflexivity]).
  set (c := bars_toks gap e l). set (t' := fold_left (fun t f => f t) (map at_op ops) (TGroup t)).
  assert (Tc : tame c) by (unfold c, bars_toks, paren_toks; tam).
  assert (Hp : forall n, runs n (postfix (X n) true) c t' C2).
  { intro n. unfold postfix, c, bars_toks. apply (r_bind n _ _ _ (TGroup t) _ _ CB); [|exact T| |].
    - unfold exp. apply (r_end n _ _ _ (TGroup t)); [apply paren_comp; assumption|]. apply (r_end n _ _ [] []); [apply r_many, many_nil, dead_sups|apply r_ret].
    - destruct B as [B|[r B]]; rewrite B; [|apply after_cons; reflexivity]. apply stop_sub. reflexivity.
    - apply (r_end n _ _ _ (map at_op ops)); [apply r_many, Hm|apply r_ret]. }
  assert (Nc : c <> []) by discriminate.
  assert (H3 : A3 c [t']).
  { split; intro n.
    - unfold pplus. apply (r_end n _ _ _ t'); [apply Hp|]. apply (r_end n _ _ [] []); [apply r_many, many_nil, dead_postfix|apply r_ret].
    - rewrite <- (app_nil_r c). apply (many_cons n _ c t' [] [] C2 C2); [exact Nc|apply Hp|apply tame_nil|apply stop_sub; reflexivity|apply many_nil, dead_postfix]. }
  exists (TJuxt [t']). split.
  - apply (parse_runs _ c); [apply lex_bars; [exact Hgap|split; [exact W|split; assumption]]|].
    intro n. apply (r_less _ _ _ _ C0); [reflexivity|]. apply close0, lift0, lift1, lift2; [exact H3|unfold c, bars_toks; apply unsigned_app, paren_unsigned|exact Tc].
  - intro rho. apply M_juxt, M_one. apply (bars_mean l ops F2 (TGroup t) (fun r => value K r e)). intro r. apply M_group, M_plain, R.
Qed.
End Parsing.
Theorem latex2sympy_bars gap {A} (K : calculus A) V (O : LSympy V) den rho vs n e l st : gap = [] \/ gap = [32] ->
  faithful_calc K V den vs (o_md5 _ O) O -> (forall s t, parse_text s = Found t -> o_parse _ O s = Ret t) -> bars_wf e l -> g_var st = [] ->
  exists v, fst (latex2sympy O (Datatypes.S n) (bars_latex gap e l) vs st) = Ret (LV v) /\ worth V (den rho) O v (bars_value K rho e l).
Proof.
  intros Hg F P W E. destruct (parse_bars gap Hg K V den vs (o_md5 _ O) e l W) as (t & Ht & M).
  apply (latex2sympy_calculus K V O den rho vs t); [exact F| |apply M|exact E]. rewrite (prepare_bars gap Hg e l W). apply P, Ht.
Qed.
