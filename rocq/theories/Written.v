(** Relations, sums, products and limits of arithmetic, as they are written, read and converted *)
From Coq Require Import String List NArith ZArith QArith Bool Lia.
From Verif Require Import PyStr PyStrTheory Regex RegexTheory Normalize NumTheory NormTheory Monad MonadTheory L2S L2STheory L2SState L2SValue L2SCalc Lexer Grammar GrammarTheory Arith ArithLex ArithPrep ArithParse.
Import ListNotations.
Local Close Scope Q_scope.
Local Open Scope N_scope.
Local Open Scope par_scope.

(** * What is written *)
(** The signs of relations, with their meaning; a space after commands and after the less-than sign *)
Definition relation_signs : list (pystr * lrel) :=
  [(u "=", RAssign); (u "==", REq); (u "\equiv", REq); (u "<", RLt); (u ">", RGt); (u "\le", RLe); (u "\leq", RLe); (u "\leqslant", RLe);
   (u "\ge", RGe); (u "\geq", RGe); (u "\geqslant", RGe); (u "!=", RNe); (u "\ne", RNe); (u "\neq", RNe); (u "\not\equiv", RNe)].
Definition sign_gap (s : pystr) : pystr := match s with c :: _ => if (c =? 92) || (c =? 60) then [32] else [] | [] => [] end.
Definition sign_latex (s : pystr) : pystr := s ++ sign_gap s.
Definition is_equals (s : pystr) : bool := match s with 61 :: _ => true | _ => false end.
Section Writing.
Variable gap : pystr.
(** a chain of relations; before an equals sign the text does not end with an exclamation mark *)
Definition chain_latex (e : arith) (l : list (pystr * lrel * arith)) : pystr :=
  body gap e ++ flat_map (fun p => sign_latex (fst (fst p)) ++ body gap (snd p)) l.
Fixpoint chain_wf (e : arith) (l : list (pystr * lrel * arith)) : Prop :=
  wf e /\ match l with
          | [] => True
          | (s, o, e') :: l' => In (s, o) relation_signs /\ (is_equals s = true -> last (body gap e) 0 <> 33) /\ chain_wf e' l'
          end.
(** sums and products over x from lo to hi; limits for x to a, or to a number from one side *)
Inductive binder := BSum (x : pystr) (lo hi : arith) | BProd (x : pystr) (lo hi : arith) | BLim (x : pystr) (a : arith) | BSide (below : bool) (x ds : pystr).
Definition factors (e : arith) : pystr := if Nat.leb 1 (prec e) then body gap e else parens (body gap e).
Definition binder_latex (b : binder) : pystr :=
  match b with
  | BSum x lo hi => u "\sum_{" ++ x ++ u "=" ++ body gap lo ++ u "}^{" ++ body gap hi ++ u "}"
  | BProd x lo hi => u "\prod_{" ++ x ++ u "=" ++ body gap lo ++ u "}^{" ++ body gap hi ++ u "}"
  | BLim x a => u "\lim_{" ++ x ++ u "\to " ++ body gap a ++ u "}"
  | BSide below x ds => u "\lim_{" ++ x ++ u "\to " ++ ds ++ u "^{" ++ (if below then u "-" else u "+") ++ u "}}"
  end.
Definition bound_latex (b : binder) (e : arith) : pystr := binder_latex b ++ gap ++ factors e.
End Writing.
Definition binder_var (b : binder) : pystr := match b with BSum x _ _ | BProd x _ _ | BLim x _ | BSide _ x _ => x end.
Definition binder_wf (b : binder) : Prop :=
  In (binder_var b) symbols /\ match b with BSum _ lo hi | BProd _ lo hi => wf lo /\ wf hi | BLim _ a => wf a | BSide _ _ ds => numeral ds end.
(** worth: of the function of the bound variable *)
Definition binder_value {A} (K : calculus A) (rho : pystr -> A) (b : binder) (f : A -> A) : A :=
  match b with
  | BSum _ lo hi => bigsum K f (value K rho lo) (value K rho hi)
  | BProd _ lo hi => bigprod K f (value K rho lo) (value K rho hi)
  | BLim _ a => limit K false f (value K rho a)
  | BSide below _ ds => limit K below f (int_value K ds)
  end.
Definition bound_value {A} (K : calculus A) (rho : pystr -> A) (b : binder) (e : arith) : A :=
  binder_value K rho b (fun k => value K (update rho (sym_name (binder_var b)) k) e).

(** * Tokens *)
Definition w_under : word := (K_UNDERSCORE, u "_").
Definition w_sum : word := (K_FUNC_SUM, u "\sum").  Definition w_prod : word := (K_FUNC_PROD, u "\prod").  Definition w_lim : word := (K_FUNC_LIM, u "\lim").
Definition w_to : word := (K_LIM_APPROACH_SYM, u "\to").
Definition w_eq : word := (K_ASSIGNMENT, u "=").
Definition rel_words : list word := equalities ++ comparisons ++ rel_commands.
Definition sign_kind (s : pystr) : N := match find (fun w => str_eqb (snd w) s) rel_words with Some w => fst w | None => 0 end.
Definition w_rel (s : pystr) : word := (sign_kind s, s).
Lemma rel_word s o : In (s, o) relation_signs -> In (w_rel s) rel_words /\ (is_equals s = true -> In (w_rel s) equalities) /\
  (is_equals s = false -> In (w_rel s) followers) /\ (sign_gap s = [] -> In (w_rel s) (equalities ++ comparisons)) /\ (sign_gap s = [32] -> In (w_rel s) (rel_commands ++ arrows)) /\
  (sign_gap s = [] \/ sign_gap s = [32]) /\ mem (sign_kind s) rel_ops = true /\ forall a b, rel_node (sign_kind s) a b = RRel o a b.
Proof.
  assert (P : forall w, In w comparisons \/ In w rel_commands -> In w followers).
  { intros w H. unfold followers. do 2 (apply in_or_app; right). apply in_or_app. destruct H as [H|H]; [left; exact H|right; apply in_or_app; left; exact H]. }
  intro H. cbn in H. repeat (destruct H as [H|H]; [injection H as <- <-; split; [vm_compute; tauto|split; [try discriminate; intros _; vm_compute; tauto|
    split; [try discriminate; intros _; apply P; vm_compute; tauto|split; [try discriminate; intros _; vm_compute; tauto|split; [try discriminate; intros _; vm_compute; tauto|split; [vm_compute; tauto|split; [reflexivity|reflexivity]]]]]]]|]). destruct H.
Qed.
Section Tokens.
Variable gap : pystr.
Hypothesis Hgap : gap = [] \/ gap = [32].
Local Notation toks := (ArithLex.toks gap).
Local Notation body := (Arith.body gap).
Definition rel_toks (l : list (pystr * lrel * arith)) : list token := flat_map (fun p => tok (w_rel (fst (fst p))) [] :: toks (snd p) (sign_gap (fst (fst p)))) l.
Lemma src_rel l : forall e, chain_wf gap e l -> src (rel_toks l) = flat_map (fun p => sign_latex (fst (fst p)) ++ body (snd p)) l.
Proof.
  induction l as [|[[s o] e'] l IH]; intros e (W & H); [reflexivity|]. destruct H as (_ & _ & H). cbn [rel_toks flat_map fst snd].
  change (src ([tok (w_rel s) []] ++ toks e' (sign_gap s) ++ rel_toks l) = (sign_latex s ++ body e') ++ flat_map (fun p => sign_latex (fst (fst p)) ++ body (snd p)) l).
  rewrite !src_app, (IH e' H). rewrite src_toks by (destruct l; apply H). unfold src, sign_latex. cbn [flat_map lead text tok snd w_rel app]. rewrite app_nil_r, <- !app_assoc. reflexivity.
Qed.
Lemma good_rel l : forall e, chain_wf gap e l -> good (rel_toks l) /\ follows (body e) (rel_toks l).
Proof.
  induction l as [|[[s o] e'] l IH]; intros e (W & H); [split; [exact I|left; reflexivity]|]. destruct H as (Hs & He & H). destruct (IH e' H) as [G Fo].
  assert (W' : wf e') by (destruct l; apply H).
  destruct (rel_word s o Hs) as (_ & Re & Rf & Ro & Rc & Rg & _). cbn [rel_toks flat_map fst snd app].
  assert (Gt : good (toks e' (sign_gap s) ++ rel_toks l)) by (apply good_toks; assumption).
  assert (Bt := begins_app _ _ _ (rel_toks l) (toks_begin gap e' (sign_gap s) W')). split.
  - destruct Rg as [Eg|Eg]; [apply good_rel_opener; [apply Ro, Eg|rewrite Eg in Bt |- *; exact Bt|exact Gt]|apply good_rel_command; [apply Rc, Eg|rewrite Eg in Bt |- *; exact Bt|exact Gt]].
  - destruct (is_equals s) eqn:E; [right; right; left; split; [eexists (w_rel s), _; split; [reflexivity|apply Re; reflexivity]|apply He; reflexivity]|apply follow, Rf; reflexivity].
Qed.
Lemma lex_chain e l : chain_wf gap e l -> lex (chain_latex gap e l) = Some (toks e [] ++ rel_toks l).
Proof.
  intro W. assert (We : wf e) by (destruct l; apply W). unfold lex, chain_latex. rewrite <- (src_rel l e W), <- (src_toks gap e [] We : src (toks e []) = body e), <- src_app.
  destruct (good_rel l e W) as [G Fo]. apply lex_go_good; [|lia]. apply good_toks; [exact Hgap|exact We|left; reflexivity|exact G|exact Fo].
Qed.
(** binders *)
Definition level_toks (l : nat) (e : arith) (ld : pystr) : list token := ArithLex.at_level gap l e ld.
Definition big (w : word) (x : pystr) (lo hi : arith) : list token :=
  tok w [] :: tok w_under [] :: tok w_lbrace [] :: tok (w_sym x) [] :: tok w_eq [] :: toks lo [] ++ tok w_rbrace [] :: tok w_caret [] :: tok w_lbrace [] :: toks hi [] ++ [tok w_rbrace []].
Definition to (x : pystr) (c : list token) : list token :=
  tok w_lim [] :: tok w_under [] :: tok w_lbrace [] :: tok (w_sym x) [] :: tok w_to [] :: c ++ [tok w_rbrace []].
Definition side (below : bool) : word := if below then w_minus else w_op Plus.
Definition binder_toks (b : binder) : list token :=
  match b with
  | BSum x lo hi => big w_sum x lo hi
  | BProd x lo hi => big w_prod x lo hi
  | BLim x a => to x (toks a [32])
  | BSide below x ds => to x (digits [32] ds ++ [tok w_caret []; tok w_lbrace []; tok (side below) []; tok w_rbrace []])
  end.
Definition bound_toks (b : binder) (e : arith) : list token := binder_toks b ++ level_toks 1 e gap.
Lemma src_level l e ld : wf e -> src (level_toks l e ld) = ld ++ (if Nat.leb l (prec e) then body e else parens (body e)).
Proof. intro W. unfold level_toks, ArithLex.at_level. destruct (Nat.leb _ _); [apply src_toks, W|]. rewrite src_paren, (src_toks gap e [] W). reflexivity. Qed.
Lemma src_cons w ld r : src (tok w ld :: r) = (ld ++ snd w) ++ src r.
Proof. reflexivity. Qed.
Lemma src_bound b e : binder_wf b -> wf e -> src (bound_toks b e) = bound_latex gap b e.
Proof.
  intros [Hx Hb] W. unfold bound_toks, bound_latex. rewrite src_app, (src_level 1 e gap W). f_equal.
  destruct b as [x lo hi|x lo hi|x a|below x ds]; cbn [binder_var] in *; unfold binder_toks, binder_latex, big, to.
  - destruct Hb. rewrite !src_cons, src_app, (src_toks gap lo []) by assumption. rewrite !src_cons, src_app, (src_toks gap hi []) by assumption. rewrite (w_sym_text x Hx). rewrite <- !app_assoc. reflexivity.
  - destruct Hb. rewrite !src_cons, src_app, (src_toks gap lo []) by assumption. rewrite !src_cons, src_app, (src_toks gap hi []) by assumption. rewrite (w_sym_text x Hx). rewrite <- !app_assoc. reflexivity.
  - rewrite !src_cons, src_app, (src_toks gap a [32]) by assumption. rewrite (w_sym_text x Hx). rewrite <- !app_assoc. reflexivity.
  - rewrite !src_cons, !src_app, (src_digits [32] ds) by apply Hb. rewrite (w_sym_text x Hx). rewrite <- !app_assoc. destruct below; reflexivity.
Qed.
Ltac table := repeat (apply Forall_cons || apply Forall_nil || (intro; vm_compute; reflexivity) || (vm_compute; reflexivity)).
Lemma t_brace : Forall (fun v => fits w_rbrace (snd v)) starters.
Proof. table. Qed.
Lemma t_lbrace_sym : Forall (fun x => fits w_lbrace (snd (w_sym x)) /\ fits (w_sym x) (u "=") /\ fits (w_sym x) (u "\to")) symbols.
Proof. repeat (apply Forall_cons; [split; [|split]; intro; vm_compute; reflexivity|]). apply Forall_nil. Qed.
Definition bounded (ws : list word) : Prop := Forall (fun w => skipped (fst w) = false /\ snd w <> []) ws.
Ltac word_ok := split; [reflexivity|discriminate].
Lemma good_head w x r : In w [w_sum; w_prod; w_lim] -> In x symbols -> (exists p r', src r = p ++ r' /\ fits (w_sym x) p) -> good r ->
  good (tok w [] :: tok w_under [] :: tok w_lbrace [] :: tok (w_sym x) [] :: r).
Proof.
  intros Hw Hx (p & r' & E & F) G. pose proof t_lbrace_sym as T. rewrite Forall_forall in T. destruct (T x Hx) as (Tb & _ & _).
  assert (G1 : good (tok w_lbrace [] :: tok (w_sym x) [] :: r)).
  { apply good_cons; [word_ok|apply no_lead|apply meets_word, Tb|]. apply good_cons; [apply words_ok, in_or_app; left; apply sym_starter, Hx|apply no_lead|right; exists p, r'; auto|exact G]. }
  assert (G2 : good (tok w_under [] :: tok w_lbrace [] :: tok (w_sym x) [] :: r)).
  { apply good_cons; [word_ok|apply no_lead|apply meets_word; intro; vm_compute; reflexivity|exact G1]. }
  cbn in Hw. repeat (destruct Hw as [<-|Hw]; [apply good_cons; [word_ok|apply no_lead|apply meets_word; intro; vm_compute; reflexivity|exact G2]|]). destruct Hw.
Qed.
Lemma good_level l e rest : wf e -> good rest -> rest = [] -> good (level_toks l e gap ++ rest).
Proof.
  intros W G ->. unfold level_toks, ArithLex.at_level. destruct (Nat.leb _ _); [apply good_toks; [exact Hgap|exact W|exact Hgap|exact I|left; reflexivity]|].
  unfold paren_toks. cbn [app]. rewrite <- app_assoc. cbn [app].
  apply good_opener; [cbn; tauto|apply lead_starter; [apply named_starter; cbn; tauto|exact Hgap]|apply begins_app, toks_begin, W|].
  apply good_toks; [exact Hgap|exact W|left; reflexivity| |apply follow; cbn; tauto].
  apply good_ender; [apply named_ender; cbn; tauto|apply no_lead|left; reflexivity|exact I].
Qed.
Lemma good_close r : begins r gap starters -> good r -> good (tok w_rbrace [] :: r).
Proof.
  intros (v & r' & -> & Hv) G. apply good_cons; [word_ok|apply no_lead| |exact G]. destruct Hgap as [E|E]; rewrite E.
  - apply meets_word. pose proof t_brace as T. rewrite Forall_forall in T. apply T, Hv.
  - right. exists [32], (snd v ++ src r'). split; [rewrite src_cons, <- app_assoc; reflexivity|intro; vm_compute; reflexivity].
Qed.
Lemma good_bound b e : binder_wf b -> wf e -> good (bound_toks b e).
Proof.
  intros [Hx Hb] W. pose proof t_lbrace_sym as T. rewrite Forall_forall in T. destruct (T _ Hx) as (_ & Teq & Tto).
  assert (Ge : good (level_toks 1 e gap)) by (rewrite <- (app_nil_r (level_toks 1 e gap)); apply good_level; [exact W|exact I|reflexivity]).
  assert (Be : begins (level_toks 1 e gap) gap starters) by apply at_level_begins, W.
  assert (Gc := good_close _ Be Ge).
  assert (BG : forall w x lo hi, In w [w_sum; w_prod; w_lim] -> In x symbols -> fits (w_sym x) (u "=") -> wf lo -> wf hi -> good (big w x lo hi ++ level_toks 1 e gap)).
  { intros w x lo hi Hw Hs Teq' W1 W2. unfold big. cbn [app]. rewrite <- app_assoc. cbn [app]. rewrite <- app_assoc. cbn [app].
    apply good_head; [exact Hw|exact Hs|eexists (u "="), _; split; [apply src_cons|exact Teq']|].
    apply good_rel_opener; [cbn; tauto|apply begins_app, toks_begin, W1|]. apply good_toks; [exact Hgap|exact W1|left; reflexivity| |apply follow; cbn; tauto].
    assert (G3 : good (toks hi [] ++ tok w_rbrace [] :: level_toks 1 e gap)).
    { apply good_toks; [exact Hgap|exact W2|left; reflexivity|exact Gc|apply follow; cbn; tauto]. }
    apply good_ender; [apply named_ender; cbn; tauto|apply no_lead|apply follow; cbn; tauto|].
    apply good_caret; [apply begins_app, toks_begin, W2|]. apply good_opener; [cbn; tauto|apply no_lead|apply begins_app, toks_begin, W2|exact G3]. }
  unfold bound_toks. destruct b as [x lo hi|x lo hi|x a|below x ds]; cbn [binder_var binder_toks] in *.
  - destruct Hb. apply BG; try assumption. cbn; tauto.
  - destruct Hb. apply BG; try assumption. cbn; tauto.
  - unfold to. cbn [app]. rewrite <- app_assoc. cbn [app]. apply good_head; [cbn; tauto|exact Hx|eexists (u "\to"), _; split; [apply src_cons|exact Tto]|].
    apply good_rel_command; [cbn; tauto|apply begins_app, toks_begin, Hb|]. apply good_toks; [exact Hgap|exact Hb|right; reflexivity|exact Gc|apply follow; cbn; tauto].
  - unfold to. cbn [app]. rewrite <- !app_assoc. cbn [app]. apply good_head; [cbn; tauto|exact Hx|eexists (u "\to"), _; split; [apply src_cons|exact Tto]|].
    apply good_rel_command; [cbn; tauto|apply (begins_more _ _ digit_words); [apply begins_app, begins_digits, Hb|apply incl_digits]|].
    apply good_digits; [exact Hb|right; reflexivity| |right; eexists w_caret, _; split; [reflexivity|unfold after_digits; apply in_or_app; right; apply in_or_app; left; cbn; tauto]].
    apply good_cons; [word_ok|apply no_lead| |].
    { right. exists (u "{" ++ snd (side below)), (u "}}" ++ src (level_toks 1 e gap)). split; [destruct below; reflexivity|destruct below; intro; vm_compute; reflexivity]. }
    apply good_cons; [word_ok|apply no_lead|apply meets_word; destruct below; intro; vm_compute; reflexivity|].
    apply good_cons; [destruct below; word_ok|apply no_lead|apply meets_word; destruct below; intro; vm_compute; reflexivity|].
    apply good_cons; [word_ok|apply no_lead|apply meets_word; intro; vm_compute; reflexivity|exact Gc].
Qed.
Lemma lex_bound b e : binder_wf b -> wf e -> lex (bound_latex gap b e) = Some (bound_toks b e).
Proof. intros Hb W. unfold lex. rewrite <- (src_bound b e Hb W). apply lex_go_good; [apply good_bound; assumption|lia]. Qed.
End Tokens.
