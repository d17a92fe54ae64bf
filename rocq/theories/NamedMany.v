(** Functions of several arguments by their names *)
From Coq Require Import String List NArith ZArith QArith Bool Lia.
From Verif Require Import PyStr PyStrTheory Regex RegexTheory Normalize NumTheory NormTheory Monad MonadTheory L2S L2STheory L2SState L2SValue L2SFindings Lexer Grammar GrammarTheory Arith ArithLex ArithPrep ArithParse Written WrittenParse Vocabulary Named.
Import ListNotations.
Local Close Scope Q_scope.
Local Open Scope N_scope.
Local Open Scope mon_scope.

(** * The table *)
Definition multi_commands : list (pystr * pystr) := pairs [("gcd", "gcd"); ("lcm", "lcm"); ("max", "Max"); ("min", "Min")]%string.
Definition multi_operators : list (pystr * pystr) := pairs
  [("gcd", "gcd"); ("lcm", "lcm"); ("zeros", "zeros"); ("ones", "ones"); ("diag", "diag"); ("hstack", "hstack"); ("vstack", "vstack");
   ("orth", "GramSchmidt"); ("ortho", "GramSchmidt"); ("orthogonal", "GramSchmidt"); ("orthogonalize", "GramSchmidt")]%string.
Definition multi_table : list (pystr * pystr) :=
  map (fun p => (command (fst p), snd p)) multi_commands ++ map (fun p => (operator (fst p), snd p)) multi_operators.
(** The arguments: numerals and symbols *)
Definition simple (e : arith) : Prop := match e with Num ds => numeral ds | Sym x => In x symbols | _ => False end.
Lemma simple_wf e : simple e -> wf e.
Proof. destruct e; cbn; tauto. Qed.
Fixpoint listed (es : list arith) : pystr := match es with [] => [] | [e] => body [] e | e :: es' => body [] e ++ u "," ++ listed es' end.

(** * Parsers that can take a piece, whatever follows *)
Definition can {A} (p : P A) (c : list token) (a : A) : Prop := forall rest k, k a rest <> NoParse -> p (c ++ rest) k <> NoParse.
Lemma can_ret {A} (a : A) : can (pret a) [] a.
Proof. intros rest k H. exact H. Qed.
Lemma can_bind {A B} (p : P A) (f : A -> P B) c a c' b : can p c a -> can (f a) c' b -> can (pbind p f) (c ++ c') b.
Proof. intros Hp Hf rest k H. rewrite <- app_assoc. unfold pbind. apply Hp. apply Hf, H. Qed.
Lemma can_end {A B} (p : P A) (f : A -> P B) c a b : can p c a -> can (f a) [] b -> can (pbind p f) c b.
Proof. intros Hp Hf. rewrite <- (app_nil_r c). apply (can_bind p f c a); assumption. Qed.
Lemma can_skip {A B} (p : P A) (f : A -> P B) c a b : can p [] a -> can (f a) c b -> can (pbind p f) c b.
Proof. intros Hp Hf. change c with ([] ++ c). apply (can_bind p f [] a); assumption. Qed.
Lemma can_left {A} (p q : P A) c a : can p c a -> can (palt p q) c a.
Proof. intros Hp rest k H. unfold palt. specialize (Hp rest k H). destruct (p (c ++ rest) k); [discriminate|contradiction|discriminate]. Qed.
Lemma can_right {A} (p q : P A) c a : can q c a -> can (palt p q) c a.
Proof. intros Hq rest k H. unfold palt. specialize (Hq rest k H). destruct (p (c ++ rest) k); [discriminate|exact Hq|discriminate]. Qed.
Lemma can_one ks t : mem (kind t) ks = true -> can (pone ks) [t] t.
Proof. intros M rest k H. cbn [app pone]. rewrite M. exact H. Qed.
Lemma can_map {A B} (f : A -> B) (p : P A) c a : can p c a -> can (pmap f p) c (f a).
Proof. intro H. apply (can_end p _ c a); [exact H|apply can_ret]. Qed.
Lemma can_text {A} (p : P A) c a : can p c a -> can (ptext p) c (get_text c).
Proof.
  intro H. intros rest k N. unfold ptext, pmap, pbind, pspan, pret. apply H. cbn [snd]. rewrite app_length, Nat.add_sub, firstn_app, firstn_all, Nat.sub_diag, app_nil_r. exact N.
Qed.
Lemma can_many_nil {A} (p : P A) : can (pmany p) [] [].
Proof. intros rest k H. cbn [app]. unfold pmany. destruct (List.length rest); [exact H|]. apply (can_right _ _ [] [] (can_ret _) rest k H). Qed.
Lemma can_many_n {A} (p : P A) cs : Forall (fun ca => can p (fst ca) (snd ca) /\ fst ca <> []) cs -> forall i rest k,
  (List.length (flat_map fst cs ++ rest) <= i)%nat -> k (map snd cs) rest <> NoParse -> pmany_n i p (flat_map fst cs ++ rest) k <> NoParse.
Proof.
  induction 1 as [|[c a] cs [Hc Nc] F IH]; intros i rest k L H; cbn [flat_map fst snd map app] in *.
  - destruct i; [exact H|]. apply (can_right _ _ [] [] (can_ret _) rest k H).
  - rewrite <- app_assoc in *. destruct c as [|t c]; [contradiction|]. rewrite app_length in L. cbn [List.length] in L. destruct i as [|i]; [lia|]. cbn [pmany_n].
    unfold palt. assert (N : (a <~ p;; l <~ pmany_n i p;; pret (a :: l))%par ((t :: c) ++ flat_map fst cs ++ rest) k <> NoParse).
    { unfold pbind at 1. apply Hc. unfold pbind. apply IH; [lia|exact H]. }
    destruct ((a <~ p;; l <~ pmany_n i p;; pret (a :: l))%par ((t :: c) ++ flat_map fst cs ++ rest) k); [discriminate|contradiction|discriminate].
Qed.
Lemma can_many {A} (p : P A) cs : Forall (fun ca => can p (fst ca) (snd ca) /\ fst ca <> []) cs -> can (pmany p) (flat_map fst cs) (map snd cs).
Proof. intros F rest k H. unfold pmany. apply (can_many_n p cs F); [lia|exact H]. Qed.
Section Level.
Variable rec : rules_at.
Lemma can_expr c t : can (comp rec true) c t -> can (additive rec) c (TJuxt [t]).
Proof.
  intro H. unfold additive, chain. apply (can_end _ _ _ (TJuxt [t])); [|apply (can_end _ _ [] []); [apply can_many_nil|apply can_ret]].
  unfold mp, chain. apply (can_end _ _ _ (TJuxt [t])); [|apply (can_end _ _ [] []); [apply can_many_nil|apply can_ret]].
  unfold unary. apply (can_skip _ _ _ []); [apply can_many_nil|]. apply (can_end _ _ _ [t]); [|apply can_ret]. unfold pplus.
  apply (can_end _ _ _ t); [|apply (can_end _ _ [] []); [apply can_many_nil|apply can_ret]]. unfold postfix.
  apply (can_end _ _ _ t); [|apply (can_end _ _ [] []); [apply can_many_nil|apply can_ret]]. unfold exp.
  apply (can_end _ _ _ t); [exact H|apply (can_end _ _ [] []); [apply can_many_nil|apply can_ret]].
Qed.
Lemma can_atom c t : can (atom rec) c t -> can (additive rec) c (TJuxt [t]).
Proof. intro H. apply can_expr. unfold comp. do 6 apply can_right. apply can_left, H. Qed.
Lemma can_sym x nm : named x = Some nm -> can (additive rec) [x] (TJuxt [TSymbol nm None None]).
Proof.
  intro E. apply can_atom. unfold atom. apply can_left. unfold atom_expr. apply (can_end _ _ _ nm).
  - intros rest k H. cbn [app]. rewrite (name_eq rec x nm rest k E). exact H.
  - do 4 apply can_right. apply can_ret.
Qed.
Lemma can_digits ts : Forall (fun t => kind t = K_DIGIT) ts -> ts <> [] -> can (additive rec) ts (TJuxt [TNumber (get_text ts)]).
Proof.
  intros F N. apply can_atom. unfold atom. do 4 apply can_right. apply can_left. unfold p_number. apply can_map. apply (can_text _ _ tt).
  unfold p_number_toks. apply can_left. assert (D : exists l, can (pplus pdigit) ts l).
  { destruct ts as [|t ts]; [contradiction|]. inversion_clear F. exists (t :: ts). unfold pplus. change (t :: ts) with ([t] ++ ts) at 1.
    apply (can_bind _ _ _ t); [apply can_one; rewrite H; reflexivity|]. apply (can_end _ _ _ ts); [|apply can_ret].
    assert (Y : Forall (fun ca : list token * token => can pdigit (fst ca) (snd ca) /\ fst ca <> []) (map (fun t => ([t], t)) ts)).
    { clear -H0. induction H0 as [|t ts Ht F IH]; [constructor|]. constructor; [|exact IH]. split; [apply can_one; cbn [snd]; rewrite Ht; reflexivity|discriminate]. }
    pose proof (can_many _ _ Y) as Z. assert (flat_map fst (map (fun t : token => ([t], t)) ts) = ts) as E1 by (clear; induction ts; cbn; congruence).
    rewrite E1, map_map, map_id in Z. exact Z. }
  destruct D as [l D]. apply (can_end _ _ _ l); [exact D|]. apply (can_end _ _ [] []); [apply can_many_nil|]. apply (can_end _ _ [] None); [apply can_right, can_ret|apply can_ret].
Qed.
End Level.

(** * The arguments *)
Fixpoint args_toks (es : list arith) : list token :=
  match es with [] => [] | [e] => ArithLex.toks [] e [] | e :: es' => ArithLex.toks [] e [] ++ tok w_comma [] :: args_toks es' end.
Lemma listed_cons e e' es : listed (e :: e' :: es) = body [] e ++ u "," ++ listed (e' :: es).
Proof. reflexivity. Qed.
Lemma args_cons e e' es : args_toks (e :: e' :: es) = ArithLex.toks [] e [] ++ tok w_comma [] :: args_toks (e' :: es).
Proof. reflexivity. Qed.
Lemma simple_toks e : simple e -> (exists ds, e = Num ds /\ numeral ds /\ ArithLex.toks [] e [] = map (fun c => tok (w_digit c) []) ds) \/ (exists x, e = Sym x /\ In x symbols /\ ArithLex.toks [] e [] = [tok (w_sym x) []]).
Proof.
  destruct e; cbn [simple]; try contradiction; intro H.
  - left. eexists. split; [reflexivity|]. split; [exact H|]. destruct ds as [|c r]; [destruct H; congruence|]. reflexivity.
  - right. eexists. split; [reflexivity|]. split; [exact H|reflexivity].
Qed.
Lemma can_simple rec e : simple e -> exists t, can (additive rec) (ArithLex.toks [] e []) t.
Proof.
  intro H. destruct (simple_toks e H) as [(ds & -> & [Fd Nd] & ->)|(x & -> & Hx & ->)].
  - eexists. apply can_digits; [|destruct ds; [congruence|discriminate]]. apply Forall_forall. intros t I. apply in_map_iff in I. destruct I as (c & <- & _). reflexivity.
  - destruct (sym_named x [] Hx) as (nm & En & _). eexists. apply can_sym, En.
Qed.
Lemma can_commas rec es : es <> [] -> Forall simple es -> can (commas (level rec)) (args_toks es) tt.
Proof.
  intros N F. assert (Y : forall es, es <> [] -> Forall simple es -> exists c cs, args_toks es = c ++ flat_map fst cs /\ (exists t, can (additive rec) c t) /\
    Forall (fun ca : list token * tree => can (_ <~ ptok K_COMMA;; additive rec)%par (fst ca) (snd ca) /\ fst ca <> []) cs).
  { clear. induction es as [|e es IH]; intros N F; [contradiction|]. inversion_clear F as [|? ? He Fes]. destruct es as [|e' es].
    - exists (ArithLex.toks [] e []), []. cbn [args_toks flat_map]. rewrite app_nil_r. split; [reflexivity|]. split; [apply can_simple, He|constructor].
    - destruct (IH ltac:(discriminate) Fes) as (c & cs & E & [t C] & FC). exists (ArithLex.toks [] e []), ((tok w_comma [] :: c, t) :: cs).
      rewrite args_cons, E. split; [reflexivity|]. split; [apply can_simple, He|]. constructor; [|exact FC]. cbn [fst snd]. split; [|discriminate].
      change (tok w_comma [] :: c) with ([tok w_comma []] ++ c). apply (can_bind _ _ _ (tok w_comma [])); [apply can_one; reflexivity|exact C]. }
  destruct (Y es N F) as (c & cs & -> & [t C] & FC). unfold commas. apply (can_bind _ _ _ t); [exact C|]. apply (can_end _ _ _ (map snd cs)); [|apply can_ret].
  apply (can_many _ cs FC).
Qed.
Lemma args_plain es : Forall simple es -> Forall (fun t => mem (kind t) [K_R_PAREN; K_R_RIGHT] = false /\ kind t <> K_UNDERSCORE /\ kind t <> K_MATRIX_XRIGHTARROW /\ lead t = []) (args_toks es).
Proof.
  assert (One : forall e, simple e -> Forall (fun t => mem (kind t) [K_R_PAREN; K_R_RIGHT] = false /\ kind t <> K_UNDERSCORE /\ kind t <> K_MATRIX_XRIGHTARROW /\ lead t = []) (ArithLex.toks [] e [])).
  { intros e H. destruct (simple_toks e H) as [(ds & -> & _ & ->)|(x & -> & Hx & ->)].
    - apply Forall_forall. intros t I. apply in_map_iff in I. destruct I as (c & <- & _). split; [reflexivity|repeat split; discriminate].
    - constructor; [|constructor]. destruct (sym_named x [] Hx) as (nm & En & _). destruct (named_cases _ _ En) as [(s & l & E & _)|(s & l & E & _)]; rewrite E;
        (split; [reflexivity|split; [discriminate|split; [discriminate|]]]); injection E as _ _ <-; reflexivity. }
  induction es as [|e es IH]; intro F; [constructor|]. inversion_clear F as [|? ? He Fes]. destruct es as [|e' es]; [apply One, He|]. rewrite args_cons.
  apply Forall_app. split; [apply One, He|]. constructor; [split; [reflexivity|repeat split; discriminate]|]. apply IH, Fes.
Qed.
Lemma src_args es : Forall simple es -> src (args_toks es) = listed es.
Proof.
  induction es as [|e es IH]; intro F; [reflexivity|]. inversion_clear F as [|? ? He Fes]. pose proof (src_toks [] e [] (simple_wf e He)) as S. cbn [app] in S. destruct es as [|e' es]; [exact S|].
  rewrite args_cons, listed_cons, src_app, S. f_equal. change (src (tok w_comma [] :: args_toks (e' :: es))) with (u "," ++ src (args_toks (e' :: es))). rewrite (IH Fes). reflexivity.
Qed.
Lemma text_args es : Forall simple es -> get_text (args_toks es) = listed es.
Proof.
  intro F. rewrite <- (src_args es F). pose proof (args_plain es F) as P. unfold get_text, src. induction P as [|t ts (_ & _ & _ & L) P IH]; [reflexivity|].
  cbn [flat_map]. rewrite L, IH. reflexivity.
Qed.
(** * The parser finds them *)
Lemma commas_found n es k r : es <> [] -> Forall simple es -> (List.length (args_toks es ++ [tok w_rparen []]) < n)%nat ->
  (forall a t rest, mem (kind t) [K_R_PAREN; K_R_RIGHT] = false -> k a (t :: rest) = NoParse) -> (forall a, k a [] = NoParse) ->
  k (listed es) [tok w_rparen []] = Found r -> ptext (commas (X n)) (args_toks es ++ [tok w_rparen []]) k = Found r.
Proof.
  intros N F L Kt Ke E. destruct n as [|m]; [lia|].
  assert (NP : ptext (commas (X (Datatypes.S m))) (args_toks es ++ [tok w_rparen []]) k <> NoParse).
  { apply (can_text _ _ tt); [apply can_commas; assumption|]. rewrite (text_args es F), E. discriminate. }
  assert (So : sound m (commas (X (Datatypes.S m))) (shift 0 0)).
  { unfold commas. destruct (s_rules (Datatypes.S m)) as (Se & _). apply (s_bind m _ _ 0 0 0); [apply s_loose, Se; lia|]. intro a.
    apply (s_bind m _ _ 0 0 0); [|intro; apply s_ret]. apply s_many. apply (s_step m _ _ 0 0 0); [apply s_plain; reflexivity|]. intro o. apply sound_below, s_loose, Se. lia. }
  pose proof (args_plain es F) as Pl.
  set (ts := args_toks es ++ [tok w_rparen []]) in *.
  change (ptext (commas (X (Datatypes.S m))) ts k) with (commas (X (Datatypes.S m)) ts (fun a r => k (get_text (firstn (List.length ts - List.length r) ts)) r)) in *.
  assert (Lm : (List.length ts <= m)%nat) by lia.
  destruct (So ts _ Lm NP) as [(a & c & rest & Ec & _ & Ek)|[_ O]].
  - rewrite <- Ek. cbv beta in Ek. rewrite <- Ek in NP. clear Ek So. unfold ts in Ec. destruct rest as [|t rest]; [rewrite Ke in NP; congruence|].
    destruct (mem (kind t) [K_R_PAREN; K_R_RIGHT]) eqn:Kr; [|rewrite Kt in NP by exact Kr; congruence].
    assert (args_toks es = c /\ [tok w_rparen []] = t :: rest) as [Ea Er].
    { clear - Ec Pl Kr. revert c Ec. induction Pl as [|x l [Hx _] P IH]; intros c Ec; cbn [app] in Ec.
      - destruct c as [|y c]; [split; [reflexivity|exact Ec]|]. injection Ec as _ Ec. destruct c; discriminate.
      - destruct c as [|y c]; [injection Ec as <- _; congruence|]. injection Ec as <- Ec. destruct (IH c Ec) as [-> ->]. auto. }
    rewrite <- Er. replace (firstn _ _) with (args_toks es); [rewrite (text_args es F); exact E|].
    unfold ts. rewrite app_length, Nat.add_sub, firstn_app, firstn_all, Nat.sub_diag, app_nil_r. reflexivity.
  - exfalso. revert O. apply tame_odd. unfold ts. apply tame_app; [|repeat constructor; discriminate].
    apply (Forall_impl _ (fun t H => conj (proj1 (proj2 H)) (proj1 (proj2 (proj2 H)))) Pl).
Qed.

(** * The heads *)
Definition multi_heads : list head := map command_head multi_commands ++ map operator_head multi_operators.
Lemma multi_table_heads w f : In (w, f) multi_table -> exists h, In h multi_heads /\ h_text h = w /\ h_calls h = f.
Proof.
  unfold multi_table, multi_heads. intro H. apply in_app_or in H. destruct H as [H|H]; apply in_map_iff in H; destruct H as (p & [= <- <-] & H).
  - exists (command_head p). split; [apply in_or_app; left; apply in_map, H|]. split; [|reflexivity].
    unfold h_text, command_head, word_of. cbn [h_words flat_map snd]. apply app_nil_r.
  - exists (operator_head p). split; [apply in_or_app; right; apply in_map, H|]. split; [|reflexivity].
    unfold h_text, operator_head, word_of, operator. cbn [h_words flat_map snd]. rewrite app_nil_r. reflexivity.
Qed.
Lemma t_multi_heads : Forall (fun h => chained (h_words h) (u "(")) multi_heads.
Proof.
  unfold multi_heads, multi_commands, multi_operators. cbn [map app pairs].
  repeat (apply Forall_cons; [cbn [chained h_words command_head operator_head fst];
    repeat split; try (vm_compute; discriminate); try (vm_compute; reflexivity); intro; vm_compute; reflexivity|]). apply Forall_nil.
Qed.
Lemma multi_heads_prepared : forallb (fun h => forallb (fun q => avoids q (h_text h)) cores && negb (existsb (N.eqb 95) (h_text h))) multi_heads = true.
Proof. vm_compute. reflexivity. Qed.
Definition args_in_parens (es : list arith) : list token := tok w_lparen [] :: args_toks es ++ [tok w_rparen []].
Lemma lettered_args es : Forall simple es -> Forall lettered (args_toks es).
Proof.
  assert (One : forall e, simple e -> Forall lettered (ArithLex.toks [] e [])) by (intros e H; apply lettered_toks; [left; reflexivity|apply simple_wf, H|left; reflexivity]).
  induction es as [|e es IH]; intro F; [constructor|]. inversion_clear F as [|? ? He Fes]. destruct es as [|e' es]; [apply One, He|]. rewrite args_cons.
  apply Forall_app. split; [apply One, He|]. constructor; [apply lettered_tok; [apply a_other; cbn; tauto|left; reflexivity]|apply IH, Fes].
Qed.
Lemma lettered_parens es : Forall simple es -> Forall lettered (args_in_parens es).
Proof.
  intro F. unfold args_in_parens. constructor; [apply lettered_tok; [apply a_starter, named_starter; cbn; tauto|left; reflexivity]|].
  apply Forall_app. split; [apply lettered_args, F|]. constructor; [apply lettered_tok; [apply a_ender, named_ender; cbn; tauto|left; reflexivity]|constructor].
Qed.
Lemma src_parens es : Forall simple es -> src (args_in_parens es) = u "(" ++ listed es ++ u ")".
Proof. intro F. unfold args_in_parens. change (src (tok w_lparen [] :: ?r)) with (u "(" ++ src r). rewrite src_app, (src_args es F). reflexivity. Qed.
Lemma prepare_many h es : In h multi_heads -> Forall simple es -> prepare (h_text h ++ u "(" ++ listed es ++ u ")") = h_text h ++ u "(" ++ listed es ++ u ")".
Proof.
  intros H F. pose proof multi_heads_prepared as T. rewrite forallb_forall in T. specialize (T _ H). apply andb_true_iff in T. destruct T as [T1 T2].
  rewrite <- (src_parens es F). apply prepare_after; [exact T1|apply negb_true_iff, T2|apply lettered_parens, F].
Qed.
(** lexing *)
Local Ltac table := repeat (apply Forall_cons || apply Forall_nil || (intro; vm_compute; reflexivity) || (vm_compute; reflexivity)).
Definition arg_words : list word := digit_words ++ map w_sym symbols.
Lemma t_comma : Forall (fun v => fits w_comma (snd v)) arg_words.
Proof. unfold arg_words. apply Forall_app. split; table. Qed.
Lemma t_sym_comma : Forall (fun w => fits w (u ",")) (map w_sym symbols).
Proof. table. Qed.
Lemma sym_ok x : In x symbols -> skipped (fst (w_sym x)) = false /\ snd (w_sym x) <> [].
Proof.
  intro H. assert (T : Forall (fun w => skipped (fst w) = false /\ snd w <> []) (map w_sym symbols)) by (repeat (apply Forall_cons; [split; [vm_compute; reflexivity|vm_compute; discriminate]|]); apply Forall_nil).
  rewrite Forall_forall in T. apply T, in_map, H.
Qed.
Lemma simple_begins e rest : simple e -> begins (ArithLex.toks [] e [] ++ rest) [] arg_words.
Proof.
  intro H. destruct (simple_toks e H) as [(ds & -> & [Fd Nd] & ->)|(x & -> & Hx & ->)].
  - destruct ds as [|c ds]; [congruence|]. inversion_clear Fd. eexists _, _. split; [reflexivity|]. apply in_or_app; left. apply digit_word. assumption.
  - eexists _, _. split; [reflexivity|]. apply in_or_app; right. apply in_map, Hx.
Qed.
Lemma args_begin es rest : es <> [] -> Forall simple es -> begins (args_toks es ++ rest) [] arg_words.
Proof.
  intros N F. destruct F as [|e es He Fes]; [contradiction|]. destruct es as [|e' es]; [apply simple_begins, He|]. rewrite args_cons, <- app_assoc. apply simple_begins, He.
Qed.
Lemma good_args es : es <> [] -> Forall simple es -> good (args_toks es ++ [tok w_rparen []]).
Proof.
  assert (Rp : good [tok w_rparen []]) by (apply good_ender; [apply named_ender; cbn; tauto|apply no_lead|left; reflexivity|exact I]).
  induction es as [|e es IH]; intros N F; [contradiction|]. inversion_clear F as [|? ? He Fes]. destruct es as [|e' es].
  - cbn [args_toks]. apply good_toks; [left; reflexivity|apply simple_wf, He|left; reflexivity|exact Rp|apply follow; cbn; tauto].
  - specialize (IH ltac:(discriminate) Fes). destruct (args_begin (e' :: es) [tok w_rparen []] ltac:(discriminate) Fes) as (v & r & Ev & Hv).
    rewrite args_cons, <- app_assoc. cbn [app].
    assert (Gc : good (tok w_comma [] :: args_toks (e' :: es) ++ [tok w_rparen []])).
    { apply good_cons; [split; [reflexivity|discriminate]|apply no_lead| |exact IH]. rewrite Ev. apply meets_word. pose proof t_comma as T. rewrite Forall_forall in T. apply T, Hv. }
    destruct (simple_toks e He) as [(ds & -> & Nd & _)|(x & -> & Hx & ->)].
    + apply good_digits; [exact Nd|left; reflexivity|exact Gc|]. right. eexists w_comma, _. split; [reflexivity|].
      unfold after_digits. do 2 (apply in_or_app; right). apply in_or_app; left. cbn; tauto.
    + cbn [app]. apply good_cons; [apply sym_ok, Hx|apply no_lead| |exact Gc]. apply meets_word. pose proof t_sym_comma as T. rewrite Forall_forall in T. apply T, in_map, Hx.
Qed.
Lemma lex_many h es : In h multi_heads -> es <> [] -> Forall simple es -> lex (h_text h ++ u "(" ++ listed es ++ u ")") = Some (head_toks h ++ args_in_parens es).
Proof.
  intros H N F. pose proof t_multi_heads as T. rewrite Forall_forall in T. specialize (T _ H). unfold lex.
  assert (S : src (head_toks h ++ args_in_parens es) = h_text h ++ u "(" ++ listed es ++ u ")") by (unfold head_toks; rewrite src_app, src_words, (src_parens es F); reflexivity).
  rewrite <- S. apply lex_go_good; [|lia]. unfold head_toks, args_in_parens. apply good_words; [exact T|].
  apply good_cons; [split; [reflexivity|discriminate]|apply no_lead| |apply good_args; assumption].
  destruct (args_begin es [tok w_rparen []] N F) as (v & r & -> & Hv). apply meets_word.
  assert (T' : Forall (fun v => fits w_lparen (snd v)) arg_words) by (unfold arg_words; apply Forall_app; split; table). rewrite Forall_forall in T'. apply T', Hv.
Qed.

(** parsing *)
Section Parse.
Local Opaque rules_upto.
Lemma multi_dead h : In h multi_heads -> forall rec rest (k : K tree),
  brackets TGroup group_pairs (r_expr rec) (head_toks h ++ rest) k = NoParse /\ brackets TNorm norm_pairs (r_expr rec) (head_toks h ++ rest) k = NoParse /\
  brackets TAbs abs_pairs (r_expr rec) (head_toks h ++ rest) k = NoParse /\ brackets TFloor floor_pairs (r_expr rec) (head_toks h ++ rest) k = NoParse /\
  brackets TCeil ceil_pairs (r_expr rec) (head_toks h ++ rest) k = NoParse /\ func_single rec (head_toks h ++ rest) k = NoParse.
Proof.
  intros H. unfold multi_heads, multi_commands, multi_operators in H. cbn [map app pairs] in H. cbn [In] in H.
  repeat (destruct H as [<-|H]; [intros; repeat split; vm_compute; reflexivity|]). destruct H.
Qed.
Lemma multi_name h : In h multi_heads -> forall rest (k : K (pystr * pystr)) r, k (h_name h, h_op h) rest = Found r -> func_name multi_funcs multi_names (head_toks h ++ rest) k = Found r.
Proof.
  intros H rest k r E. unfold multi_heads in H. apply in_app_or in H. destruct H as [H|H]; apply in_map_iff in H; destruct H as (p & <- & H); revert H; unfold multi_commands, multi_operators; cbn [map pairs In]; intro H.
  - repeat (destruct H as [<-|H]; [vm_compute in E |- *; rewrite E; reflexivity|]). destruct H.
  - repeat (destruct H as [<-|H]; [exact E|]). destruct H.
Qed.
Lemma no_scripts rec rest (k : K (option (pystr * option tree) * option tree)) r : k (None, None) (tok w_lparen [] :: rest) = Found r -> scripts rec (tok w_lparen [] :: rest) k = Found r.
Proof. intro E. unfold scripts, palt at 1. match goal with |- match ?x with _ => _ end = _ => change x with (k (None, None) (tok w_lparen [] :: rest)) end. rewrite E. reflexivity. Qed.
Lemma alt_found {A} (p q : P A) ts k r : p ts k = Found r -> palt p q ts k = Found r.
Proof. intro E. unfold palt. rewrite E. reflexivity. Qed.
Lemma func_many_found n h es (k : K tree) r : In h multi_heads -> es <> [] -> Forall simple es -> (List.length (args_toks es ++ [tok w_rparen []]) < n)%nat ->
  k (TFuncs (h_name h) (h_op h) None (Some (listed es))) [] = Found r -> func_multi (X n) (head_toks h ++ args_in_parens es) k = Found r.
Proof.
  intros H N F L E. unfold func_multi, pbind at 1. apply (multi_name h H). unfold pbind at 1. apply no_scripts. cbn [fst snd].
  unfold pbind at 1. apply alt_found. unfold pmap, pbind at 1, in_parens. apply alt_found.
  change (pbind (popt (ptok K_L_LEFT)) ?f (args_in_parens es) ?kk) with (f None (args_in_parens es) kk). cbv beta. unfold args_in_parens.
  change (pbind (ptok K_L_PAREN) ?f (tok w_lparen [] :: ?ts) ?kk) with (f (tok w_lparen []) ts kk). cbv beta.
  unfold pbind at 1. apply commas_found; [exact N|exact F|exact L| | |].
  - intros a [kk ss ll] rest Hk. cbn [kind] in Hk. unfold mem in Hk. cbn [existsb] in Hk. rewrite orb_false_r in Hk. apply orb_false_iff in Hk. destruct Hk as [H1 H2].
    unfold pbind, popt, palt, pmap, pbind, pret, ptok, pone, mem. cbn [kind existsb]. rewrite H1, H2. reflexivity.
  - intro a. reflexivity.
  - exact E.
Qed.
End Parse.
Lemma right_found {A} (p q : P A) ts k r : p ts k = NoParse -> q ts k = Found r -> palt p q ts k = Found r.
Proof. intros E1 E2. unfold palt. rewrite E1. exact E2. Qed.
Theorem parse_many h es : In h multi_heads -> es <> [] -> Forall simple es ->
  parse_text (h_text h ++ u "(" ++ listed es ++ u ")") = Found (MRel (RExpr (TJuxt [TFuncs (h_name h) (h_op h) None (Some (listed es))]))).
Proof.
  intros H N F. unfold parse_text. rewrite (lex_many h es H N F). set (ts := head_toks h ++ args_in_parens es). unfold parse, math. apply alt_found.
  assert (Ne : exists x r, head_toks h = x :: r /\ mem (kind x) [K_ADD; K_SUB] = false).
  { revert H. unfold multi_heads, multi_commands, multi_operators. cbn [map app pairs In]. intro H. repeat (destruct H as [<-|H]; [eexists _, _; split; reflexivity|]). destruct H. }
  destruct Ne as (x & xs & Ex & Mx).
  assert (L : (List.length (args_toks es ++ [tok w_rparen []]) < List.length ts)%nat) by (unfold ts, args_in_parens; rewrite Ex; cbn [app List.length]; rewrite !app_length; cbn [List.length]; rewrite ?app_length; cbn [List.length]; lia).
  remember (List.length ts) as n eqn:En. change (r_expr (rules_upto (Datatypes.S n))) with (additive (X n)).
  unfold pmap, pbind at 1, relation, pbind at 1. unfold additive, chain at 1, pbind at 1. unfold mp, chain at 1, pbind at 1. unfold unary, pbind at 1. rewrite many_stop.
  2:{ intro k'. unfold ts. rewrite Ex. cbn [app]. unfold pone. rewrite Mx. reflexivity. }
  unfold pbind at 1, pplus, pbind at 1. unfold postfix at 1, pbind at 1. unfold exp at 1, pbind at 1. unfold comp.
  pose proof (multi_dead h H (X n) (args_in_parens es)) as D. fold ts in D.
  do 5 (apply right_found; [apply D|]). apply alt_found. unfold func. apply right_found; [apply D|]. apply alt_found. unfold ts.
  apply func_many_found; [exact H|exact N|exact F|exact L|]. reflexivity.
Qed.
(** * The converter *)
Lemma split_comma a : ~ In 44 a -> forall b cur, split_go (u ",") 0 (a ++ 44 :: b) cur = (rev cur ++ a) :: split_on (u ",") b.
Proof.
  induction a as [|c a IH]; intros Na b cur.
  - cbn [app split_go]. change (starts_with (u ",") (44 :: b)) with true. cbv iota. rewrite app_nil_r. reflexivity.
  - cbn [app split_go]. assert (c <> 44) as Nc by (intros ->; apply Na; left; reflexivity). change (u ",") with [44]. cbn [starts_with].
    rewrite (proj2 (N.eqb_neq 44 c)) by congruence. cbn [andb]. change [44] with (u ","). rewrite IH by (intro Y; apply Na; right; exact Y). cbn [rev]. rewrite <- app_assoc. reflexivity.
Qed.
Lemma split_none a : ~ In 44 a -> forall cur, split_go (u ",") 0 a cur = [rev cur ++ a].
Proof.
  induction a as [|c a IH]; intros Na cur; [cbn [split_go]; rewrite app_nil_r; reflexivity|]. cbn [split_go]. assert (c <> 44) as Nc by (intros ->; apply Na; left; reflexivity).
  change (u ",") with [44]. cbn [starts_with]. rewrite (proj2 (N.eqb_neq 44 c)) by congruence. cbn [andb]. change [44] with (u ","). rewrite IH by (intro Y; apply Na; right; exact Y). cbn [rev]. rewrite <- app_assoc. reflexivity.
Qed.
Lemma simple_comma e : simple e -> ~ In 44 (body [] e).
Proof.
  destruct e; cbn [simple]; try contradiction; intro H; cbn [body].
  - intro I. destruct H as [F _]. rewrite Forall_forall in F. specialize (F _ I). unfold ascii_digit in F. lia.
  - assert (T : forallb (fun x => negb (existsb (N.eqb 44) x)) symbols = true) by (vm_compute; reflexivity). rewrite forallb_forall in T. specialize (T _ H).
    intro I. apply negb_true_iff in T. assert (existsb (N.eqb 44) x = true); [|congruence]. apply existsb_exists. exists 44. split; [exact I|reflexivity].
Qed.
Lemma split_listed es : es <> [] -> Forall simple es -> split_on (u ",") (listed es) = map (body []) es.
Proof.
  induction es as [|e es IH]; intros N F; [contradiction|]. inversion_clear F as [|? ? He Fes]. destruct es as [|e' es].
  - cbn [listed map]. unfold split_on. rewrite (split_none _ (simple_comma e He)). reflexivity.
  - rewrite listed_cons. change (u "," ++ ?r) with (44 :: r). unfold split_on at 1. rewrite (split_comma _ (simple_comma e He)), (IH ltac:(discriminate) Fes). reflexivity.
Qed.
Section Convert.
Context {A : Type}.
Variable K : arithmetic A.
Variable V : Type.
Variable O : LSympy V.
Variable den : V -> A.
Variable rho : pystr -> A.
Variable vs : list (pystr * pv V).
Hypothesis F : faithful K V den rho vs (o_md5 _ O) O.
Hypothesis P : forall s t, parse_text s = Found t -> o_parse _ O s = Ret t.
Lemma l2s_step n e st : wf e -> g_var st = [] -> exists v st', latex2sympy O (Datatypes.S n) (body [] e) vs st = (Ret (LV v), st') /\ worth V den O v (value K rho e) /\ g_var st' = [] /\ g_values st' = vs.
Proof.
  intros W E. destruct (parse_body [] K V den rho vs (o_md5 _ O) e (or_introl eq_refl) W) as (t & Ht & R).
  rewrite latex2sympy_head. unfold bind.
  destruct (head_rel Exact (body [] e) vs st st) as (s1 & s1' & Hh & _ & Rl & Hs1); [split; cbn; reflexivity|].
  assert (g_var s1 = []) as E'. { revert Hh. unfold L2STheory.head, bind, gets, set_frac, set_values. intros [= <-]. exact E. }
  rewrite Hh. unfold rest, bind, lift_res. rewrite (prepare_latex [] (or_introl eq_refl) e W), (P _ _ Ht). cbn [conv_rel].
  destruct (proj1 (conv_value K V den rho vs (o_md5 _ O) O F (latex2sympy O n)) t _ R s1 E' Hs1) as (v & s2 & Ev & Wv & H1 & H2).
  exists v, s2. auto.
Qed.
Lemma l2s_steps n es : Forall wf es -> forall st, g_var st = [] -> g_values st = vs ->
  exists ws st', map_l2s (l2s_here (latex2sympy O (Datatypes.S n))) (map (body []) es) st = (Ret (map LV ws), st') /\ Forall2 (fun e w => worth V den O w (value K rho e)) es ws.
Proof.
  induction 1 as [|e es We Fe IH]; intros st E1 E2; [exists [], st; split; [reflexivity|constructor]|].
  destruct (l2s_step n e st We E1) as (v & st1 & E & Wv & H1 & H2). destruct (IH st1 H1 H2) as (ws & st2 & E' & F2).
  exists (v :: ws), st2. split; [|constructor; assumption]. cbn [map map_l2s]. unfold bind at 1, l2s_here at 1. unfold bind at 1, gets. rewrite E2, E. unfold bind at 1. rewrite E'. reflexivity.
Qed.
Lemma multi_calls_ok h args st : In h multi_heads -> apply_funcs O (h_name h) (h_op h) args st = call O (h_calls h) args st.
Proof.
  revert args st. intros args st H. unfold multi_heads, multi_commands, multi_operators in H. cbn [map app pairs In] in H.
  repeat (destruct H as [<-|H]; [vm_compute; reflexivity|]). destruct H.
Qed.
End Convert.
Theorem latex2sympy_many {A} (K : arithmetic A) V (O : LSympy V) den rho vs n w f es st :
  faithful K V den rho vs (o_md5 _ O) O -> (forall s t, parse_text s = Found t -> o_parse _ O s = Ret t) -> In (w, f) multi_table -> es <> [] -> Forall simple es -> g_var st = [] ->
  exists ws, Forall2 (fun e v => worth V den O v (value K rho e)) es ws /\
    let got := fst (latex2sympy O (Datatypes.S (Datatypes.S n)) (w ++ u "(" ++ listed es ++ u ")") vs st) in
    match o_call _ O f (map LV ws) with
    | Raise x => got = Raise x
    | Ret (LV y) => got = Ret (LV y)
    | Ret (LTD y) => got = Ret (LTD y)
    | Ret _ => exists x, got = Raise x
    end.
Proof.
  intros F P Hw N S E. destruct (multi_table_heads w f Hw) as (h & Hh & <- & <-). pose proof (parse_many h es Hh N S) as Ht.
  rewrite latex2sympy_head. unfold bind at 1.
  destruct (head_rel Exact (h_text h ++ u "(" ++ listed es ++ u ")") vs st st) as (s1 & s1' & Hs & _ & Rl & Hs1); [split; cbn; reflexivity|].
  assert (g_var s1 = []) as E'. { revert Hs. unfold L2STheory.head, bind, gets, set_frac, set_values. intros [= <-]. exact E. }
  rewrite Hs. unfold rest, bind at 1, lift_res. rewrite (prepare_many h es Hh S), (P _ _ Ht).
  assert (Fw : Forall wf es) by (apply (Forall_impl _ simple_wf S)).
  destruct (l2s_steps K V O den rho vs F P n es Fw s1 E' Hs1) as (ws & s2 & Em & F2).
  exists ws. split; [exact F2|]. cbv zeta.
  set (l2s := latex2sympy O (Datatypes.S n)) in *.
  set (got := fst _). assert (G : got = fst (juxtapose O (conv O l2s) [TFuncs (h_name h) (h_op h) None (Some (listed es))] s1)) by reflexivity.
  clearbody got. assert (C : conv O l2s (TFuncs (h_name h) (h_op h) None (Some (listed es))) s1 = call O (h_calls h) (map LV ws) s2).
  { cbn [conv]. rewrite (split_listed es N S). unfold bind at 1. rewrite Em. unfold bind at 1. rewrite (multi_calls_ok V O h (map LV ws) s2 Hh).
    unfold call, lift_res. destruct (o_call V O (h_calls h) (map LV ws)); reflexivity. }
  unfold juxtapose in G. unfold bind at 1 in G. rewrite C in G. unfold call, lift_res in G.
  destruct (o_call V O (h_calls h) (map LV ws)) as [[y|y|l|z|]|x]; try exact G; unfold bind in G.
  - destruct (check_derivative s2) as [[[]|x] s3]; [destruct l|]; rewrite G; eexists; reflexivity.
  - destruct (check_derivative s2) as [[[]|x] s3]; rewrite G; eexists; reflexivity.
  - destruct (check_derivative s2) as [[[]|x] s3]; rewrite G; eexists; reflexivity.
Qed.

(** * The tables are complete: a check of the whole vocabulary *)
Lemma function_table_complete k w : In (k, w) vocabulary ->
  (In k single_funcs -> w = u "\log" \/ w = u "\ln" \/ In w (map fst function_table)) /\ (In k single_names -> In (operator w) (map fst function_table)).
Proof.
  assert (T : forallb (fun kw => (negb (mem (fst kw) single_funcs) || existsb (str_eqb (snd kw)) (u "\log" :: u "\ln" :: map fst function_table))
    && (negb (mem (fst kw) single_names) || existsb (str_eqb (operator (snd kw))) (map fst function_table))) vocabulary = true) by (vm_compute; reflexivity).
  rewrite forallb_forall in T. intro H. specialize (T _ H). cbn [fst snd] in T. apply andb_true_iff in T. destruct T as [T1 T2].
  assert (M : forall l, In k l -> mem k l = true) by (intros l I; unfold mem; apply existsb_exists; exists k; split; [exact I|apply N.eqb_refl]).
  split; intro I.
  - rewrite (M _ I) in T1. cbn [negb orb] in T1. apply existsb_exists in T1. destruct T1 as (x & Hx & E). apply str_eqb_eq in E. subst x.
    destruct Hx as [<-|[<-|Hx]]; auto.
  - rewrite (M _ I) in T2. cbn [negb orb] in T2. apply existsb_exists in T2. destruct T2 as (x & Hx & E). apply str_eqb_eq in E. subst x. exact Hx.
Qed.
Lemma multi_table_complete k w : In (k, w) vocabulary ->
  (In k multi_funcs -> In w (map fst multi_table)) /\ (In k multi_names -> In (operator w) (map fst multi_table)).
Proof.
  assert (T : forallb (fun kw => (negb (mem (fst kw) multi_funcs) || existsb (str_eqb (snd kw)) (map fst multi_table))
    && (negb (mem (fst kw) multi_names) || existsb (str_eqb (operator (snd kw))) (map fst multi_table))) vocabulary = true) by (vm_compute; reflexivity).
  rewrite forallb_forall in T. intro H. specialize (T _ H). cbn [fst snd] in T. apply andb_true_iff in T. destruct T as [T1 T2].
  assert (M : forall l, In k l -> mem k l = true) by (intros l I; unfold mem; apply existsb_exists; exists k; split; [exact I|apply N.eqb_refl]).
  split; intro I.
  - rewrite (M _ I) in T1. cbn [negb orb] in T1. apply existsb_exists in T1. destruct T1 as (x & Hx & E). apply str_eqb_eq in E. subst x. exact Hx.
  - rewrite (M _ I) in T2. cbn [negb orb] in T2. apply existsb_exists in T2. destruct T2 as (x & Hx & E). apply str_eqb_eq in E. subst x. exact Hx.
Qed.
Lemma find_some_in {X} (f : X -> bool) l x : find f l = Some x -> In x l.
Proof. intro H. apply find_some in H. apply H. Qed.
