(** Accented and subscripted symbols: how they are written, and the names they get *)
From Coq Require Import String List NArith ZArith QArith Bool Lia.
From Verif Require Import NormNum SplitTheory NormAlg LatexForm PyStr PyStrTheory Regex RegexTheory Normalize NumTheory NormTheory Monad MonadTheory L2S L2STheory L2SState L2SValue L2SFindings Lexer Grammar GrammarTheory Arith ArithLex ArithPrep ArithParse Written WrittenParse WrittenMore Vocabulary Named.
Import ListNotations.
Local Close Scope Q_scope.
Local Open Scope N_scope.
Local Open Scope par_scope.

(** * Writing and naming, independently of the lexer, the parser and the converter *)
(** the accents with a name of their own *)
Definition suffixes : list (pystr * pystr) := pairs
  [("\bar", "bar"); ("\overline", "bar"); ("\vec", "vec"); ("\overrightarrow", "vec"); ("\tilde", "tilde"); ("\widetilde", "tilde")]%string.
(** those that are kept in the name; not \mathrm, which the preparation of the text may take away *)
Definition kept : list pystr := map u
  ["\acute"; "\breve"; "\check"; "\widecheck"; "\dot"; "\ddot"; "\grave"; "\hat"; "\bm"; "\boldsymbol"; "\text"; "\textit"; "\mathbb"; "\mathbin"; "\mathbf";
   "\mathcal"; "\mathclap"; "\mathclose"; "\mathellipsis"; "\mathfrak"; "\mathinner"; "\mathit"; "\mathnormal"; "\mathop"; "\mathopen"; "\mathord"; "\mathpunct";
   "\mathrel"; "\mathring"; "\mathrlap"; "\mathscr"; "\mathsf"; "\mathsterling"; "\mathtt"]%string.
Inductive script := Braced (e : arith) | Digits (ds : pystr) | Letter (x : pystr).
Inductive symbol := Accented (a : pystr) (e : arith) | Scripted (x : pystr) (s : script).
Definition script_wf (s : script) : Prop := match s with Braced e => wf e | Digits ds => numeral ds | Letter x => In x symbols end.
Definition symbol_wf (y : symbol) : Prop :=
  match y with Accented a e => In a (map fst suffixes ++ kept) /\ wf e | Scripted x s => In x symbols /\ script_wf s end.
Definition script_latex (gap : pystr) (s : script) : pystr := match s with Braced e => u "{" ++ body gap e ++ u "}" | Digits t | Letter t => t end.
Definition symbol_latex (gap : pystr) (y : symbol) : pystr :=
  match y with Accented a e => a ++ u "{" ++ body gap e ++ u "}" | Scripted x s => x ++ u "_" ++ script_latex gap s end.
(** the names, without spaces *)
Definition script_name (s : script) : pystr := match s with Braced e => tight e | Digits t | Letter t => t end.
Definition symbol_name (y : symbol) : pystr :=
  match y with
  | Accented a e => match find (fun p => str_eqb (fst p) a) suffixes with Some (_, t) => tight e ++ t | None => a ++ u "{" ++ tight e ++ u "}" end
  | Scripted x s => sym_name x ++ match script_name s with [c] => [95; c] | t => u "_{" ++ t ++ u "}" end
  end.

(** * The text of the tokens *)
Definition bare (t : token) : token := Tok (kind t) (text t) [].
Lemma bare_text ts : get_text ts = src (map bare ts).
Proof. induction ts as [|t ts IH]; [reflexivity|]. change (text t ++ get_text ts = text t ++ src (map bare ts)). rewrite IH. reflexivity. Qed.
Lemma bare_digits ld ds : map bare (digits ld ds) = digits [] ds.
Proof. destruct ds as [|c r]; [reflexivity|]. cbn [digits map]. f_equal. rewrite map_map. reflexivity. Qed.
Lemma bare_first k ts : first_is k (map bare ts) = first_is k ts.
Proof. destruct ts; reflexivity. Qed.
Lemma risky_tight gap a b : gap = [] \/ gap = [32] -> wf a -> wf b -> risky (body gap a) (right_text gap b) = risky (body [] a) (right_text [] b).
Proof.
  intros [-> | ->] Wa Wb; [reflexivity|]. unfold risky.
  assert (El : last (body [] a) 0 = last (body [32] a) 0).
  { change (body [] a) with (tight a). rewrite <- (tight_latex a Wa), replace_single_del. unfold latex. destruct (body_last [32] a Wa) as (s & c & -> & H).
    assert (T : forallb (fun c => negb (c =? 32)) last_chars = true) by (vm_compute; reflexivity). rewrite forallb_forall in T. rewrite filter_app. cbn [filter]. rewrite (T c H), !last_last. reflexivity. }
  assert (Ef : firstn 1 (right_text [] b) = firstn 1 (right_text [32] b)).
  { change (right_text ?g b) with (right_level g b). unfold right_level.
    assert (X : exists c r r', LatexForm.level [32] 3 b = c :: r /\ LatexForm.level [] 3 b = c :: r').
    { destruct (level_first [32] 3 b Wb) as (c & r & E & Hc). exists c, r, (tl (LatexForm.level [] 3 b)). split; [exact E|].
      unfold LatexForm.level in *. destruct (Nat.leb 3 (prec b)).
      2: { injection E as <- _. reflexivity. }
      change (body [] b) with (tight b). rewrite <- (tight_latex b Wb), replace_single_del. unfold latex. rewrite E. cbn [filter]. destruct (N.eqb_spec c 32); [contradiction|reflexivity]. }
    destruct X as (c & r & r' & E & E'). rewrite E, E'. cbn [digit_first]. destruct (_ && _); reflexivity. }
  rewrite El, Ef. reflexivity.
Qed.
Lemma bare_toks gap e : gap = [] \/ gap = [32] -> wf e -> forall ld, map bare (ArithLex.toks gap e ld) = ArithLex.toks [] e [].
Proof.
  intro G.
  assert (PA : forall e' ld, (forall ld, map bare (ArithLex.toks gap e' ld) = ArithLex.toks [] e' []) -> map bare (paren_toks ld (ArithLex.toks gap e' [])) = paren_toks [] (ArithLex.toks [] e' [])).
  { intros e' ld IH. unfold paren_toks. cbn [map]. rewrite map_app, IH. reflexivity. }
  assert (LV : forall l e' ld, (forall ld, map bare (ArithLex.toks gap e' ld) = ArithLex.toks [] e' []) -> map bare (ArithLex.at_level gap l e' ld) = ArithLex.at_level [] l e' []).
  { intros l e' ld IH. unfold ArithLex.at_level. destruct (Nat.leb _ _); [apply IH|apply PA, IH]. }
  induction e; intros W ld; cbn [wf] in W; try (specialize (IHe1 (proj1 W)); specialize (IHe2 (proj2 W))); try specialize (IHe W); try specialize (IHe (proj2 W)).
  - apply bare_digits.
  - cbn [ArithLex.toks]. rewrite map_app, bare_digits. cbn [map]. rewrite bare_digits. reflexivity.
  - cbn [ArithLex.toks]. rewrite map_app, bare_digits. reflexivity.
  - reflexivity.
  - reflexivity.
  - change (ArithLex.toks ?g (Bin o e1 e2) ?l) with (ArithLex.at_level g (op_prec o) e1 l ++ tok (w_op o) [] :: ArithLex.at_level g (S (op_prec o)) e2 (op_lead g o)).
    rewrite map_app. cbn [map]. rewrite (LV _ e1 ld IHe1), (LV _ e2 _ IHe2). destruct o; reflexivity.
  - change (ArithLex.toks ?g (Neg e) ?l) with (tok w_minus l :: ArithLex.at_level g 3%nat e []). cbn [map]. rewrite (LV _ e _ IHe). reflexivity.
  - change (ArithLex.toks ?g (Scale ds e) ?l) with (digits l ds ++ (if first_is K_DIGIT (ArithLex.at_level g 4%nat e []) then paren_toks [] (ArithLex.toks g e []) else ArithLex.at_level g 4%nat e [])).
    rewrite map_app, bare_digits. f_equal. rewrite <- (bare_first K_DIGIT (ArithLex.at_level gap 4%nat e [])), (LV _ e _ IHe).
    destruct (first_is _ _); [apply PA, IHe|apply LV, IHe].
  - change (ArithLex.toks ?g (Fact e) ?l) with (ArithLex.at_level g 4%nat e l ++ [tok w_bang []]). rewrite map_app, (LV _ e _ IHe). reflexivity.
  - change (ArithLex.toks ?g (Pow e1 e2) ?l) with (ArithLex.at_level g 6%nat e1 l ++ tok w_caret [] :: tok w_lbrace [] :: ArithLex.toks g e2 [] ++ [tok w_rbrace []]).
    rewrite map_app, (LV _ e1 _ IHe1). cbn [map]. rewrite map_app, IHe2. reflexivity.
  - cbn [ArithLex.toks map]. rewrite map_app, IHe. reflexivity.
  - cbn [ArithLex.toks map]. rewrite map_app, IHe1. cbn [map]. rewrite map_app, IHe2. reflexivity.
  - cbn [ArithLex.toks map]. rewrite map_app, IHe1. cbn [map]. rewrite map_app, IHe2. reflexivity.
  - cbn [ArithLex.toks map]. rewrite map_app, IHe. reflexivity.
  - cbn [ArithLex.toks map]. rewrite map_app, IHe1. cbn [map]. rewrite map_app, IHe2. reflexivity.
  - cbn [ArithLex.toks map]. rewrite map_app, IHe. reflexivity.
  - cbn [ArithLex.toks map]. rewrite map_app, IHe. reflexivity.
  - cbn [ArithLex.toks map]. rewrite map_app, IHe. reflexivity.
  - cbn [ArithLex.toks map]. rewrite map_app, IHe. reflexivity.
  - cbn [ArithLex.toks]. apply PA, IHe.
  - destruct W as [W1 W2]. change (ArithLex.toks ?g (Juxt e1 e2) ?l) with (left_toks g e1 e2 l ++ right_toks g e2).
    assert (R : map bare (right_toks gap e2) = right_toks [] e2).
    { unfold right_toks. rewrite <- (bare_first K_DIGIT (ArithLex.at_level gap 3%nat e2 gap)), (LV _ e2 _ IHe2). destruct (first_is _ _); [apply PA, IHe2|apply LV, IHe2]. }
    rewrite map_app, R. f_equal. unfold left_toks, ArithLex.clash. rewrite (risky_tight gap e1 e2 G W1 W2), <- R, !bare_first.
    destruct (_ || _ || _); [apply PA, IHe1|apply LV, IHe1].
Qed.
Lemma toks_text gap e ld : gap = [] \/ gap = [32] -> wf e -> get_text (ArithLex.toks gap e ld) = tight e.
Proof. intros G W. rewrite bare_text, bare_toks by assumption. exact (src_toks [] e [] W). Qed.

(** * The parser *)
(** a piece after which the rest is not accepted is not accepted *)
Definition fails {A} (n : nat) (p : P A) (c : list token) (ks : list N) : Prop :=
  forall rest (k : K A), (List.length (c ++ rest) <= n)%nat -> tame rest -> stop ks rest -> (forall a, k a rest = NoParse) -> p (c ++ rest) k = NoParse.
Lemma brace_gen {A} m (p : P A) c x rest (k : K A) : sound m p (taking 0 0) -> balanced c -> tame (c ++ x :: rest) -> (List.length (c ++ x :: rest) <= m)%nat -> kind x = K_R_BRACE ->
  (forall a, k a rest = NoParse) -> (y <~ p ;; _ <~ ptok K_R_BRACE ;; pret y) (c ++ x :: rest) k = NoParse.
Proof.
  intros S B T L Kx F. unfold pbind at 1. set (k1 := fun a ts' => (_ <~ ptok K_R_BRACE;; pret a) ts' k).
  assert (D : forall o : outcome, o = NoParse \/ o <> NoParse) by (intros []; [right|left|right]; congruence).
  destruct (D (p (c ++ x :: rest) k1)) as [E|E]; [exact E|].
  destruct (S (c ++ x :: rest) k1 L E) as [(a & c1 & r & E1 & Q & E2)|[_ O]]; [|destruct (tame_odd _ T O)].
  exfalso. apply E. rewrite <- E2. unfold k1, pbind, ptok, pone, pret. destruct r as [|y r]; [reflexivity|].
  cbn [mem existsb]. destruct (kind y =? K_R_BRACE) eqn:Ky; [|reflexivity]. apply N.eqb_eq in Ky. destruct Q as [Q _].
  destruct (balanced_prefix _ _ _ _ _ _ E1 B Q Kx Ky) as (_ & -> & _). cbn. apply F.
Qed.
Lemma expr_sound m n : (m < n)%nat -> sound m (r_expr (X n)) (taking 0 0).
Proof. destruct n as [|n]; [lia|]. intro L. apply (s_mono n); [lia|apply s_expr]. Qed.
Lemma commas_sound m n : (m < n)%nat -> sound m (commas (X n)) (taking 0 0).
Proof.
  intro L. unfold commas. apply (s_step _ _ _ 0 0 0); [apply expr_sound, L|]. intros _ m' L'. apply (s_bind _ _ _ 0 0 0); [|intro; apply s_ret].
  apply s_many, (s_step _ _ _ 0 0 0); [apply s_plain; reflexivity|]. intros _ m'' L''. apply s_loose, expr_sound. lia.
Qed.
Section Parse.
Local Opaque rules_upto.
Ltac blk := intros rest0 kk0 Hl0 Ht0 Hs0; reflexivity.
(** subscripts *)
Definition under (c : list token) : list token := tok w_under [] :: c.
Definition braced_toks (c : list token) : list token := tok w_lbrace [] :: c ++ [tok w_rbrace []].
Lemma under_eq n c rest (k : K (pystr * option tree)) : subexpr (X n) (under c ++ rest) k =
  (pmap (fun r => (get_text (snd r), Some (fst r))) (pspan (r_atom (X n)))
   <|> (_ <~ ptok K_L_BRACE ;;
        r <~ (pmap (fun r => (get_text (snd r), Some (fst r))) (pspan (r_expr (X n))) <|> pmap (fun s => (s, None)) (ptext (commas (X n)))) ;;
        _ <~ ptok K_R_BRACE ;; pret r)) (c ++ rest) k.
Proof. reflexivity. Qed.
Lemma braced_fails n c t : AE c t -> tame c -> forall ks, fails n (subexpr (X n)) (under (braced_toks c)) ks.
Proof.
  intros H T ks rest k L Tr _ F. rewrite under_eq. unfold braced_toks in *. cbn [app List.length under] in *. rewrite <- app_assoc in *. cbn [app] in *.
  unfold palt at 1. destruct n as [|m]; [lia|].
  replace (pmap _ (pspan (r_atom (X (S m)))) (tok w_lbrace [] :: c ++ tok w_rbrace [] :: rest) k) with NoParse by reflexivity.
  unfold pbind at 1. unfold ptok at 1, pone at 1. cbn [mem existsb kind tok fst w_lbrace]. rewrite N.eqb_refl. cbn [orb].
  apply (brace_gen (List.length (c ++ tok w_rbrace [] :: rest))); [|apply (AE_balanced c t H T)|tam|lia|reflexivity|exact F].
  apply s_alt; apply s_map; [apply s_span, expr_sound|apply s_text, commas_sound]; lia.
Qed.
Lemma braced_runs n c t : AE c t -> tame c -> sure n (subexpr (X n)) (under (braced_toks c)) (get_text c, Some t).
Proof.
  intros H T ks. unfold subexpr, under, braced_toks. apply (r_tstep n w_under). intros n1 L1. apply r_right; [destruct n as [|m]; [lia|blk]|].
  refine (r_braced n1 _ c (get_text c, Some t) C0 [] [] _ T eq_refl ks). intros n2 L2. apply r_left.
  change (get_text c, Some t) with ((fun r : tree * list token => (get_text (snd r), Some (fst r))) (t, c)). apply r_map, r_span, inner; [exact H|lia].
Qed.
(** all that can be left after a subscript *)
Definition left_over : list N := C4 ++ NK.
Definition given_up {A} (n : nat) (p : P A) (c : list token) : Prop :=
  forall rest (k : K A), (List.length (c ++ rest) <= n)%nat -> tame rest -> stop C4 rest -> (forall a r, stop left_over r -> k a r = NoParse) -> p (c ++ rest) k = NoParse.
Lemma stop_left r : stop C4 r -> stop left_over r.
Proof. exact (stop_sub left_over C4 eq_refl r). Qed.
Lemma braced_up n c t : AE c t -> tame c -> given_up n (subexpr (X n)) (under (braced_toks c)).
Proof. intros H T rest k L Tr S F. apply (braced_fails n c t H T C4); auto. intro a. apply F, stop_left, S. Qed.
Lemma letter_atom n x nm : named x = Some nm -> runs n (atom (X n)) [x] (TSymbol nm None None) C4.
Proof.
  intro E. unfold atom. apply r_left. unfold atom_expr. apply (r_end n _ _ _ nm); [apply name_runs, E|].
  assert (Dsup : dead (supexpr (X n)) C4) by (apply (d_less _ (C4 ++ J)); [reflexivity|apply dead_supexpr]).
  assert (Dsub : dead (subexpr (X n)) C4) by (apply (d_less _ (C5 ++ J)); [reflexivity|apply dead_subexpr]).
  repeat (apply r_right; [intros rest k _ _ S; first [apply Dsup, S|apply Dsub, S]|]). apply r_ret.
Qed.
Lemma digits_atom n ds : ds <> [] -> runs n (atom (X n)) (digits [] ds) (TNumber ds) C4.
Proof.
  intro N. destruct ds as [|d r]; [congruence|]. unfold atom. do 2 (apply r_right; [blk|]).
  apply r_right; [apply b_enotation; [apply numeric_digits|reflexivity|reflexivity]|].
  apply r_right; [apply b_percent; [apply numeric_digits|reflexivity|reflexivity]|]. apply r_left.
  unfold p_number. rewrite <- (text_digits [] (d :: r)) at 2. apply r_map. apply (r_text n _ _ tt). apply r_int; [discriminate|reflexivity].
Qed.
Lemma plain_runs n c t : (forall m, runs m (atom (X m)) c t C4) -> runs n (subexpr (X n)) (under c) (get_text c, Some t) C4.
Proof.
  intro H. unfold subexpr, under. apply (r_tstep n w_under). intros n1 L1. apply r_left.
  change (get_text c, Some t) with ((fun r : tree * list token => (get_text (snd r), Some (fst r))) (t, c)). apply r_map, r_span.
  destruct n as [|m]; [lia|]. apply (r_mono m); [lia|]. exact (H m).
Qed.
Definition atom_up (c : list token) : Prop := forall m, given_up m (atom (X m)) c.
Lemma plain_up n c : first_is K_L_BRACE c = false -> c <> [] -> atom_up c -> given_up n (subexpr (X n)) (under c).
Proof.
  intros B N H rest k L Tr S F. rewrite under_eq. unfold palt at 1. cbn [under app List.length] in L. destruct n as [|m]; [lia|].
  replace (pmap _ (pspan (r_atom (X (Datatypes.S m)))) (c ++ rest) k) with NoParse.
  - destruct c as [|x c]; [congruence|]. cbn [app]. unfold pbind at 1. unfold ptok at 1, pone at 1. cbn [first_is] in B. cbn [mem existsb]. rewrite B. reflexivity.
  - symmetry. unfold pmap, pbind, pret, pspan. change (r_atom (X (Datatypes.S m))) with (atom (X m)).
    refine (H m rest (fun a ts' => k (get_text (snd (a, firstn (List.length (c ++ rest) - List.length ts') (c ++ rest))), Some (fst (a, firstn (List.length (c ++ rest) - List.length ts') (c ++ rest)))) ts') _ Tr S _); [lia|].
    intros a r Hr. apply F, Hr.
Qed.
Lemma letter_up x nm : named x = Some nm -> atom_up [x].
Proof.
  intros E m rest k L Tr S F. cbn [app].
  assert (Dsup : dead (supexpr (X m)) C4) by (apply (d_less _ (C4 ++ J)); [reflexivity|apply dead_supexpr]).
  assert (Dsub : dead (subexpr (X m)) C4) by (apply (d_less _ (C5 ++ J)); [reflexivity|apply dead_subexpr]).
  assert (A : atom_expr (X m) (x :: rest) k = NoParse).
  { unfold atom_expr, pbind at 1. rewrite (name_eq _ _ _ _ _ E).
    unfold palt. unfold pbind at 1. rewrite (Dsup rest _ S). unfold pbind at 1. rewrite (Dsub rest _ S). unfold pbind at 1. rewrite (Dsub rest _ S). unfold pbind at 1. rewrite (Dsup rest _ S). apply F, stop_left, S. }
  unfold atom, palt at 1. rewrite A. destruct (named_cases _ _ E) as [(s & l & -> & ->)|(s & l & -> & ->)]; reflexivity.
Qed.
Lemma digits_up ds : ds <> [] -> atom_up (digits [] ds).
Proof.
  intros N m rest k L Tr S F. pose proof (numeric_digits [] ds) as Nu.
  assert (E : p_e_notation (digits [] ds ++ rest) k = NoParse) by (apply (b_enotation m _ C4 Nu); [reflexivity|reflexivity|exact L|exact Tr|exact S]).
  assert (Pc : p_percent (digits [] ds ++ rest) k = NoParse) by (apply (b_percent m _ C4 Nu); [reflexivity|reflexivity|exact L|exact Tr|exact S]).
  assert (Nm : p_number (digits [] ds ++ rest) k = NoParse).
  { unfold p_number, pmap, ptext, pspan, pmap, pbind, pret. apply (number_fail _ _ _ C4 Nu S); [reflexivity|]. intros r Hr. apply F, Hr. }
  unfold atom. destruct ds as [|d r]; [congruence|].
  unfold palt at 1. replace (atom_expr (X m) (digits [] (d :: r) ++ rest) k) with NoParse by reflexivity.
  unfold palt at 1. replace (pmap _ (ptok K_SYMBOL) (digits [] (d :: r) ++ rest) k) with NoParse by reflexivity.
  unfold palt at 1. rewrite E. unfold palt at 1. rewrite Pc. unfold palt at 1. rewrite Nm. reflexivity.
Qed.
(** a symbol with a subscript *)
Lemma f_scripted n x nm c s t : named x = Some nm -> runs n (subexpr (X n)) (under c) (s, Some t) C4 -> given_up n (subexpr (X n)) (under c) ->
  runs n (comp (X n) true) (x :: under c) (TSymbol nm (Some s) None) C4.
Proof.
  intros E R U. unfold comp. do 5 (apply r_right; [destruct (named_cases _ _ E) as [(s0 & l0 & -> & ->)|(s0 & l0 & -> & ->)]; blk|]).
  assert (Dsup : dead (supexpr (X n)) left_over) by dead_by_first.
  assert (Dap : dead (apply_args (X n)) left_over) by dead_by_first.
  assert (Dbr : dead (ptok K_L_BRACE) left_over) by dead_by_first.
  apply r_right.
  - intros rest k L Tr S. cbn [app List.length] in L. cbn [app].
    assert (HD : forall (f : pystr -> P tree), (forall s r, stop left_over r -> f s r k = NoParse) -> (forall s, f s (under c ++ rest) k = NoParse) ->
      (s <~ ptext (_ <~ name_part (X n) ;; popt (subexpr (X n))) ;; f s) (x :: under c ++ rest) k = NoParse).
    { intros f Hf Hu. unfold pbind at 1, ptext, pmap, pspan, pbind at 1, pbind at 1.
      rewrite (name_eq _ _ _ _ _ E). unfold popt, palt, pmap, pbind, pret.
      rewrite (U rest); [apply Hu|cbn [under app List.length] in *; lia|exact Tr|exact S|]. intros a r Hr. apply Hf, Hr. }
    unfold func. unfold palt at 1. replace (func_single _ _ _) with NoParse by (destruct (named_cases _ _ E) as [(s0 & l0 & -> & ->)|(s0 & l0 & -> & ->)]; reflexivity).
    unfold palt at 1. replace (func_multi _ _ _) with NoParse by (destruct (named_cases _ _ E) as [(s0 & l0 & -> & ->)|(s0 & l0 & -> & ->)]; reflexivity).
    unfold palt at 1. replace (func_apply _ _ _) with NoParse; [destruct (named_cases _ _ E) as [(s0 & l0 & -> & ->)|(s0 & l0 & -> & ->)]; reflexivity|].
    unfold func_apply, palt at 1. symmetry. rewrite HD.
    + apply HD; [|intro; reflexivity]. intros s1 r Hr. unfold pbind at 1, popt, pmap, pret, palt at 1. unfold pbind at 1. rewrite (Dsup r _ Hr). unfold pbind at 1, pbind at 1. apply Dbr, Hr.
    + intros s1 r Hr. unfold pbind at 1, popt, pmap, pret, palt at 1. unfold pbind at 1. rewrite (Dsup r _ Hr). unfold pbind at 1. apply Dap, Hr.
    + intro; reflexivity.
  - apply r_left. unfold atom. apply r_left. intros rest k o L Tr S Ek. cbn [app List.length] in L. cbn [app]. unfold atom_expr, pbind at 1. rewrite (name_eq _ _ _ _ _ E).
    unfold palt at 1. match goal with |- match ?q with _ => _ end = _ => replace q with NoParse by reflexivity end.
    unfold palt at 1. match goal with |- match ?q with _ => _ end = _ => replace q with NoParse end.
    + unfold palt at 1. match goal with |- match ?q with _ => _ end = _ => replace q with (Found o); [reflexivity|] end. symmetry. unfold pbind at 1, pret.
      apply (R rest); [cbn [under app List.length] in *; lia|exact Tr|exact S|exact Ek].
    + symmetry. unfold pbind at 1. apply U; [cbn [under app List.length] in *; lia|exact Tr|exact S|]. intros a r Hr. unfold pbind. apply Dsup, Hr.
Qed.
(** accents *)
Definition accented : list pystr := map fst suffixes ++ kept.
Definition w_accent (a : pystr) : word := word_of a.
Ltac accents_in H := unfold accented, suffixes, kept in H; cbn [map app pairs fst In] in H; repeat (destruct H as [<-|H]; [solve [vm_compute; reflexivity | intros; repeat split; vm_compute; reflexivity]|]); destruct H.
Lemma accent_kind a : In a accented -> mem (fst (w_accent a)) accents = true.
Proof. intro H. accents_in H. Qed.
Lemma accent_dead a : In a accented -> forall rec rest (k : K tree),
  brackets TGroup group_pairs (r_expr rec) (tok (w_accent a) [] :: rest) k = NoParse /\ brackets TNorm norm_pairs (r_expr rec) (tok (w_accent a) [] :: rest) k = NoParse /\
  brackets TAbs abs_pairs (r_expr rec) (tok (w_accent a) [] :: rest) k = NoParse /\ brackets TFloor floor_pairs (r_expr rec) (tok (w_accent a) [] :: rest) k = NoParse /\
  brackets TCeil ceil_pairs (r_expr rec) (tok (w_accent a) [] :: rest) k = NoParse /\
  func_single rec (tok (w_accent a) [] :: rest) k = NoParse /\ func_multi rec (tok (w_accent a) [] :: rest) k = NoParse /\
  (func_int rec <|> func_sqrt rec <|> func_sum rec <|> func_lim rec <|> func_e rec) (tok (w_accent a) [] :: rest) k = NoParse.
Proof. intro H. accents_in H. Qed.
Lemma accent_name a : In a accented -> forall rec rest (k : K sname), name_part rec (tok (w_accent a) [] :: rest) k = accent rec (tok (w_accent a) [] :: rest) k.
Proof. intro H. accents_in H. Qed.
Lemma accent_text a : In a accented -> snd (w_accent a) = a.
Proof. reflexivity. Qed.
Definition accent_toks (a : pystr) (c : list token) : list token := tok (w_accent a) [] :: braced_toks c.
Lemma accent_runs n a c t : In a accented -> AE c t -> tame c -> sure n (name_part (X n)) (accent_toks a c) (NAccent a (get_text c)).
Proof.
  intros Ha H T ks rest k o L Tr S E. unfold accent_toks. cbn [app]. rewrite (accent_name a Ha). revert rest k o L Tr S E.
  change (runs n (accent (X n)) (tok (w_accent a) [] :: braced_toks c) (NAccent a (get_text c)) ks).
  unfold accent. apply r_step; [apply (accent_kind a Ha)|]. intros n1 L1. apply (r_end n1 _ _ _ (get_text c)).
  - apply (r_braced n1 _ c (get_text c) C0); [|exact T|reflexivity]. intros n2 L2. apply (r_text n2 _ _ t), inner; [exact H|lia].
  - apply r_ret.
Qed.
Lemma accent_fails n a c t : In a accented -> AE c t -> tame c -> forall ks, fails n (name_part (X n)) (accent_toks a c) ks.
Proof.
  intros Ha H T ks rest k L Tr _ F. unfold accent_toks, braced_toks in *. cbn [app List.length] in *. rewrite <- app_assoc in *. cbn [app] in *. rewrite (accent_name a Ha).
  unfold accent, pbind at 1. unfold pone at 1. cbn [kind tok]. rewrite (accent_kind a Ha). unfold pbind at 1. unfold pbind at 1. unfold ptok at 1, pone at 1.
  cbn [mem existsb kind tok fst w_lbrace]. rewrite N.eqb_refl. cbn [orb].
  apply (brace_gen (List.length (c ++ tok w_rbrace [] :: rest))); [|apply (AE_balanced c t H T)|tam|lia|reflexivity|].
  - apply s_text, expr_sound. lia.
  - intro b. unfold pret. apply F.
Qed.
Lemma f_accented n a c t : In a accented -> AE c t -> tame c -> runs n (comp (X n) true) (accent_toks a c) (TSymbol (NAccent a (get_text c)) None None) C4.
Proof.
  intros Ha H T. pose proof (accent_dead a Ha) as D. unfold comp.
  do 5 (apply r_right; [intros rest k _ _ _; unfold accent_toks; cbn [app]; apply D|]).
  assert (Dsup : dead (supexpr (X n)) C4) by (apply (d_less _ (C4 ++ J)); [reflexivity|apply dead_supexpr]).
  assert (Dsub : dead (subexpr (X n)) C4) by (apply (d_less _ (C5 ++ J)); [reflexivity|apply dead_subexpr]).
  assert (Dap : dead (apply_args (X n)) C4) by dead_by_first.
  assert (Dbr : dead (ptok K_L_BRACE) C4) by dead_by_first.
  apply r_right.
  - intros rest k L Tr S.
    assert (HD : forall (f : pystr -> P tree), (forall s, f s rest k = NoParse) -> (s <~ ptext (_ <~ name_part (X n) ;; popt (subexpr (X n))) ;; f s) (accent_toks a c ++ rest) k = NoParse).
    { intros f Hf. unfold pbind at 1, ptext, pmap, pspan, pbind at 1, pbind at 1. apply (accent_fails n a c t Ha H T C4 rest _ L Tr S).
      intro nm. unfold popt, palt, pmap, pbind, pret. rewrite (Dsub rest _ S). apply Hf. }
    unfold func. unfold palt at 1. replace (func_single _ _ _) with NoParse by (symmetry; apply D).
    unfold palt at 1. replace (func_multi _ _ _) with NoParse by (symmetry; apply D).
    unfold palt at 1. replace (func_apply _ _ _) with NoParse; [apply D|].
    unfold func_apply, palt at 1. symmetry. rewrite HD.
    + apply HD. intro s1. unfold pbind at 1, popt, pmap, pret, palt at 1. unfold pbind at 1. rewrite (Dsup rest _ S). unfold pbind at 1, pbind at 1. apply Dbr, S.
    + intro s1. unfold pbind at 1, popt, pmap, pret, palt at 1. unfold pbind at 1. rewrite (Dsup rest _ S). unfold pbind at 1. apply Dap, S.
  - apply r_left. unfold atom. apply r_left. unfold atom_expr. apply (r_end n _ _ _ (NAccent a (get_text c))); [apply (accent_runs n a c t Ha H T)|].
    repeat (apply r_right; [intros rest k _ _ S; first [apply Dsup, S|apply Dsub, S]|]). apply r_ret.
Qed.
End Parse.

(** * The text *)
Section Text.
Variable gap : pystr.
Hypothesis Hgap : gap = [] \/ gap = [32].
Definition script_toks (s : script) : list token :=
  match s with Braced e => braced_toks (ArithLex.toks gap e []) | Digits ds => digits [] ds | Letter x => [tok (w_sym x) []] end.
Definition symbol_toks (y : symbol) : list token :=
  match y with Accented a e => accent_toks a (ArithLex.toks gap e []) | Scripted x s => tok (w_sym x) [] :: under (script_toks s) end.
Lemma src_braced e : wf e -> src (braced_toks (ArithLex.toks gap e [])) = u "{" ++ body gap e ++ u "}".
Proof. intro W. unfold braced_toks. change (src (tok w_lbrace [] :: ?r)) with (u "{" ++ src r). rewrite src_app, (src_toks gap e [] W). reflexivity. Qed.
Lemma src_script s : script_wf s -> src (script_toks s) = script_latex gap s.
Proof.
  destruct s as [e|ds|x]; cbn [script_wf script_toks script_latex]; intro W; [apply src_braced, W|exact (src_digits [] ds (proj2 W))|].
  change (src [tok (w_sym x) []]) with (snd (w_sym x) ++ []). rewrite (w_sym_text x W). apply app_nil_r.
Qed.
Lemma src_symbol y : symbol_wf y -> src (symbol_toks y) = symbol_latex gap y.
Proof.
  destruct y as [a e|x s]; cbn [symbol_wf symbol_toks symbol_latex]; intros [H W].
  - change (src (accent_toks a (ArithLex.toks gap e []))) with (a ++ src (braced_toks (ArithLex.toks gap e []))). rewrite (src_braced e W). reflexivity.
  - change (src (tok (w_sym x) [] :: under (script_toks s))) with (snd (w_sym x) ++ u "_" ++ src (script_toks s)). rewrite (w_sym_text x H), (src_script s W). reflexivity.
Qed.
Lemma lettered_braced e : wf e -> Forall lettered (braced_toks (ArithLex.toks gap e [])).
Proof.
  intro W. unfold braced_toks. constructor; [apply lettered_tok; [apply a_other; cbn; tauto|left; reflexivity]|].
  apply Forall_app. split; [apply lettered_toks; [exact Hgap|exact W|left; reflexivity]|].
  constructor; [apply lettered_tok; [apply a_ender, named_ender; cbn; tauto|left; reflexivity]|constructor].
Qed.
Lemma lettered_script s : script_wf s -> Forall lettered (script_toks s).
Proof.
  destruct s as [e|ds|x]; cbn [script_wf script_toks]; intro W; [apply lettered_braced, W|apply lettered_digits; [apply W|left; reflexivity]|].
  constructor; [apply lettered_tok; [apply a_starter, sym_starter, W|left; reflexivity]|constructor].
Qed.
Lemma accents_prepared : forallb (fun a => forallb (fun q => avoids q a) cores && negb (existsb (N.eqb 95) a)) accented = true.
Proof. vm_compute. reflexivity. Qed.
Lemma symbols_prepared : forallb (fun x => forallb (fun q => avoids q (x ++ u "_")) cores && negb (existsb (N.eqb 95) x) && negb (existsb (N.eqb 41) x)) symbols = true.
Proof. vm_compute. reflexivity. Qed.
Lemma exists_not (c : N) w : existsb (N.eqb c) w = false -> ~ In c w.
Proof. intros E H. assert (existsb (N.eqb c) w = true); [|congruence]. apply existsb_exists. exists c. split; [exact H|apply N.eqb_refl]. Qed.
Lemma prepare_symbol y : symbol_wf y -> prepare (symbol_latex gap y) = symbol_latex gap y.
Proof.
  intro W. destruct y as [a e|x s]; cbn [symbol_wf symbol_latex] in *; destruct W as [H W].
  - pose proof accents_prepared as T. rewrite forallb_forall in T. specialize (T _ H). apply andb_true_iff in T. destruct T as [T1 T2].
    rewrite <- (src_braced e W). apply prepare_after; [exact T1|apply negb_true_iff, T2|apply lettered_braced, W].
  - pose proof symbols_prepared as T. rewrite forallb_forall in T. specialize (T _ H). apply andb_true_iff in T. destruct T as [T T3]. apply andb_true_iff in T. destruct T as [T1 T2].
    rewrite <- (src_script s W). pose proof (lettered_script s W) as F. apply prepare_fixed.
    + pose proof cores_absent as C. rewrite Forall_forall in *. rewrite forallb_forall in T1. intros q Hq. rewrite app_assoc, avoids_sound by (apply T1, Hq).
      apply absent_src; [apply C, Hq|apply Forall_forall, F].
    + intro t. apply perm_id; [apply exists_not, negb_true_iff, T2|apply src_no_underscore, F|apply exists_not, negb_true_iff, T3].
Qed.
Lemma t_accents : Forall (fun a => skipped (fst (w_accent a)) = false /\ snd (w_accent a) <> [] /\ fits (w_accent a) (u "{")) accented.
Proof.
  unfold accented, suffixes, kept. cbn [map app pairs fst]. repeat (apply Forall_cons; [split; [vm_compute; reflexivity|split; [discriminate|intro; vm_compute; reflexivity]]|]). apply Forall_nil.
Qed.
Lemma t_under_sym : Forall (fun x => fits (w_sym x) (u "_") /\ fits w_under (snd (w_sym x))) symbols.
Proof. repeat (apply Forall_cons; [split; intro; vm_compute; reflexivity|]). apply Forall_nil. Qed.
Lemma t_under_digit : Forall (fun w => fits w_under (snd w)) digit_words.
Proof. repeat (apply Forall_cons; [intro; vm_compute; reflexivity|]). apply Forall_nil. Qed.
Lemma good_braced e : wf e -> good (braced_toks (ArithLex.toks gap e [])).
Proof.
  intro W. unfold braced_toks. apply good_opener; [cbn; tauto|apply no_lead|apply begins_app, toks_begin, W|].
  apply good_toks; [exact Hgap|exact W|left; reflexivity| |apply follow; cbn; tauto].
  apply good_ender; [apply named_ender; cbn; tauto|apply no_lead|left; reflexivity|exact I].
Qed.
Lemma good_script s : script_wf s -> good (under (script_toks s)).
Proof.
  assert (Ok : skipped (fst w_under) = false /\ snd w_under <> []) by (split; [reflexivity|discriminate]).
  intro W. destruct s as [e|ds|x]; cbn [script_wf script_toks] in *; unfold under.
  - apply good_cons; [exact Ok|apply no_lead|apply meets_word; intro; vm_compute; reflexivity|apply good_braced, W].
  - assert (G : good (digits [] ds)) by (rewrite <- (app_nil_r (digits [] ds)); apply good_digits; [exact W|left; reflexivity|exact I|left; reflexivity]).
    destruct (begins_digits ds [] W) as (v & r & E & Hv). rewrite E in *. apply good_cons; [exact Ok|apply no_lead| |exact G].
    pose proof t_under_digit as T. rewrite Forall_forall in T. apply meets_word, T, Hv.
  - pose proof t_under_sym as T. rewrite Forall_forall in T. destruct (T x W) as [_ Tu].
    apply good_cons; [exact Ok|apply no_lead|apply meets_word, Tu|]. apply good_ender; [apply sym_ender, W|apply no_lead|left; reflexivity|exact I].
Qed.
Lemma lex_symbol y : symbol_wf y -> lex (symbol_latex gap y) = Some (symbol_toks y).
Proof.
  intro W. unfold lex. rewrite <- (src_symbol y W). apply lex_go_good; [|lia]. destruct y as [a e|x s]; cbn [symbol_wf symbol_toks] in *; destruct W as [H W].
  - pose proof t_accents as T. rewrite Forall_forall in T. destruct (T a H) as (T1 & T2 & T3). unfold accent_toks.
    apply good_cons; [split; assumption|apply no_lead| |apply good_braced, W]. unfold braced_toks. apply meets_word, T3.
  - pose proof t_under_sym as T. rewrite Forall_forall in T. destruct (T x H) as [Tx _].
    apply good_cons; [apply words_ok, in_or_app; left; apply sym_starter, H|apply no_lead|apply meets_word, Tx|apply good_script, W].
Qed.
End Text.

(** * The tree *)
Definition base_of (x : pystr) : sname := match x with 92 :: _ => NGreek x | _ => NLetter x end.
Lemma sym_named x : In x symbols -> named (tok (w_sym x) []) = Some (base_of x).
Proof.
  intro H. assert (T : forallb (fun x => match named (tok (w_sym x) []), base_of x with Some (NLetter a), NLetter b => str_eqb a b | Some (NGreek a), NGreek b => str_eqb a b | _, _ => false end) symbols = true) by (vm_compute; reflexivity).
  rewrite forallb_forall in T. specialize (T x H). destruct (named _) as [[]|]; try discriminate; destruct (base_of x); try discriminate; apply str_eqb_eq in T; subst; reflexivity.
Qed.
Definition symbol_tree (y : symbol) : tree :=
  match y with Accented a e => TSymbol (NAccent a (tight e)) None None | Scripted x s => TSymbol (base_of x) (Some (match s with Braced e => tight e | Digits t | Letter t => t end)) None end.
(** arithmetic without values *)
Definition no_values : arithmetic unit.
Proof.
  refine {| of_Q := fun _ => tt; add := fun _ _ => tt; mul := fun _ _ => tt; opp := fun _ => tt; sub := fun _ _ => tt; div := fun _ _ => tt; power := fun _ _ => tt; fn := fun _ _ => tt;
            const_I := tt; const_oo := tt; const_pi := tt; const_E := tt |}; intros; repeat match goal with x : unit |- _ => destruct x end; reflexivity.
Defined.
Lemma written_AE gap e : gap = [] \/ gap = [32] -> wf e -> exists t, AE (ArithLex.toks gap e []) t.
Proof.
  intros Hg W. destruct (main gap Hg no_values unit (fun _ => tt) (fun _ => tt) [] (fun s => s) e [] W (or_introl eq_refl) 0%nat ltac:(lia)) as (t & _ & H). exists t. apply close0, H.
Qed.
Lemma symbol_runs gap y : gap = [] \/ gap = [32] -> symbol_wf y -> forall n, runs n (comp (X n) true) (symbol_toks gap y) (symbol_tree y) C4.
Proof.
  intros Hg W n. destruct y as [a e|x s]; cbn [symbol_wf symbol_toks symbol_tree] in *; destruct W as [H W].
  - destruct (written_AE gap e Hg W) as (t & Ht). rewrite <- (toks_text gap e [] Hg W). apply (f_accented n a _ t H Ht). apply tame_toks; [exact Hg|exact W|left; reflexivity].
  - pose proof (sym_named x H) as Nx. destruct s as [e|ds|x']; cbn [script_wf script_toks] in *.
    + destruct (written_AE gap e Hg W) as (t & Ht). assert (T : tame (ArithLex.toks gap e [])) by (apply tame_toks; [exact Hg|exact W|left; reflexivity]).
      rewrite <- (toks_text gap e [] Hg W). apply (f_scripted n _ _ _ _ t Nx); [apply (braced_runs n _ t Ht T)|apply (braced_up n _ t Ht T)].
    + rewrite <- (text_digits [] ds) at 2. apply (f_scripted n _ _ _ _ (TNumber ds) Nx); [apply plain_runs; intro; apply digits_atom, W|].
      apply plain_up; [destruct ds; reflexivity|destruct ds; [destruct W; congruence|discriminate]|apply digits_up, W].
    + pose proof (sym_named x' W) as Nx'. replace x' with (get_text [tok (w_sym x') []]) at 2 by (change (snd (w_sym x') ++ [] = x'); rewrite (w_sym_text x' W); apply app_nil_r).
      apply (f_scripted n _ _ _ _ (TSymbol (base_of x') None None) Nx); [apply plain_runs; intro; apply letter_atom, Nx'|].
      apply plain_up; [unfold w_sym; destruct x' as [|c x']; [reflexivity|]|discriminate|apply (letter_up _ _ Nx')]. destruct (N.eq_dec c 92) as [->|Nc]; [reflexivity|].
      clear - Nc. repeat (destruct c as [|c]; try reflexivity; try congruence); repeat (destruct c as [c|c|]; try reflexivity; try congruence).
Qed.
Lemma accents_signs : forall a, In a accented -> mem (fst (w_accent a)) [K_ADD; K_SUB] = false.
Proof.
  assert (T : forallb (fun a => negb (mem (fst (w_accent a)) [K_ADD; K_SUB])) accented = true) by (vm_compute; reflexivity).
  intros a H. rewrite forallb_forall in T. apply negb_true_iff, T, H.
Qed.
Theorem parse_symbol gap y : gap = [] \/ gap = [32] -> symbol_wf y -> parse_text (symbol_latex gap y) = Found (MRel (RExpr (TJuxt [symbol_tree y]))).
Proof.
  intros Hg W. apply (parse_runs _ (symbol_toks gap y)); [apply lex_symbol; assumption|]. intro n. apply (r_less _ _ _ _ C0); [reflexivity|]. revert n.
  pose proof (symbol_runs gap y Hg W) as R.
  assert (Sg : exists x r, symbol_toks gap y = x :: r /\ mem (kind x) [K_ADD; K_SUB] = false).
  { destruct y as [a e|x s]; cbn [symbol_toks]; eexists _, _; (split; [reflexivity|]); destruct W as [H _]; cbn [kind tok].
    - apply (accents_signs a H).
    - pose proof (sym_named x H) as Nx. destruct (named_cases _ _ Nx) as [(s0 & l0 & E & _)|(s0 & l0 & E & _)]; injection E as -> _ _; reflexivity. }
  destruct Sg as (x & r & E & M). rewrite E in *. apply wide_expr; [exact M|]. intro n. apply (r_less _ _ _ _ C4); [reflexivity|]. apply R.
Qed.

(** * The name *)
Lemma solid_strip s : Forall (fun c => is_space c = false) s -> strip s = s.
Proof.
  intro F. unfold strip, strip_by. assert (L : forall s, Forall (fun c => is_space c = false) s -> lstrip_by is_space s = s) by (intros [|c t] H; [reflexivity|]; inversion H as [|? ? Hc _]; subst; cbn [lstrip_by]; rewrite Hc; reflexivity).
  rewrite (L s F), (L (rev s)) by (apply Forall_rev, F). apply rev_involutive.
Qed.
Lemma alphabet_solid : forallb (fun w => forallb (fun c => negb (is_space c)) (snd w)) alphabet = true.
Proof. vm_compute. reflexivity. Qed.
Lemma solid_in s : forallb (fun c => negb (is_space c)) s = true -> Forall (fun c => is_space c = false) s.
Proof. intro H. apply Forall_forall. intros c Hc. rewrite forallb_forall in H. apply negb_true_iff, H, Hc. Qed.
Lemma solid_text ts : Forall lettered ts -> Forall (fun c => is_space c = false) (get_text ts).
Proof.
  induction 1 as [|t ts [Ht _] F IH]; [constructor|]. apply Forall_app. split; [|exact IH]. pose proof alphabet_solid as T. rewrite forallb_forall in T. exact (solid_in _ (T _ Ht)).
Qed.
Lemma script_strip s : script_wf s -> strip (script_name s) = script_name s.
Proof.
  intro W. apply solid_strip. destruct s as [e|ds|x]; cbn [script_wf script_name] in *.
  - rewrite <- (toks_text [] e [] (or_introl eq_refl) W). apply solid_text, lettered_toks; [left; reflexivity|exact W|left; reflexivity].
  - rewrite <- (text_digits [] ds). apply solid_text, lettered_digits; [apply W|left; reflexivity].
  - assert (T : forallb (fun x => forallb (fun c => negb (is_space c)) x) symbols = true) by (vm_compute; reflexivity). rewrite forallb_forall in T. apply solid_in, T, W.
Qed.
Lemma accent_named a e : In a accented -> atom_text (NAccent a (tight e)) = symbol_name (Accented a e).
Proof.
  intro H. unfold atom_text, symbol_name. generalize (tight e). intro t. unfold accented, suffixes, kept in H. cbn [map app pairs fst In] in H.
  repeat (destruct H as [<-|H]; [reflexivity|]). destruct H.
Qed.
Lemma base_named x : In x symbols -> atom_text (base_of x) = sym_name x /\ is_imaginary (base_of x) = false.
Proof.
  intro H. assert (T : forallb (fun x => str_eqb (atom_text (base_of x)) (sym_name x) && negb (is_imaginary (base_of x))) symbols = true) by (vm_compute; reflexivity).
  rewrite forallb_forall in T. specialize (T x H). apply andb_true_iff in T. destruct T as [T1 T2]. split; [apply str_eqb_eq, T1|apply negb_true_iff, T2].
Qed.
Lemma script_text s : script_wf s -> subscript_text (Some (script_name s)) = match script_name s with [c] => [95; c] | t => u "_{" ++ t ++ u "}" end.
Proof.
  intro W. unfold subscript_text. rewrite (script_strip s W).
  assert (Ne : script_name s <> []).
  { destruct s as [e|ds|x]; cbn [script_wf script_name] in *; [apply (body_ne [] e W)|apply W|].
    assert (T : forallb (fun x => match x with [] => false | _ => true end) symbols = true) by (vm_compute; reflexivity). rewrite forallb_forall in T. specialize (T x W). intros ->. discriminate. }
  destruct (script_name s) as [|c [|d t]]; [congruence|reflexivity|reflexivity].
Qed.
Lemma tree_named V (O : LSympy V) l2s y st : symbol_wf y -> g_var st = [] -> conv O l2s (symbol_tree y) st = (Ret (LV (o_symbol _ O (symbol_name y) (g_real st))), st).
Proof.
  intros W E. assert (M : forall nm, make_symbol O nm st = (Ret (o_symbol _ O nm (g_real st), None), st)) by (intro nm; unfold make_symbol, bind, gets; rewrite E; reflexivity).
  destruct y as [a e|x s]; cbn [symbol_wf symbol_tree conv] in *; destruct W as [H W].
  - change (is_imaginary (NAccent a (tight e))) with false. cbv iota. unfold bind. rewrite M. cbn [subscript_text]. rewrite app_nil_r, (accent_named a e H). reflexivity.
  - destruct (base_named x H) as [N I]. rewrite I. change (match s with Braced e => tight e | Digits t | Letter t => t end) with (script_name s). rewrite (script_text s W), N.
    unfold bind. rewrite M. reflexivity.
Qed.

(** * From the text to the symbol *)
Theorem latex2sympy_symbol gap V (O : LSympy V) n vs y (st : globals V) : gap = [] \/ gap = [32] ->
  (forall s t, parse_text s = Found t -> o_parse _ O s = Ret t) -> symbol_wf y -> g_var st = [] ->
  fst (latex2sympy O (Datatypes.S n) (symbol_latex gap y) vs st) = Ret (LV (o_symbol _ O (symbol_name y) (g_real st))).
Proof.
  intros Hg P W E. pose proof (parse_symbol gap y Hg W) as Ht. rewrite latex2sympy_head. unfold bind at 1.
  destruct (head_rel Exact (symbol_latex gap y) vs st st) as (s1 & s1' & Hs & _ & Rl & Hs1); [split; cbn; reflexivity|].
  assert (g_var s1 = [] /\ g_real s1 = g_real st) as [E' Er]. { revert Hs. unfold L2STheory.head, bind, gets, set_frac, set_values. intros [= <-]. split; [exact E|reflexivity]. }
  rewrite Hs. unfold rest, bind at 1, lift_res. rewrite (prepare_symbol gap Hg y W), (P _ _ Ht).
  change (fst (juxtapose O (conv O (latex2sympy O n)) [symbol_tree y] s1) = Ret (LV (o_symbol V O (symbol_name y) (g_real st)))).
  unfold juxtapose, bind at 1. rewrite (tree_named V O _ y s1 W E'), Er. reflexivity.
Qed.

(** * Different symbols have different names *)
Definition synonyms : list (list pystr) := map (map u) [["\bar"; "\overline"]; ["\vec"; "\overrightarrow"]; ["\tilde"; "\widetilde"]]%string.
Definition same_accent (a b : pystr) : Prop := a = b \/ exists l, In l synonyms /\ In a l /\ In b l.
Definition same_symbol (y z : symbol) : Prop :=
  match y, z with
  | Accented a e, Accented b f => same_accent a b /\ tight e = tight f
  | Scripted x s, Scripted x' s' => x = x' /\ script_name s = script_name s'
  | _, _ => False
  end.
Lemma first_split (c : N) (a b a' b' : pystr) : ~ In c a -> ~ In c a' -> a ++ c :: b = a' ++ c :: b' -> a = a' /\ b = b'.
Proof.
  revert a'. induction a as [|d a IH]; intros [|d' a'] N N' E; cbn [app] in E.
  - injection E as ->. auto.
  - injection E as -> _. exfalso. apply N'. left. reflexivity.
  - injection E as -> _. exfalso. apply N. left. reflexivity.
  - injection E as -> E. destruct (IH a' (fun H => N (or_intror H)) (fun H => N' (or_intror H)) E) as [-> ->]. auto.
Qed.
Lemma tight_no_under e : wf e -> ~ In 95 (tight e).
Proof. intro W. unfold tight. rewrite <- (src_toks [] e [] W : src (ArithLex.toks [] e []) = body [] e). apply src_no_underscore, lettered_toks; [left; reflexivity|exact W|left; reflexivity]. Qed.
Lemma accent_cases a : In a accented ->
  (exists t, In (a, t) suffixes /\ forall e, symbol_name (Accented a e) = tight e ++ t) \/
  (In a kept /\ ~ In 123 a /\ ~ In 95 a /\ forall e, symbol_name (Accented a e) = a ++ u "{" ++ tight e ++ u "}").
Proof.
  intro H. unfold accented in H. apply in_app_or in H. destruct H as [H|H].
  - left. unfold suffixes in *. cbn [map pairs fst In] in H. repeat (destruct H as [<-|H]; [eexists; split; [cbn; tauto|reflexivity]|]). destruct H.
  - right. split; [exact H|]. unfold kept in H. cbn [map In] in H.
    repeat (destruct H as [<-|H]; [split; [|split]; [vm_compute; clear; intuition discriminate|vm_compute; clear; intuition discriminate|reflexivity]|]). destruct H.
Qed.
Lemma suffix_last a t : In (a, t) suffixes -> t <> [] /\ last t 0 <> 125 /\ ~ In 95 t.
Proof. intro H. unfold suffixes in H. cbn [map pairs fst snd In] in H. repeat (destruct H as [H|H]; [injection H as <- <-; split; [discriminate|split; [discriminate|vm_compute; clear; intuition discriminate]]|]). destruct H. Qed.
Lemma suffix_same a t b t' : In (a, t) suffixes -> In (b, t') suffixes -> last t 0 = last t' 0 -> t = t' /\ same_accent a b.
Proof.
  intros H H'. unfold suffixes in *. cbn [map pairs fst snd In] in *.
  repeat (destruct H as [H|H]; [injection H as <- <-|]); try contradiction; repeat (destruct H' as [H'|H']; [injection H' as <- <-|]); try contradiction; intro E; try discriminate E;
    (split; [reflexivity|]; right; first [exists (map u ["\bar"; "\overline"]%string); split; [left; reflexivity|cbn; tauto]
      | exists (map u ["\vec"; "\overrightarrow"]%string); split; [right; left; reflexivity|cbn; tauto] | exists (map u ["\tilde"; "\widetilde"]%string); split; [right; right; left; reflexivity|cbn; tauto]]).
Qed.
Lemma script_under s : script_wf s -> exists t, match script_name s with [c] => [95; c] | t => u "_{" ++ t ++ u "}" end = 95 :: t.
Proof. intros _. destruct (script_name s) as [|c [|d t]]; eexists; reflexivity. Qed.
Lemma sym_no_under x : In x symbols -> ~ In 95 (sym_name x).
Proof. intro H. assert (T : forallb (fun x => negb (existsb (N.eqb 95) (sym_name x))) symbols = true) by (vm_compute; reflexivity). rewrite forallb_forall in T. apply exists_not, negb_true_iff, T, H. Qed.
Lemma sym_name_inj x x' : In x symbols -> In x' symbols -> sym_name x = sym_name x' -> x = x'.
Proof.
  intros H H' E. assert (T : forallb (fun x => forallb (fun x' => negb (str_eqb (sym_name x) (sym_name x')) || str_eqb x x') symbols) symbols = true) by (vm_compute; reflexivity).
  rewrite forallb_forall in T. specialize (T x H). rewrite forallb_forall in T. specialize (T x' H'). apply orb_true_iff in T. destruct T as [T|T]; [|apply str_eqb_eq, T].
  apply negb_true_iff in T. rewrite E in T. assert (str_eqb (sym_name x') (sym_name x') = true) by (apply str_eqb_eq; reflexivity). congruence.
Qed.
Lemma accent_no_under a e : In a accented -> wf e -> ~ In 95 (symbol_name (Accented a e)).
Proof.
  intros H W I. pose proof (tight_no_under e W) as T. destruct (accent_cases a H) as [(t & Ht & E)|(_ & _ & N & E)]; rewrite E in I.
  - destruct (suffix_last a t Ht) as (_ & _ & N). apply in_app_or in I. tauto.
  - repeat (apply in_app_or in I; destruct I as [I|I]); try tauto; cbn in I; intuition discriminate.
Qed.
Lemma script_inj (t t' : pystr) :
  match t with [c] => [95; c] | t => u "_{" ++ t ++ u "}" end = match t' with [c] => [95; c] | t => u "_{" ++ t ++ u "}" end -> t = t'.
Proof.
  intro E. pose proof (f_equal (@List.length N) E) as L.
  destruct t as [|c [|d r]], t' as [|c' [|d' r']]; try reflexivity; cbn [List.length app u map list_ascii_of_string] in L; try (rewrite ?app_length in L; cbn in L; lia).
  - injection E as ->. reflexivity.
  - change (u "_{" ++ (c :: d :: r) ++ u "}" = u "_{" ++ (c' :: d' :: r') ++ u "}") in E. apply app_inv_head, app_inv_tail in E. exact E.
Qed.
Theorem symbol_names_apart y z : symbol_wf y -> symbol_wf z -> symbol_name y = symbol_name z <-> same_symbol y z.
Proof.
  intros W W'. split.
  - intro E. destruct y as [a e|x s], z as [b f|x' s']; cbn [symbol_wf same_symbol] in *; destruct W as [H W], W' as [H' W'].
    + destruct (accent_cases a H) as [(t & Ht & Ey)|(Hk & N & _ & Ey)], (accent_cases b H') as [(t' & Ht' & Ez)|(Hk' & N' & _ & Ez)]; rewrite Ey, Ez in E.
      * destruct (suffix_last a t Ht) as (Nt & _), (suffix_last b t' Ht') as (Nt' & _).
        assert (L : last t 0 = last t' 0) by (rewrite <- (last_app_ne (tight e) t 0 Nt), <- (last_app_ne (tight f) t' 0 Nt'), E; reflexivity).
        destruct (suffix_same a t b t' Ht Ht' L) as [<- S]. apply app_inv_tail in E. auto.
      * exfalso. destruct (suffix_last a t Ht) as (Nt & L & _). apply L. rewrite <- (last_app_ne (tight e) t 0 Nt), E, !app_assoc. apply last_last.
      * exfalso. destruct (suffix_last b t' Ht') as (Nt & L & _). apply L. rewrite <- (last_app_ne (tight f) t' 0 Nt), <- E, !app_assoc. apply last_last.
      * destruct (first_split 123 a (tight e ++ u "}") b (tight f ++ u "}") N N' E) as [<- E']. apply app_inv_tail in E'. split; [left; reflexivity|exact E'].
    + exfalso. apply (accent_no_under a e H W). rewrite E. cbn [symbol_name]. destruct (script_under s' W') as (t & ->). apply in_or_app; right; left; reflexivity.
    + exfalso. apply (accent_no_under b f H' W'). rewrite <- E. cbn [symbol_name]. destruct (script_under s W) as (t & ->). apply in_or_app; right; left; reflexivity.
    + cbn [symbol_name] in E. destruct (script_under s W) as (t & Et), (script_under s' W') as (t' & Et'). rewrite Et, Et' in E.
      destruct (first_split 95 _ t _ t' (sym_no_under x H) (sym_no_under x' H') E) as [Ex ->]. split; [apply sym_name_inj; assumption|].
      rewrite <- Et' in Et. apply script_inj. destruct (script_name s) as [|c0 [|d0 r0]], (script_name s') as [|c1 [|d1 r1]]; exact Et.
  - destruct y as [a e|x s], z as [b f|x' s']; cbn [symbol_wf same_symbol] in *; try contradiction; intros [S E]; [|cbn [symbol_name]; subst; rewrite E; reflexivity].
    cbn [symbol_name]. rewrite E. destruct S as [->|(l & Hl & Ha & Hb)]; [reflexivity|]. unfold synonyms in Hl. cbn [map In] in Hl.
    repeat (destruct Hl as [<-|Hl]; [cbn [In] in Ha, Hb; destruct Ha as [<-|[<-|[]]], Hb as [<-|[<-|[]]]; reflexivity|]). destruct Hl.
Qed.
Lemma accents_complete k w : In (k, w) vocabulary -> In k accents -> w = u "\mathrm" \/ In w accented.
Proof.
  intros H Hk. assert (T : forallb (fun kw => negb (mem (fst kw) accents) || str_eqb (snd kw) (u "\mathrm") || existsb (str_eqb (snd kw)) accented) vocabulary = true) by (vm_compute; reflexivity).
  rewrite forallb_forall in T. specialize (T _ H). cbn [fst snd] in T. apply orb_true_iff in T. destruct T as [T|T]; [apply orb_true_iff in T; destruct T as [T|T]|].
  - exfalso. apply negb_true_iff in T. assert (mem k accents = true); [|congruence]. unfold mem. apply existsb_exists. exists k. split; [exact Hk|apply N.eqb_refl].
  - left. apply str_eqb_eq, T.
  - right. apply existsb_exists in T. destruct T as (v & Hv & E). apply str_eqb_eq in E. subst. exact Hv.
Qed.
