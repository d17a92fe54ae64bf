(** Functions by their names: how they are written, and the SymPy function or method that is called *)
From Coq Require Import String List NArith ZArith QArith Bool Lia.
From Verif Require Import PyStr PyStrTheory Regex RegexTheory Normalize NumTheory NormTheory Monad MonadTheory L2S L2STheory L2SState L2SValue L2SFindings Lexer Grammar GrammarTheory Arith ArithLex ArithPrep ArithParse Written WrittenParse Vocabulary.
Import ListNotations.
Local Close Scope Q_scope.
Local Open Scope N_scope.
Local Open Scope mon_scope.

(** * The table, independently of the lexer, the parser and the converter *)
Definition pairs (l : list (string * string)) : list (pystr * pystr) := map (fun p => (u (fst p), u (snd p))) l.
Definition commands : list (pystr * pystr) := pairs
  [("sin", "sin"); ("cos", "cos"); ("tan", "tan"); ("csc", "csc"); ("sec", "sec"); ("cot", "cot"); ("sinh", "sinh"); ("cosh", "cosh"); ("tanh", "tanh");
   ("arcsin", "asin"); ("arccos", "acos"); ("arctan", "atan"); ("arccsc", "acsc"); ("arcsec", "asec"); ("arccot", "acot");
   ("arsinh", "asinh"); ("arcosh", "acosh"); ("artanh", "atanh"); ("arcsinh", "asinh"); ("arccosh", "acosh"); ("arctanh", "atanh");
   ("exp", "exp"); ("floor", "floor"); ("ceil", "ceiling"); ("det", "det")]%string.
Definition operators : list (pystr * pystr) := pairs
  [("arsinh", "asinh"); ("arcosh", "acosh"); ("artanh", "atanh"); ("arcsinh", "asinh"); ("arccosh", "acosh"); ("arctanh", "atanh");
   ("floor", "floor"); ("ceil", "ceiling"); ("eye", "eye"); ("rank", "rank"); ("trace", "trace"); ("tr", "trace"); ("rref", "rref"); ("nullspace", "nullspace");
   ("norm", "norm"); ("cols", "cols"); ("rows", "rows"); ("eig", "diagonalize"); ("eigen", "diagonalize"); ("diagonalize", "diagonalize");
   ("eigenvals", "eigenvals"); ("eigenvalues", "eigenvals"); ("eigenvects", "eigenvects"); ("eigenvectors", "eigenvects");
   ("svd", "singular_value_decomposition"); ("SVD", "singular_value_decomposition")]%string.
(** how a function is written *)
Definition command (f : pystr) : pystr := 92 :: f.
Definition operator (f : pystr) : pystr := u "\operatorname{" ++ f ++ u "}".
Definition function_table : list (pystr * pystr) :=
  map (fun p => (command (fst p), snd p)) commands ++ map (fun p => (operator (fst p), snd p)) operators.

(** * Its words *)
Definition kind_of (w : pystr) : N := match find (fun kw => str_eqb (snd kw) w) vocabulary with Some (k, _) => k | None => 0 end.
Definition word_of (w : pystr) : word := (kind_of w, w).
Definition w_operatorname : word := (K_CMD_OPERATORNAME, u "\operatorname").
(** words, name and operator name as the converter sees them, SymPy name *)
Record head := Head { h_words : list word; h_name : pystr; h_op : pystr; h_calls : pystr }.
Definition command_head (p : pystr * pystr) : head := Head [word_of (command (fst p))] (fst p) [] (snd p).
Definition operator_head (p : pystr * pystr) : head := Head [w_operatorname; w_lbrace; word_of (fst p); w_rbrace] (u "operatorname") (fst p) (snd p).
Definition heads : list head := map command_head commands ++ map operator_head operators.
Definition h_text (h : head) : pystr := flat_map snd (h_words h).
Lemma table_heads w f : In (w, f) function_table -> exists h, In h heads /\ h_text h = w /\ h_calls h = f.
Proof.
  unfold function_table, heads. intro H. apply in_app_or in H. destruct H as [H|H]; apply in_map_iff in H; destruct H as (p & [= <- <-] & H).
  - exists (command_head p). split; [apply in_or_app; left; apply in_map, H|]. split; [|reflexivity].
    unfold h_text, command_head, word_of. cbn [h_words flat_map snd]. apply app_nil_r.
  - exists (operator_head p). split; [apply in_or_app; right; apply in_map, H|]. split; [|reflexivity].
    unfold h_text, operator_head, word_of, operator. cbn [h_words flat_map snd]. rewrite app_nil_r. reflexivity.
Qed.
Fixpoint chained (ws : list word) (next : pystr) : Prop :=
  match ws with
  | [] => True
  | w :: ws' => (skipped (fst w) = false /\ snd w <> []) /\ fits w (match ws' with [] => next | v :: _ => snd v end) /\ chained ws' next
  end.
Lemma t_heads : Forall (fun h => chained (h_words h) (u "(")) heads.
Proof.
  unfold heads, commands, operators. cbn [map app pairs].
  repeat (apply Forall_cons; [cbn [chained h_words command_head operator_head fst];
    repeat split; try (vm_compute; discriminate); try (vm_compute; reflexivity); intro; vm_compute; reflexivity|]). apply Forall_nil.
Qed.
Definition head_toks (h : head) : list token := map (fun w => tok w []) (h_words h).
Lemma src_words ws : src (map (fun w => tok w []) ws) = flat_map snd ws.
Proof. induction ws as [|w ws IH]; [reflexivity|]. change (src (map (fun w => tok w []) (w :: ws))) with (([] ++ snd w) ++ src (map (fun w => tok w []) ws)). rewrite IH. reflexivity. Qed.
Lemma good_words ws rest : chained ws (u "(") -> good (tok w_lparen [] :: rest) -> good (map (fun w => tok w []) ws ++ tok w_lparen [] :: rest).
Proof.
  induction ws as [|w ws IH]; intros C G; [exact G|]. destruct C as (Ok & Ft & C). cbn [map app].
  apply good_cons; [exact Ok|apply no_lead| |apply IH; assumption]. destruct ws as [|v ws]; cbn [map app]; [exact (meets_word w w_lparen rest Ft)|exact (meets_word w v _ Ft)].
Qed.

(** * The converter *)
Section Convert.
Variable V : Type.
Variable O : LSympy V.
Definition use_head (h : head) (arg : lv V) : M (globals V) (lv V) :=
  f <- apply_func O (h_name h) (h_op h) None arg ;; func_power O (h_name h) f arg None.
Lemma heads_call : Forall (fun h => one_of (h_name h) (map u ["log"; "ln"]%string) = false /\ forall arg st, use_head h arg st = call O (h_calls h) [arg] st) heads.
Proof.
  unfold heads, commands, operators. cbn [map app pairs].
  repeat (apply Forall_cons; [split; [vm_compute; reflexivity|]; intros arg st; cbv -[call]; destruct (call _ _ _ _) as [[|] ?]; reflexivity|]). apply Forall_nil.
Qed.
Lemma conv_head l2s h t : In h heads -> forall st, conv O l2s (TFunc (h_name h) (h_op h) None None t) st = (x <- conv O l2s t ;; call O (h_calls h) [x]) st.
Proof.
  intros H st. pose proof heads_call as T. rewrite Forall_forall in T. destruct (T _ H) as [N C]. cbn [conv]. rewrite N. unfold bind at 1. unfold bind at 4.
  destruct (conv O l2s t st) as [[x|e] st1]; [|reflexivity]. exact (C x st1).
Qed.
End Convert.

(** * The text *)
(** [prepare] leaves a text without these pieces alone *)
Definition cores : list pystr := map u ["\dfrac"; "\tfrac"; "\mathrm"; "\rm"; "\begin"; "\end"; "\displaystyle"; "\quad"; "\qquad"; "~"; "\,"; "$"]%string.
Lemma prepare_fixed s : Forall (fun q => contains q s = false) cores -> (forall t, re_sub perm_re t s = s) -> prepare s = s.
Proof.
  intros F E8. unfold cores in F. cbn [map] in F. rewrite Forall_forall in F.
  assert (G : forall p q r t, In q (map u ["\dfrac"; "\tfrac"; "\mathrm"; "\rm"; "\begin"; "\end"; "\displaystyle"; "\quad"; "\qquad"; "~"; "\,"; "$"]%string) -> replace (p ++ q ++ r) t s = s).
  { intros p q r t H. apply replace_absent, contains_core, F, H. }
  unfold prepare. cbv zeta.
  rewrite (G [] (u "\dfrac") [] (u "\frac") ltac:(cbn; tauto) : replace (u "\dfrac") (u "\frac") s = s).
  rewrite (G [] (u "\tfrac") [] (u "\frac") ltac:(cbn; tauto) : replace (u "\tfrac") (u "\frac") s = s).
  rewrite (G [] (u "\mathrm") (u "{T}") (u "T") ltac:(cbn; tauto) : replace (u "\mathrm{T}") (u "T") s = s).
  rewrite (G [] (u "\mathrm") (u "{d}") (u "d") ltac:(cbn; tauto) : replace (u "\mathrm{d}") (u "d") s = s).
  rewrite (G (u "{") (u "\rm") (u " d}") (u "d") ltac:(cbn; tauto) : replace (u "{\rm d}") (u "d") s = s).
  rewrite (G (u "\left[") (u "\begin") (u "{matrix}") (u "\begin{bmatrix}") ltac:(cbn; tauto) : replace (u "\left[\begin{matrix}") (u "\begin{bmatrix}") s = s).
  rewrite (G [] (u "\end") (u "{matrix}\right]") (u "\end{bmatrix}") ltac:(cbn; tauto) : replace (u "\end{matrix}\right]") (u "\end{bmatrix}") s = s).
  rewrite E8.
  rewrite (G [] (u "\displaystyle") [] (u " ") ltac:(cbn; tauto) : replace (u "\displaystyle") (u " ") s = s).
  rewrite (G [] (u "\quad") [] (u " ") ltac:(cbn; tauto) : replace (u "\quad") (u " ") s = s).
  rewrite (G [] (u "\qquad") [] (u " ") ltac:(cbn; tauto) : replace (u "\qquad") (u " ") s = s).
  rewrite (G [] (u "~") [] (u " ") ltac:(cbn; tauto) : replace (u "~") (u " ") s = s).
  rewrite (G [] (u "\,") [] (u " ") ltac:(cbn; tauto) : replace (u "\,") (u " ") s = s).
  exact (G [] (u "$") [] (u " ") ltac:(cbn; tauto)).
Qed.
Lemma prepare_plain s : Forall (fun q => contains q s = false) cores -> ~ In 95 s -> prepare s = s.
Proof. intros F U. apply prepare_fixed; [exact F|]. intro t. apply (sub_id_lit 95); [vm_compute; reflexivity|exact U]. Qed.
Lemma cores_absent : Forall absent cores.
Proof. unfold cores. cbn [map]. repeat (apply Forall_cons; [split; [discriminate|split; vm_compute; reflexivity]|]). apply Forall_nil. Qed.
Lemma prepare_after w ts : forallb (fun q => avoids q w) cores = true -> existsb (N.eqb 95) w = false -> Forall lettered ts -> prepare (w ++ src ts) = w ++ src ts.
Proof.
  intros A U F. apply prepare_plain.
  - pose proof cores_absent as C. rewrite Forall_forall in *. rewrite forallb_forall in A. intros q H. rewrite avoids_sound by (apply A, H).
    apply absent_src; [apply C, H|apply Forall_forall, F].
  - intro H. apply in_app_or in H. destruct H as [H|H]; [|exact (src_no_underscore ts F H)].
    assert (existsb (N.eqb 95) w = true); [|congruence]. apply existsb_exists. exists 95. split; [exact H|reflexivity].
Qed.
Lemma heads_prepared : forallb (fun h => forallb (fun q => avoids q (h_text h)) cores && negb (existsb (N.eqb 95) (h_text h))) heads = true.
Proof. vm_compute. reflexivity. Qed.
Section Text.
Variable gap : pystr.
Hypothesis Hgap : gap = [] \/ gap = [32].
Definition applied (h : head) (e : arith) : list token := head_toks h ++ paren_toks [] (ArithLex.toks gap e []).
Lemma lettered_paren e : wf e -> Forall lettered (paren_toks [] (ArithLex.toks gap e [])).
Proof.
  intro W. unfold paren_toks. constructor; [apply lettered_tok; [apply a_starter, named_starter; cbn; tauto|left; reflexivity]|].
  apply Forall_app. split; [apply lettered_toks; [exact Hgap|exact W|left; reflexivity]|].
  constructor; [apply lettered_tok; [apply a_ender, named_ender; cbn; tauto|left; reflexivity]|constructor].
Qed.
Lemma src_paren e : wf e -> src (paren_toks [] (ArithLex.toks gap e [])) = u "(" ++ body gap e ++ u ")".
Proof.
  intro W. unfold paren_toks. change (src (tok w_lparen [] :: ?r)) with (u "(" ++ src r). rewrite src_app, (src_toks gap e [] W). reflexivity.
Qed.
Lemma src_applied h e : wf e -> src (applied h e) = h_text h ++ u "(" ++ body gap e ++ u ")".
Proof. intro W. unfold applied, head_toks. rewrite src_app, src_words, (src_paren e W). reflexivity. Qed.
Lemma prepare_applied h e : In h heads -> wf e -> prepare (h_text h ++ u "(" ++ body gap e ++ u ")") = h_text h ++ u "(" ++ body gap e ++ u ")".
Proof.
  intros H W. pose proof heads_prepared as T. rewrite forallb_forall in T. specialize (T _ H). apply andb_true_iff in T. destruct T as [T1 T2].
  rewrite <- (src_paren e W). apply prepare_after; [exact T1|apply negb_true_iff, T2|apply lettered_paren, W].
Qed.
Lemma lex_applied h e : In h heads -> wf e -> lex (h_text h ++ u "(" ++ body gap e ++ u ")") = Some (applied h e).
Proof.
  intros H W. pose proof t_heads as T. rewrite Forall_forall in T. specialize (T _ H). unfold lex. rewrite <- (src_applied h e W). apply lex_go_good; [|lia].
  unfold applied, head_toks, paren_toks. apply good_words; [exact T|].
  apply good_opener; [cbn; tauto|apply no_lead|apply begins_app, toks_begin, W|].
  apply good_toks; [exact Hgap|exact W|left; reflexivity| |apply follow; cbn; tauto].
  apply good_ender; [apply named_ender; cbn; tauto|apply no_lead|left; reflexivity|exact I].
Qed.
End Text.

(** * The parser *)
Section Parse.
Local Opaque rules_upto.
Lemma func_single_runs n c t hd nm : tame c -> AE c t -> hd <> [] -> sure n (func_name single_funcs single_names) hd nm ->
  runs n (func_single (X n)) (hd ++ tok w_lparen [] :: c ++ [tok w_rparen []]) (TFunc (fst nm) (snd nm) None None t) C5.
Proof.
  intros T H Ne S. unfold func_single. apply (r_seq n _ _ _ nm); [exact S|exact Ne|tam|].
  intros n1 L1. apply (r_skip n1 _ _ (None, None) _ _ [K_L_PAREN]); [|tam|apply after_cons; reflexivity|].
  - apply r_left. apply (r_end n1 _ _ [] None); [apply r_none; dead_by_first|]. apply (r_end n1 _ _ [] None); [apply r_none; dead_by_first|apply r_ret].
  - cbn [fst snd sub_tree]. apply (r_skip n1 _ _ None _ _ [K_L_PAREN]); [apply r_ret|tam|apply after_cons; reflexivity|].
    apply (r_end n1 _ _ _ t); [|apply r_ret]. apply r_left. unfold in_parens. apply r_left.
    apply (r_skip n1 _ _ None _ _ [K_L_PAREN]); [apply r_none; dead_by_first|tam|apply after_cons; reflexivity|].
    apply (r_tstep n1 w_lparen). intros n2 L2. apply (r_bind n2 _ _ c t _ _ C0); [apply inner; [exact H|lia]|tam|apply after_cons; reflexivity|].
    apply (r_skip n2 _ _ None _ _ [K_R_PAREN]); [apply r_none; dead_by_first|tam|apply after_cons; reflexivity|].
    apply (r_end n2 _ _ _ (tok w_rparen [])); [apply (r_tok n2 w_rparen)|apply r_ret].
Qed.
Lemma head_dead w : In w (map (fun h => match h_words h with w :: _ => w | [] => (0, []) end) heads) -> forall rec rest (k : K tree),
  brackets TGroup group_pairs (r_expr rec) (tok w [] :: rest) k = NoParse /\ brackets TNorm norm_pairs (r_expr rec) (tok w [] :: rest) k = NoParse /\
  brackets TAbs abs_pairs (r_expr rec) (tok w [] :: rest) k = NoParse /\ brackets TFloor floor_pairs (r_expr rec) (tok w [] :: rest) k = NoParse /\
  brackets TCeil ceil_pairs (r_expr rec) (tok w [] :: rest) k = NoParse.
Proof.
  intros H. unfold heads, commands, operators in H. cbn [map app pairs h_words command_head operator_head] in H. cbn [In] in H.
  repeat (destruct H as [<-|H]; [intros; repeat split; vm_compute; reflexivity|]). destruct H.
Qed.
Lemma head_sure h : In h heads -> forall n, sure n (func_name single_funcs single_names) (head_toks h) (h_name h, h_op h).
Proof.
  intro H. unfold heads in H. apply in_app_or in H. destruct H as [H|H]; apply in_map_iff in H; destruct H as (p & <- & H); intros n ks; unfold func_name, head_toks.
  - cbn [h_words command_head map h_name h_op]. apply r_left.
    refine (r_map n (fun t : token => (skipn 1 (text t), [] : pystr)) (pone single_funcs) _ (tok (word_of (command (fst p))) []) ks (r_one n _ _ ks _)).
    revert H. unfold commands. cbn [map pairs In]. intro H. repeat (destruct H as [<-|H]; [vm_compute; reflexivity|]). destruct H.
  - cbn [h_words operator_head map h_name h_op]. apply r_right; [intros r k _ _ _; reflexivity|].
    intros rest k r _ _ _ E. cbn [app]. revert H. unfold operators. cbn [map pairs In]. intro H.
    repeat (destruct H as [<-|H]; [exact E|]). destruct H.
Qed.
Lemma head_first h : In h heads -> exists w r, head_toks h = tok w [] :: r /\ In w (map (fun h => match h_words h with w :: _ => w | [] => (0, []) end) heads) /\ tame (head_toks h).
Proof.
  intro H. assert (T : Forall (fun h => exists w r, h_words h = w :: r /\ forallb (fun w => negb (mem (fst w) [K_UNDERSCORE; K_MATRIX_XRIGHTARROW])) (h_words h) = true) heads).
  { unfold heads, commands, operators. cbn [map app pairs]. repeat (apply Forall_cons; [eexists _, _; split; [reflexivity|vm_compute; reflexivity]|]). apply Forall_nil. }
  rewrite Forall_forall in T. destruct (T _ H) as (w & r & E & B). exists w, (map (fun w => tok w []) r). unfold head_toks. split; [rewrite E; reflexivity|].
  split; [apply in_map_iff; exists h; rewrite E; auto|]. clear E. induction (h_words h) as [|v ws IH]; [apply tame_nil|].
  cbn [forallb] in B. apply andb_true_iff in B. destruct B as [B1 B2]. apply tame_cons; [destruct v; exact B1|apply IH, B2].
Qed.
Lemma f_head h c t : In h heads -> tame c -> AE c t -> A6 (head_toks h ++ paren_toks [] c) (TFunc (h_name h) (h_op h) None None t).
Proof.
  intros H T Ht n. destruct (head_first h H) as (w & r & E & Hw & _). pose proof (head_dead w Hw) as D. unfold comp.
  do 5 (apply r_right; [intros rest k _ _ _; rewrite E; cbn [app]; apply D|]). apply r_left. unfold func. apply r_left.
  apply (func_single_runs n c t (head_toks h) (h_name h, h_op h)); [exact T|exact Ht|rewrite E; discriminate|apply head_sure, H].
Qed.
End Parse.
Theorem parse_applied gap {A} (KA : arithmetic A) V (den : V -> A) rho values hash h e : gap = [] \/ gap = [32] -> In h heads -> wf e ->
  exists t, parse_text (h_text h ++ u "(" ++ body gap e ++ u ")") = Found (MRel (RExpr (TJuxt [TFunc (h_name h) (h_op h) None None t]))) /\ Reads KA V den rho values hash t (value KA rho e).
Proof.
  intros Hg Hh W. destruct (main gap Hg KA V den rho values hash e [] W (or_introl eq_refl) 0%nat ltac:(lia)) as (t & R & H).
  exists t. split; [|exact R]. unfold parse_text. rewrite (lex_applied gap Hg h e Hh W). unfold parse, math.
  assert (T : tame (ArithLex.toks gap e [])) by (apply tame_toks; [exact Hg|exact W|left; reflexivity]).
  destruct (head_first h Hh) as (w & r & E & Hw & T').
  pose proof (f_head h _ t Hh T (close0 _ _ H)) as F6. change (head_toks h ++ paren_toks [] (ArithLex.toks gap e [])) with (applied gap h e) in F6.
  assert (FE : AE (applied gap h e) (TJuxt [TFunc (h_name h) (h_op h) None None t])).
  { unfold applied in *. rewrite E in *. cbn [app] in *. apply wide_expr; [|intro n; apply (r_less n _ _ _ C5); [reflexivity|apply F6]].
    clear - Hw. revert Hw. unfold heads, commands, operators. cbn [map app pairs h_words command_head operator_head In]. intro H.
    repeat (destruct H as [<-|H]; [vm_compute; reflexivity|]). destruct H. }
  unfold palt. match goal with |- context [pmap MRel ?p ?ts ?k] => replace (pmap MRel p ts k) with (Found (MRel (RExpr (TJuxt [TFunc (h_name h) (h_op h) None None t])))) end; [reflexivity|]. symmetry.
  rewrite <- (app_nil_r (applied gap h e)) at 2. unfold pmap, pbind at 1, pret, relation, pbind at 1.
  apply (inner (applied gap h e) _ FE (Datatypes.S (List.length (applied gap h e))) (List.length (applied gap h e))); [lia|rewrite app_nil_r; lia|constructor|exact I|].
  reflexivity.
Qed.

(** * From the text to the call *)
Theorem latex2sympy_applied gap {A} (K : arithmetic A) V (O : LSympy V) den rho vs n w f e st : gap = [] \/ gap = [32] ->
  faithful K V den rho vs (o_md5 _ O) O -> (forall s t, parse_text s = Found t -> o_parse _ O s = Ret t) -> In (w, f) function_table -> wf e -> g_var st = [] ->
  exists v, worth V den O v (value K rho e) /\
    let got := fst (latex2sympy O (Datatypes.S n) (w ++ u "(" ++ body gap e ++ u ")") vs st) in
    match o_call _ O f [LV v] with
    | Raise x => got = Raise x
    | Ret (LV y) => got = Ret (LV y)
    | Ret (LTD y) => got = Ret (LTD y)
    | Ret _ => exists x, got = Raise x
    end.
Proof.
  intros Hg F P Hw W E. destruct (table_heads w f Hw) as (h & Hh & <- & <-).
  destruct (parse_applied gap K V den rho vs (o_md5 _ O) h e Hg Hh W) as (t & Ht & R).
  rewrite latex2sympy_head. unfold bind at 1.
  destruct (head_rel Exact (h_text h ++ u "(" ++ body gap e ++ u ")") vs st st) as (s1 & s1' & Hs & _ & Rl & Hs1); [split; cbn; reflexivity|].
  assert (g_var s1 = []) as E'. { revert Hs. unfold L2STheory.head, bind, gets, set_frac, set_values. intros [= <-]. exact E. }
  rewrite Hs. unfold rest, bind at 1, lift_res. rewrite (prepare_applied gap Hg h e Hh W), (P _ _ Ht).
  destruct (proj1 (conv_value K V den rho vs (o_md5 _ O) O F (latex2sympy O n)) t _ R s1 E' Hs1) as (v & s2 & Ev & Wv & H1 & H2).
  exists v. split; [exact Wv|]. cbv zeta.
  set (got := fst _). assert (G : got = fst (juxtapose O (conv O (latex2sympy O n)) [TFunc (h_name h) (h_op h) None None t] s1)) by reflexivity.
  clearbody got. unfold juxtapose in G. unfold bind at 1 in G. rewrite (conv_head V O (latex2sympy O n) h t Hh s1) in G. unfold bind at 1 in G. rewrite Ev in G. unfold call, lift_res in G.
  destruct (o_call V O (h_calls h) [LV v]) as [[y|y|l|z|]|x]; try exact G; unfold bind in G.
  - destruct (check_derivative s2) as [[[]|x] s3]; [destruct l|]; rewrite G; eexists; reflexivity.
  - destruct (check_derivative s2) as [[[]|x] s3]; rewrite G; eexists; reflexivity.
  - destruct (check_derivative s2) as [[[]|x] s3]; rewrite G; eexists; reflexivity.
Qed.
