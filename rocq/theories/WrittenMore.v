(** Repeated exponents and thousands separators, as they are written and read; from the text to the value *)
From Coq Require Import String List NArith ZArith QArith Bool Lia.
From Verif Require Import PyStr PyStrTheory Regex RegexTheory Normalize NumTheory NormTheory Monad MonadTheory L2S L2STheory L2SState L2SValue L2SCalc Lexer Grammar GrammarTheory Arith ArithLex ArithPrep ArithParse Written WrittenParse.
Import ListNotations.
Local Close Scope Q_scope.
Local Open Scope N_scope.
Local Open Scope par_scope.

(** * What is written *)
(** a base with several exponents in braces *)
Definition tower_latex (gap : pystr) (b : arith) (es : list arith) : pystr :=
  (if Nat.leb 6 (prec b) then body gap b else parens (body gap b)) ++ flat_map (fun e => u "^{" ++ body gap e ++ u "}") es.
Definition tower_wf (b : arith) (es : list arith) : Prop := wf b /\ Forall wf es /\ es <> [].
Definition tower_value {A} (K : arithmetic A) (rho : pystr -> A) (b : arith) (es : list arith) : A :=
  fold_left (fun a e => power K a (value K rho e)) es (value K rho b).
(** digits, then groups of digits after commas *)
Definition grouped (ds : pystr) (gs : list pystr) : pystr := ds ++ flat_map (fun g => u "," ++ g) gs.
Definition three (g : pystr) : Prop := Forall ascii_digit g /\ List.length g = 3%nat.

(** * Tokens *)
Lemma parse_runs s c t : lex s = Some c -> (forall n, runs n (additive (X n)) c t []) -> parse_text s = Found (MRel (RExpr t)).
Proof.
  intros L H. unfold parse_text. rewrite L. unfold parse, math, palt. replace (pmap MRel _ _ _) with (Found (MRel (RExpr t))); [reflexivity|]. symmetry.
  rewrite <- (app_nil_r c) at 2. unfold pmap, pbind at 1, pret, relation, pbind at 1.
  apply (H (List.length c)); [rewrite app_nil_r; lia|constructor|exact I|reflexivity].
Qed.
Section Tower.
Variable gap : pystr.
Hypothesis Hgap : gap = [] \/ gap = [32].
Local Notation toks := (ArithLex.toks gap).
Local Notation body := (Arith.body gap).
Definition sup_toks (e : arith) : list token := tok w_caret [] :: tok w_lbrace [] :: toks e [] ++ [tok w_rbrace []].
Definition tower_toks (b : arith) (es : list arith) : list token := level_toks gap 6 b [] ++ flat_map sup_toks es.
Lemma src_tower b es : wf b -> Forall wf es -> src (tower_toks b es) = tower_latex gap b es.
Proof.
  intros W F. unfold tower_toks, tower_latex. rewrite src_app, (src_level gap 6 b [] W). f_equal. induction F as [|e es We F IH]; [reflexivity|].
  cbn [flat_map]. rewrite src_app, IH. unfold sup_toks. rewrite !src_cons, src_app, (src_toks gap e [] We). reflexivity.
Qed.
Lemma good_sups es : Forall wf es -> good (flat_map sup_toks es) /\ (flat_map sup_toks es = [] \/ exists r, flat_map sup_toks es = tok w_caret [] :: r).
Proof.
  induction 1 as [|e es We F [G B]]; [split; [exact I|left; reflexivity]|]. cbn [flat_map]. unfold sup_toks at 1 3 4. cbn [app]. rewrite <- app_assoc. cbn [app].
  assert (Bt := toks_begin gap e [] We). split; [|right; eexists; reflexivity].
  assert (G1 : good (toks e [] ++ tok w_rbrace [] :: flat_map sup_toks es)).
  { apply good_toks; [exact Hgap|exact We|left; reflexivity| |apply follow; cbn; tauto].
    apply good_ender; [apply named_ender; cbn; tauto|apply no_lead| |exact G]. destruct B as [B|[r B]]; rewrite B; [left; reflexivity|apply follow; cbn; tauto]. }
  apply good_caret; [apply begins_app, Bt|]. apply good_opener; [cbn; tauto|apply no_lead|apply begins_app, Bt|exact G1].
Qed.
Lemma lex_tower b es : wf b -> Forall wf es -> lex (tower_latex gap b es) = Some (tower_toks b es).
Proof.
  intros W F. unfold lex. rewrite <- (src_tower b es W F). apply lex_go_good; [|lia]. destruct (good_sups es F) as [G B].
  assert (Fo : forall s, follows s (flat_map sup_toks es)) by (intro s; destruct B as [B|[r B]]; rewrite B; [left; reflexivity|apply follow; cbn; tauto]).
  unfold tower_toks, level_toks, ArithLex.at_level. destruct (Nat.leb 6 (prec b)).
  - apply good_toks; [exact Hgap|exact W|left; reflexivity|exact G|apply Fo].
  - unfold paren_toks. cbn [app]. rewrite <- app_assoc. cbn [app]. apply good_opener; [cbn; tauto|apply no_lead|apply begins_app, toks_begin, W|].
    apply good_toks; [exact Hgap|exact W|left; reflexivity| |apply follow; cbn; tauto]. apply good_ender; [apply named_ender; cbn; tauto|apply no_lead|apply Fo|exact G].
Qed.
Lemma lettered_tower b es : wf b -> Forall wf es -> Forall lettered (tower_toks b es).
Proof.
  intros W F. apply Forall_app. split; [apply lettered_level; [exact Hgap|exact W|left; reflexivity]|]. induction F as [|e es We F IH]; [constructor|]. cbn [flat_map]. apply Forall_app. split; [|exact IH].
  unfold sup_toks. constructor; [apply lettered_tok; [apply a_follower; cbn; tauto|left; reflexivity]|]. constructor; [apply lettered_tok; [apply a_other; cbn; tauto|left; reflexivity]|].
  apply Forall_app. split; [apply lettered_toks; [exact Hgap|exact We|left; reflexivity]|]. constructor; [apply lettered_tok; [apply a_ender, named_ender; cbn; tauto|left; reflexivity]|constructor].
Qed.
Lemma prepare_tower b es : wf b -> Forall wf es -> prepare (tower_latex gap b es) = tower_latex gap b es.
Proof. intros W F. rewrite <- (src_tower b es W F). apply prepare_src, lettered_tower; assumption. Qed.
Context {A : Type}.
Variable K : arithmetic A.
Variable V : Type.
Variable den : V -> A.
Variable rho : pystr -> A.
Variable values : list (pystr * pv V).
Variable hash : pystr -> pystr.
Notation reads := (Reads K V den rho values hash).
Lemma f_sup_op e t n : tame (toks e []) -> AE (toks e []) t -> runs n (exp_op (X n)) (sup_toks e) t (C5 ++ J).
Proof.
  intros T H. unfold exp_op, sup_toks. apply (r_tstep n w_caret). intros n1 L1. apply (r_end n1 _ _ _ t).
  - apply r_right; [intros rest0 kk0 Hl0 Ht0 Hs0; reflexivity|]. apply braced_mono; [exact T|exact H|lia].
  - apply (r_end n1 _ _ [] None); [apply r_none, dead_subexpr|apply r_ret].
Qed.
Lemma sups_run es : Forall wf es -> exists ts, Forall2 (fun e t => reads t (value K rho e)) es ts /\
  (forall n, many_runs n (exp_op (X n)) (flat_map sup_toks es) ts (C4 ++ J)) /\ tame (flat_map sup_toks es) /\ after (C5 ++ J) (flat_map sup_toks es) (C4 ++ J).
Proof.
  induction 1 as [|e es We F (ts & F2 & Hm & T & Af)].
  - exists []. split; [constructor|]. split; [intro; apply many_nil, dead_exp_op|]. split; [apply tame_nil|apply stop_sub; reflexivity].
  - destruct (main gap Hgap K V den rho values hash e [] We (or_introl eq_refl) 0%nat ltac:(lia)) as (t & R & H). apply close0 in H.
    assert (Te : tame (toks e [])) by (apply tame_toks; [exact Hgap|exact We|left; reflexivity]).
    exists (t :: ts). split; [constructor; assumption|]. cbn [flat_map]. split; [|split; [apply tame_app; [unfold sup_toks; tam|exact T]|apply after_cons; reflexivity]].
    intro n. apply (many_cons n _ _ t _ ts (C5 ++ J)); [discriminate|apply f_sup_op; assumption|exact T|exact Af|apply Hm].
Qed.
Lemma fold_reads es ts : Forall2 (fun e t => reads t (value K rho e)) es ts -> forall t a, reads t a -> reads (fold_left TPow ts t) (fold_left (fun a e => power K a (value K rho e)) es a).
Proof. induction 1 as [|e t es ts R F IH]; intros t0 a R0; [exact R0|]. cbn [fold_left]. apply IH, R_pow; assumption. Qed.
Theorem parse_tower b es : tower_wf b es -> exists t, parse_text (tower_latex gap b es) = Found (MRel (RExpr t)) /\ reads t (tower_value K rho b es).
Proof.
  intros (W & F & Ne). assert (G : exists t, A5 (tower_toks b es) t /\ reads t (tower_value K rho b es)).
  { assert (Ex : (exists x, b = Sym x) \/ ~ (exists x, b = Sym x)) by (destruct b; try (right; intros [? E0]; discriminate E0); left; eauto). destruct Ex as [[x ->]|Ns].
    - destruct F as [|e es We F]; [congruence|]. clear Ne. destruct (sups_run es F) as (ts & F2 & Hm & T & Af).
      destruct (main gap Hgap K V den rho values hash e [] We (or_introl eq_refl) 0%nat ltac:(lia)) as (t & R & H). apply close0 in H.
      assert (Te : tame (toks e [])) by (apply tame_toks; [exact Hgap|exact We|left; reflexivity]).
      destruct (sym_named x [] W) as (nm & En & Nm). exists (fold_left TPow ts (TSymbol nm None (Some t))). split.
      + intro n. unfold tower_toks. change (level_toks gap 6 (Sym x) [] ++ flat_map sup_toks (e :: es)) with ((tok (w_sym x) [] :: sup_toks e) ++ flat_map sup_toks es).
        unfold exp. apply (r_bind n _ _ _ (TSymbol nm None (Some t)) _ _ C5); [apply (r_less _ _ _ _ (C5 ++ JN)); [reflexivity|]; apply f_sym_pow; assumption|exact T| |].
        * intros rest S. destruct es as [|e' es']; [exact (stop_sub C5 C4 eq_refl rest S)|reflexivity].
        * apply (r_end n _ _ _ ts); [apply r_many; intros i rest k r Li L T' S; apply Hm; try assumption; apply (stop_sub (C4 ++ J) C4 eq_refl rest S)|apply r_ret].
      + unfold tower_value. cbn [fold_left value]. apply fold_reads; [exact F2|]. apply R_power_symbol; assumption.
    - destruct (sups_run es F) as (ts & F2 & Hm & T & Af).
      assert (Hb : exists t, reads t (value K rho b) /\ B6 (level_toks gap 6 b []) t).
      { unfold level_toks, ArithLex.at_level. destruct (Nat.leb 6 (prec b)) eqn:El.
        - apply Nat.leb_le in El. apply (main gap Hgap K V den rho values hash b [] W (or_introl eq_refl) 6%nat). destruct b; cbn [prec' prec] in *; try lia. destruct Ns. eauto.
        - apply (paren_lvl K V den rho values hash J (toks b []) (value K rho b) []) with (l' := 6%nat); [left; reflexivity|apply tame_toks; [exact Hgap|exact W|left; reflexivity]| |lia].
          exact (main gap Hgap K V den rho values hash b [] W (or_introl eq_refl) 0%nat ltac:(lia)). }
      destruct Hb as (t & R & H). exists (fold_left TPow ts t). split; [|unfold tower_value; apply fold_reads; assumption].
      intro n. unfold tower_toks, exp. apply (r_bind n _ _ _ t _ _ C5); [apply B6_A6, H|exact T| |].
      * intros rest S. destruct es as [|e' es']; [congruence|reflexivity].
      * apply (r_end n _ _ _ ts); [apply r_many; intros i rest k r Li L T' S; apply Hm; try assumption; apply (stop_sub (C4 ++ J) C4 eq_refl rest S)|apply r_ret]. }
  destruct G as (t & H & R). exists (TJuxt [t]). split; [|apply R_juxt, R_one, R]. apply (parse_runs _ (tower_toks b es)); [apply lex_tower; assumption|].
  intro n. apply (r_less _ _ _ _ C0); [reflexivity|]. apply close0, lift0, lift1, lift2; [apply lift3, lift4, H| |apply lettered_tame, lettered_tower; assumption].
  unfold tower_toks. apply unsigned_app. unfold level_toks, ArithLex.at_level. destruct (Nat.leb 6 (prec b)) eqn:El; [apply unsigned_toks; [exact W|apply Nat.leb_le in El; lia]|apply paren_unsigned].
Qed.
End Tower.

(** * Thousands *)
Definition comma_toks (gs : list pystr) : list token := flat_map (fun g => tok w_comma [] :: digits [] g) gs.
Lemma three_numeral g : three g -> numeral g.
Proof. intros [F L]. split; [exact F|]. destruct g; [discriminate|discriminate]. Qed.
Lemma src_commas gs : Forall three gs -> src (comma_toks gs) = flat_map (fun g => u "," ++ g) gs.
Proof.
  induction 1 as [|g gs Hg F IH]; [reflexivity|]. cbn [comma_toks flat_map]. rewrite <- IH. change (src ([tok w_comma []] ++ digits [] g ++ comma_toks gs) = u "," ++ g ++ src (comma_toks gs)).
  rewrite !src_app, src_digits by (apply (three_numeral g Hg)). reflexivity.
Qed.
Lemma t_comma : Forall (fun v => fits w_comma (snd v)) digit_words.
Proof. repeat (apply Forall_cons; [intro; vm_compute; reflexivity|]). apply Forall_nil. Qed.
Lemma good_commas gs rest : Forall three gs -> good rest -> rest = [] \/ begins rest [] after_digits -> good (comma_toks gs ++ rest) /\ (comma_toks gs ++ rest = [] \/ begins (comma_toks gs ++ rest) [] after_digits).
Proof.
  intros F G B. induction F as [|g gs Hg F [IH IB]]; [split; assumption|]. cbn [comma_toks flat_map app]. rewrite <- app_assoc. split.
  - assert (Nm := three_numeral g Hg). destruct (begins_digits g [] Nm) as (v & r & E & Hv). apply good_cons; [split; [reflexivity|discriminate]|apply no_lead| |apply good_digits; [exact Nm|left; reflexivity|exact IH|exact IB]].
    rewrite E. cbn [app]. apply meets_word. pose proof t_comma as T. rewrite Forall_forall in T. apply T, Hv.
  - right. eexists w_comma, _. split; [reflexivity|]. unfold after_digits. do 2 (apply in_or_app; right). apply in_or_app; left. cbn; tauto.
Qed.
Lemma lex_grouped ds gs ds' : numeral ds -> Forall three gs -> ds' = [] \/ numeral ds' -> lex (grouped ds gs ++ ds') = Some (digits [] ds ++ comma_toks gs ++ digits [] ds').
Proof.
  intros Nd F Nd'. assert (E : grouped ds gs ++ ds' = src (digits [] ds ++ comma_toks gs ++ digits [] ds')).
  { rewrite !src_app, (src_commas gs F), src_digits by apply Nd. unfold grouped. rewrite <- app_assoc. do 2 f_equal. destruct Nd' as [->|Nd']; [reflexivity|rewrite src_digits by apply Nd'; reflexivity]. }
  unfold lex. rewrite E. apply lex_go_good; [|lia].
  assert (G : good (digits [] ds') /\ (digits [] ds' = [] \/ begins (digits [] ds') [] after_digits)).
  { destruct Nd' as [->|Nd']; [split; [exact I|left; reflexivity]|]. split; [rewrite <- (app_nil_r (digits [] ds')); apply good_digits; [exact Nd'|left; reflexivity|exact I|left; reflexivity]|].
    right. apply (begins_more _ _ _ _ (begins_digits ds' [] Nd')). intros w Hw. apply in_or_app; left; exact Hw. }
  destruct G as [G B]. destruct (good_commas gs _ F G B) as [G' B']. apply good_digits; [exact Nd|left; reflexivity|exact G'|exact B'].
Qed.
Lemma lettered_grouped ds gs ds' : numeral ds -> Forall three gs -> ds' = [] \/ numeral ds' -> Forall lettered (digits [] ds ++ comma_toks gs ++ digits [] ds').
Proof.
  assert (L0 : ([] : pystr) = [] \/ ([] : pystr) = [32]) by (left; reflexivity).
  intros Nd F Nd'. apply Forall_app. split; [apply lettered_digits; [apply Nd|exact L0]|]. apply Forall_app. split.
  - induction F as [|g gs [Hg _] F IH]; [constructor|]. cbn [comma_toks flat_map app]. constructor; [apply lettered_tok; [apply a_other; cbn; tauto|exact L0]|]. apply Forall_app. split; [apply lettered_digits; [exact Hg|exact L0]|exact IH].
  - destruct Nd' as [->|Nd']; [constructor|apply lettered_digits; [apply Nd'|exact L0]].
Qed.
Lemma prepare_grouped ds gs ds' : numeral ds -> Forall three gs -> ds' = [] \/ numeral ds' -> prepare (grouped ds gs ++ ds') = grouped ds gs ++ ds'.
Proof.
  intros Nd F Nd'. assert (E : grouped ds gs ++ ds' = src (digits [] ds ++ comma_toks gs ++ digits [] ds')).
  { rewrite !src_app, (src_commas gs F), src_digits by apply Nd. unfold grouped. rewrite <- app_assoc. do 2 f_equal. destruct Nd' as [->|Nd']; [reflexivity|rewrite src_digits by apply Nd'; reflexivity]. }
  rewrite E. apply prepare_src, lettered_grouped; assumption.
Qed.
Section Thousands.
Local Opaque rules_upto.
Lemma numeric_grouped ds gs ds' : Forall numeric (digits [] ds ++ comma_toks gs ++ digits [] ds').
Proof.
  apply Forall_app. split; [apply numeric_digits|]. apply Forall_app. split; [|apply numeric_digits].
  induction gs as [|g gs IH]; [constructor|]. cbn [comma_toks flat_map app]. constructor; [reflexivity|]. apply Forall_app. split; [apply numeric_digits|exact IH].
Qed.
Lemma tame_commas gs : tame (comma_toks gs).
Proof. induction gs as [|g gs IH]; [constructor|]. cbn [comma_toks flat_map app]. apply tame_cons; [reflexivity|]. apply tame_app; [apply tame_digits|exact IH]. Qed.
Lemma text_grouped ds gs : get_text (digits [] ds ++ comma_toks gs) = grouped ds gs.
Proof.
  unfold get_text, grouped. rewrite flat_map_app. fold (get_text (digits [] ds)). rewrite text_digits. f_equal.
  induction gs as [|g gs IH]; [reflexivity|]. cbn [comma_toks flat_map app]. rewrite flat_map_app. fold (get_text (digits [] g)). rewrite text_digits. cbn. f_equal. exact IH || (f_equal; exact IH).
Qed.
(** whatever follows but a comma or a period *)
Lemma r_grouped n ds gs ks : numeral ds -> Forall three gs -> gs <> [] -> mem K_COMMA ks = false -> mem K_PERIOD ks = false ->
  runs n p_number_toks (digits [] ds ++ comma_toks gs) tt ks.
Proof.
  intros [Fd Nd] F Ng Mc Mp. unfold p_number_toks. apply r_left.
  apply (r_bind n _ _ _ (digits [] ds) _ _ [K_COMMA]); [apply plus_digits; [exact Nd|reflexivity]|apply tame_commas| |].
  - destruct gs; [congruence|]. apply after_cons. reflexivity.
  - assert (Hm : exists l, many_runs n (_ <~ ptok K_COMMA ;; _ <~ pdigit ;; _ <~ pdigit ;; pdigit) (comma_toks gs) l ks).
    { clear Ng. induction F as [|g gs [Hg Lg] F (l & IH)].
      - exists []. apply many_nil. intros rest k S. apply (dead_tok K_COMMA ks); assumption.
      - destruct g as [|a [|b [|c [|? ?]]]]; try discriminate Lg. exists (tok (w_digit c) [] :: l).
        change (comma_toks ([a; b; c] :: gs)) with ([tok w_comma []; tok (w_digit a) []; tok (w_digit b) []; tok (w_digit c) []] ++ comma_toks gs).
        assert (Su : forall ks', runs n (_ <~ ptok K_COMMA ;; _ <~ pdigit ;; _ <~ pdigit ;; pdigit) [tok w_comma []; tok (w_digit a) []; tok (w_digit b) []; tok (w_digit c) []] (tok (w_digit c) []) ks').
        { intro ks'. apply (r_tstep n w_comma). intros n1 L1. apply (r_step n1); [reflexivity|]. intros n2 L2. apply (r_step n2); [reflexivity|]. intros n3 L3. apply r_one. reflexivity. }
        apply (many_cons n _ _ _ _ l (K_COMMA :: ks)); [discriminate|apply Su|apply tame_commas| |exact IH].
        destruct gs as [|g' gs']; [|apply after_cons; reflexivity]. intros [|x rest] S; [exact I|]. cbn [comma_toks flat_map app stop] in *. unfold mem in *. cbn [existsb]. rewrite S. apply orb_true_r. }
    destruct Hm as (l & Hm). apply (r_end n _ _ _ l); [apply r_many, Hm|].
    apply (r_end n _ _ [] None); [|apply r_ret]. apply r_none. intros rest k S. apply (dead_tok K_PERIOD ks); assumption.
Qed.
Lemma f_grouped n ds gs : numeral ds -> Forall three gs -> gs <> [] -> runs n (comp (X n) true) (digits [] ds ++ comma_toks gs) (TNumber (grouped ds gs)) (C5 ++ J).
Proof.
  intros Nd F Ng. rewrite <- text_grouped. destruct ds as [|c r]; [destruct Nd; congruence|].
  apply (f_number n _ c [] (map (fun c => tok (w_digit c) []) r ++ comma_toks gs)); [reflexivity| |].
  - pose proof (numeric_grouped (c :: r) gs []) as N0. cbn [digits] in N0. rewrite app_nil_r in N0. exact N0.
  - intros ks D. assert (M : forall k, mem k NK = true -> mem k ks = false).
    { intros k Hk. destruct (mem k ks) eqn:E; [|reflexivity]. unfold mem in E. apply existsb_exists in E. destruct E as (x & Hx & Ex). apply N.eqb_eq in Ex. subst.
      rewrite forallb_forall in D. specialize (D x Hx). rewrite Hk in D. discriminate. }
    apply r_grouped; try assumption; apply M; reflexivity.
Qed.
(** more digits after the last group: a second factor *)
Lemma f_grouped_more n ds gs ds' : numeral ds -> Forall three gs -> gs <> [] -> numeral ds' ->
  runs n (additive (X n)) ((digits [] ds ++ comma_toks gs) ++ digits [] ds') (TJuxt [TNumber (grouped ds gs); TNumber ds']) [].
Proof.
  intros Nd F Ng Nd' rest k o L T S E. destruct rest; [clear S T|discriminate S]. rewrite app_nil_r in *.
  set (c := digits [] ds ++ comma_toks gs) in *.
  assert (Dn : forall (A0 : Type) (f : unit -> P A0) k', (forall r, stop NK r -> f tt r k' = NoParse) -> (x <~ p_number_toks ;; f x) (c ++ digits [] ds') k' = NoParse).
  { intros A0 f k' Hf. unfold pbind. rewrite <- (app_nil_r (c ++ digits [] ds')). apply (number_fail _ _ [] []); [unfold c; rewrite <- app_assoc; apply numeric_grouped|exact I|reflexivity|exact Hf]. }
  assert (C : forall k', k' (TNumber (grouped ds gs)) (digits [] ds') = Found o -> comp (X n) true (c ++ digits [] ds') k' = Found o).
  { intros k' E'. unfold comp. assert (Ec : exists y r, c ++ digits [] ds' = tok (w_digit y) [] :: r) by (unfold c; destruct ds as [|y r]; [destruct Nd; congruence|]; eexists _, _; reflexivity).
    destruct Ec as (y & r & Ec). unfold palt at 1. replace (brackets TGroup _ _ _ _) with NoParse by (rewrite Ec; reflexivity).
    unfold palt at 1. replace (brackets TNorm _ _ _ _) with NoParse by (rewrite Ec; reflexivity).
    unfold palt at 1. replace (brackets TAbs _ _ _ _) with NoParse by (rewrite Ec; reflexivity).
    unfold palt at 1. replace (brackets TFloor _ _ _ _) with NoParse by (rewrite Ec; reflexivity).
    unfold palt at 1. replace (brackets TCeil _ _ _ _) with NoParse by (rewrite Ec; reflexivity).
    unfold palt at 1. replace (func _ _ _) with NoParse by (rewrite Ec; reflexivity).
    unfold palt at 1. replace (atom (X n) (c ++ digits [] ds') k') with (Found o); [reflexivity|]. symmetry.
    unfold atom. unfold palt at 1. replace (atom_expr _ _ _) with NoParse by (rewrite Ec; reflexivity).
    unfold palt at 1. replace (pmap (fun t => TConst (text t)) _ _ _) with NoParse by (rewrite Ec; reflexivity).
    unfold palt at 1. replace (p_e_notation (c ++ digits [] ds') k') with NoParse.
    2:{ symmetry. unfold p_e_notation, pmap at 1, ptext, pmap, pspan, pbind at 1, pbind at 1. apply Dn. intros [|x r0] Hr; [reflexivity|]. destruct x as [k0 s0 l0]. cbn [stop kind] in Hr. unfold mem in Hr. cbn in Hr. kinds Hr. }
    unfold palt at 1. replace (p_percent (c ++ digits [] ds') k') with NoParse.
    2:{ symmetry. unfold p_percent, pmap at 1, ptext, pmap, pspan, pbind at 1, pbind at 1. apply Dn. intros [|x r0] Hr; [reflexivity|]. destruct x as [k0 s0 l0]. cbn [stop kind] in Hr. unfold mem in Hr. cbn in Hr. kinds Hr. }
    unfold palt at 1. replace (p_number (c ++ digits [] ds') k') with (Found o); [reflexivity|]. symmetry.
    unfold p_number. pose proof (r_map n TNumber _ _ _ _ (r_text n _ _ tt [K_DIGIT] (r_grouped n ds gs [K_DIGIT] Nd F Ng eq_refl eq_refl))) as R. rewrite text_grouped in R.
    apply (R (digits [] ds')); [exact L|apply tame_digits| |exact E']. destruct ds' as [|y' r']; [destruct Nd'; congruence|reflexivity]. }
  assert (Hd : forall A0 (p : P A0), (forall y r k', p (tok (w_digit y) [] :: r) k' = NoParse) -> forall k', p (digits [] ds') k' = NoParse).
  { intros A0 p Hp k'. destruct ds' as [|y r]; [destruct Nd'; congruence|]. apply Hp. }
  unfold additive, chain at 1, pbind at 1. unfold mp, chain at 1, pbind at 1. unfold unary, pbind at 1. rewrite many_stop.
  2:{ intro k'. unfold c. destruct ds as [|y r]; [destruct Nd; congruence|reflexivity]. }
  unfold pbind at 1, pplus at 1, pbind at 1. unfold postfix at 1, pbind at 1. unfold exp at 1, pbind at 1. apply C.
  unfold pbind at 1. rewrite many_stop by (intro k'; apply Hd; reflexivity). unfold pret at 1.
  unfold pbind at 1. rewrite many_stop by (intro k'; apply Hd; reflexivity). unfold pret at 1.
  unfold pbind at 1. 
  assert (M : many_runs n (postfix (X n) true) (digits [] ds') [TNumber ds'] C2).
  { rewrite <- (app_nil_r (digits [] ds')). apply (many_cons n _ _ _ [] [] C2); [destruct ds'; [destruct Nd'; congruence|discriminate]| |apply tame_nil|apply stop_sub; reflexivity|apply many_nil, dead_postfix].
    apply close4, lift4, lift5. intro n0. apply (r_less _ _ _ _ (C5 ++ J)); [reflexivity|apply f_num, Nd']. }
  unfold pmany at 1. specialize (M (List.length (digits [] ds')) []). rewrite app_nil_r in M. apply M; [lia|rewrite app_length in L; lia|constructor|exact I|].
  exact E.
Qed.
End Thousands.
Section Commas.
Context {A : Type}.
Variable K : arithmetic A.
Variable V : Type.
Variable den : V -> A.
Variable rho : pystr -> A.
Variable values : list (pystr * pv V).
Variable hash : pystr -> pystr.
Notation reads := (Reads K V den rho values hash).
Lemma no_commas_grouped ds gs : Forall ascii_digit ds -> Forall three gs -> no_commas (grouped ds gs) = ds ++ concat gs.
Proof.
  intros Fd F. unfold grouped. rewrite no_commas_app, (no_commas_digits ds Fd). f_equal. induction F as [|g gs [Hg _] F IH]; [reflexivity|].
  cbn [flat_map concat]. rewrite !no_commas_app, (no_commas_digits g Hg), IH. reflexivity.
Qed.
Lemma grouped_reads ds gs : numeral ds -> Forall three gs -> reads (TNumber (grouped ds gs)) (int_value K (ds ++ concat gs)).
Proof.
  intros [Fd Nd] F. unfold int_value. apply R_number. rewrite (no_commas_grouped ds gs Fd F). apply dec_int; [|destruct ds; [congruence|discriminate]].
  apply Forall_app. split; [exact Fd|]. clear - F. induction F as [|g gs [Hg _] F IH]; [constructor|]. cbn [concat]. apply Forall_app. auto.
Qed.
Theorem parse_grouped ds gs : numeral ds -> Forall three gs -> gs <> [] ->
  exists t, parse_text (grouped ds gs) = Found (MRel (RExpr t)) /\ reads t (int_value K (ds ++ concat gs)).
Proof.
  intros Nd F Ng. exists (TJuxt [TNumber (grouped ds gs)]). split; [|apply R_juxt, R_one, grouped_reads; assumption].
  pose proof (lex_grouped ds gs [] Nd F (or_introl eq_refl)) as L. rewrite app_nil_r in L. cbn [digits] in L. rewrite app_nil_r in L.
  apply (parse_runs _ _ _ L). intro n. apply (r_less _ _ _ _ C0); [reflexivity|].
  apply close0, lift0, lift1, lift2; [apply lift3, lift4, lift5; intro n0; apply (r_less _ _ _ _ (C5 ++ J)); [reflexivity|apply f_grouped; assumption]| |].
  - apply unsigned_app, unsigned_digits, Nd.
  - apply tame_app; [apply tame_digits|apply tame_commas].
Qed.
Theorem parse_grouped_more ds gs ds' : numeral ds -> Forall three gs -> gs <> [] -> numeral ds' ->
  exists t, parse_text (grouped ds gs ++ ds') = Found (MRel (RExpr t)) /\ reads t (mul K (int_value K (ds ++ concat gs)) (int_value K ds')).
Proof.
  intros Nd F Ng Nd'. exists (TJuxt [TNumber (grouped ds gs); TNumber ds']). split; [|apply R_juxt, R_more; [apply grouped_reads; assumption|apply R_one, reads_num, Nd']].
  apply (parse_runs _ _ _ (lex_grouped ds gs ds' Nd F (or_intror Nd'))). intro n. rewrite app_assoc. apply f_grouped_more; assumption.
Qed.
End Commas.
